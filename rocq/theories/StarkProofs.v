(** * Lemmas on stark_problem *)
From Coq Require Import ZArith List Bool Lia ZifyBool ZifyNat.
From Flocq Require Import Core.Core IEEE754.BinarySingleNaN.
From Verif Require Import Outcome StateMonad Float64 LegModel HfModel HfSpec HfProofs StarkModel StarkSpec.
Import ListNotations.
Open Scope Z_scope.
Ltac Zify.zify_post_hook ::= Z.div_mod_to_equations.

Section Stark.
Variable integ integv : double -> list double -> list double -> double -> double -> bool * list double * double.
Variable var_ic : list double.
Hypothesis Hd : integ_dim integ.
Hypothesis Hdv : integ_dim integv.
Hypothesis Hic : length var_ic = 70%nat.
Variable tol : double.

(** the invariant; nothing about the left-over thrust, state and time *)
Record sk_inv (mu veff : double) (s : stark) : Prop := {
  i_mu : sk_mu s = mu; i_veff : sk_veff s = veff; i_tol : sk_tol s = tol;
  i_a : exists u, length u = 3%nat /\ ta_pars (sk_ta s) = mu :: veff :: u;
  i_at : ta_tol (sk_ta s) = tol; i_as : length (ta_state (sk_ta s)) = 7%nat;
  i_v : exists u, length u = 3%nat /\ ta_pars (sk_tav s) = mu :: veff :: u;
  i_vt : ta_tol (sk_tav s) = tol; i_vs : length (ta_state (sk_tav s)) = 77%nat;
  i_ic : sk_ic s = var_ic }.

Lemma ctor_inv mu veff : sk_inv mu veff (stark_ctor var_ic mu veff tol).
Proof.
  constructor; try reflexivity.
  - exists [dzero; dzero; dzero]. split; reflexivity.
  - exists [dzero; dzero; dzero]. split; reflexivity.
  - cbn -[done]. rewrite Hic. reflexivity.
Qed.

Lemma set_pars_u (mu veff : double) u v : length u = 3%nat -> length v = 3%nat -> blit 2 v (mu :: veff :: u) = mu :: veff :: v.
Proof. intros H1 H2. apply (blit_tail [mu; veff] u v). lia. Qed.


Lemma propagate_unfold x u t s : deqb (nth 6 x dzero) dzero = false ->
  propagate integ x u t s =
  let a := sk_ta s in
  let '(ok, y, t') := integ (ta_tol a) (blit 2 u (ta_pars a)) (blit 0 x (ta_state a)) dzero t in
  let s' := s_ta (mk_ta (ta_tol a) (blit 2 u (ta_pars a)) y t') s in
  (s', if ok then slice y 0 7 else Throw DomainError).
Proof.
  intros E. unfold propagate, check_mass, guard. rewrite E. unfold sbind, slift, sta_upd, smodify, run_ta.
  cbn [s_ta sk_ta ta_set_pars ta_set_time ta_set_state ta_tol ta_pars ta_state ta_time].
  destruct (integ _ _ _ _ _) as [[[|] y] t']; reflexivity.
Qed.

Lemma propagate_var_unfold x u t s : deqb (nth 6 x dzero) dzero = false ->
  propagate_var integv x u t s =
  let a := sk_tav s in
  let '(ok, y, t') := integv (ta_tol a) (blit 2 u (ta_pars a)) (blit 7 (sk_ic s) (blit 0 x (ta_state a))) dzero t in
  let s' := s_tav (mk_ta (ta_tol a) (blit 2 u (ta_pars a)) y t') s in
  (s', if ok then (z <- slice y 0 7 ;; d <- var_rows 7 0 y ;; Ret (z, d))%outcome else Throw DomainError).
Proof.
  intros E. unfold propagate_var, check_mass, guard. rewrite E. unfold sbind, slift, stav_upd, smodify, run_ta.
  cbn [s_tav sk_tav ta_set_pars ta_set_time ta_set_state ta_tol ta_pars ta_state ta_time sk_ic].
  destruct (integv _ _ _ _ _) as [[[|] y] t']; [|reflexivity]. cbn [s_tav sk_tav ta_state].
  destruct (slice y 0 7); [|reflexivity|reflexivity]. cbn [bind]. destruct (var_rows 7 0 y); reflexivity.
Qed.

Lemma propagate_eq mu veff x u t s : sk_inv mu veff s -> length x = 7%nat -> length u = 3%nat ->
  snd (propagate integ x u t s) = stark_flow integ mu veff tol x u t /\ sk_inv mu veff (fst (propagate integ x u t s)).
Proof.
  intros I Lx Lu. pose proof I as [I1 I2 I3 [u0 [I4 I5]] I6 I7 I8 I9 I10 I11].
  unfold stark_flow. destruct (deqb (nth 6 x dzero) dzero) eqn:E.
  { unfold propagate, sbind, slift, check_mass, guard. rewrite E. split; [reflexivity|exact I]. }
  rewrite (propagate_unfold x u t s E). cbv zeta.
  rewrite I6, I5, set_pars_u, blit_all by congruence.
  pose proof (Hd tol (mu :: veff :: u) x dzero t) as D.
  destruct (integ tol (mu :: veff :: u) x dzero t) as [[ok y] t']; cbn [fst snd] in D; cbn [fst snd].
  split.
  - destruct ok; [|reflexivity]. rewrite slice_ok by lia. f_equal. unfold sub_range. cbn [Z.to_nat skipn]. apply firstn_all2. rewrite D, Lx. apply le_n.
  - constructor; cbn [s_ta sk_mu sk_veff sk_tol sk_ta sk_tav sk_ic ta_tol ta_pars ta_state]; try assumption; try (exists u; split; [assumption|reflexivity]); try congruence.
Qed.

(** the rows read from a 77-vector *)
Lemma var_rows_ok st : length st = 77%nat -> forall k i, 0 <= i -> i + Z.of_nat k <= 7 ->
  exists a b, var_rows k i st = Ret (a, b) /\ length a = (7 * k)%nat /\ length b = (3 * k)%nat /\
   (forall r c, (r < k)%nat -> (c < 7)%nat -> nth (7 * r + c) a dzero = nth (7 + 10 * (Z.to_nat i + r) + c) st dzero) /\
   (forall r c, (r < k)%nat -> (c < 3)%nat -> nth (3 * r + c) b dzero = nth (14 + 10 * (Z.to_nat i + r) + c) st dzero).
Proof.
  intros L. induction k as [|k IH]; intros i Hi Hk.
  - exists [], []. repeat split; intros; lia.
  - cbn [var_rows]. rewrite !slice_ok by lia. cbn [bind].
    destruct (IH (i + 1) ltac:(lia) ltac:(lia)) as (a & b & E & La & Lb & Na & Nb). rewrite E. cbn [bind fst snd].
    eexists _, _. split; [reflexivity|].
    assert (L1 : length (sub_range st (7 + 10 * i) (7 + 10 * i + 7)) = 7%nat) by (unfold sub_range; rewrite firstn_length, skipn_length; lia).
    assert (L2 : length (sub_range st (14 + 10 * i) (14 + 10 * i + 3)) = 3%nat) by (unfold sub_range; rewrite firstn_length, skipn_length; lia).
    rewrite !app_length, L1, L2. split; [lia|]. split; [lia|].
    assert (NF : forall (m : list double) n j, (j < n)%nat -> nth j (firstn n m) dzero = nth j m dzero).
    { intros m n. revert m. induction n; intros m j Hj; [lia|]. destruct m, j; try reflexivity. cbn. apply IHn. lia. }
    assert (NS : forall (m : list double) n j, nth j (skipn n m) dzero = nth (n + j) m dzero).
    { intros m n. revert m. induction n; intros m j; [reflexivity|]. destruct m; [destruct j; reflexivity|]. cbn. apply IHn. }
    split; intros r c Hr Hc.
    + destruct r as [|r].
      * rewrite app_nth1 by lia. unfold sub_range. rewrite NF by lia. rewrite NS. f_equal. lia.
      * rewrite app_nth2 by lia. rewrite L1. replace (7 * S r + c - 7)%nat with (7 * r + c)%nat by lia. rewrite Na by lia. f_equal. lia.
    + destruct r as [|r].
      * rewrite app_nth1 by lia. unfold sub_range. rewrite NF by lia. rewrite NS. f_equal. lia.
      * rewrite app_nth2 by lia. rewrite L2. replace (3 * S r + c - 3)%nat with (3 * r + c)%nat by lia. rewrite Nb by lia. f_equal. lia.
Qed.

Lemma propagate_var_eq mu veff x u t s : sk_inv mu veff s -> length x = 7%nat -> length u = 3%nat ->
  var_result (stark_flow_var integv var_ic mu veff tol x u t) (snd (propagate_var integv x u t s))
  /\ sk_inv mu veff (fst (propagate_var integv x u t s)).
Proof.
  intros I Lx Lu. pose proof I as [I1 I2 I3 I4 I5 I6 [u0 [I7 I8]] I9 I10 I11].
  unfold stark_flow_var. destruct (deqb (nth 6 x dzero) dzero) eqn:E.
  { unfold propagate_var, sbind, slift, check_mass, guard. rewrite E. split; [reflexivity|exact I]. }
  rewrite (propagate_var_unfold x u t s E). cbv zeta.
  rewrite I9, I8, I11, set_pars_u by congruence.
  assert (B : blit 7 var_ic (blit 0 x (ta_state (sk_tav s))) = x ++ var_ic).
  { unfold blit at 2. cbn [firstn app Nat.add]. rewrite <- Lx. apply blit_tail. rewrite skipn_length. lia. }
  rewrite B.
  pose proof (Hdv tol (mu :: veff :: u) (x ++ var_ic) dzero t) as D. rewrite app_length, Lx, Hic in D.
  destruct (integv tol (mu :: veff :: u) (x ++ var_ic) dzero t) as [[ok y] t']; cbn [fst snd] in D; cbn [fst snd].
  split.
  - destruct ok; [|reflexivity]. rewrite slice_ok by lia. cbn [bind].
    destruct (var_rows_ok y D 7 0 ltac:(lia) ltac:(lia)) as (a & b & R & La & Lb & Na & Nb). rewrite R. cbn [bind].
    split; [exact D|]. exists a, b. split; [reflexivity|]. split; [exact La|]. split; [exact Lb|]. split; [intros; apply Na; assumption|].
    intros i j Hi Hj. rewrite (Nb i j Hi Hj). f_equal. lia.
  - constructor; cbn [s_tav sk_mu sk_veff sk_tol sk_ta sk_tav sk_ic ta_tol ta_pars ta_state]; try assumption; try (exists u; split; [assumption|reflexivity]); congruence.
Qed.

Lemma step_inv o mu veff s : sk_typed o -> sk_inv mu veff s ->
  sk_inv (match o with SMu v => v | _ => mu end) (match o with SVeff v => v | _ => veff end) (sk_do integ integv o s).
Proof.
  intros T I. destruct o as [v|v|x u t|x u t]; cbn [sk_do sk_typed] in *.
  - destruct I as [I1 I2 I3 [u0 [I4 I5]] I6 I7 [u1 [I8 I9]] I10 I11 I12].
    constructor; cbn [set_mu smodify fst sk_mu sk_veff sk_tol sk_ta sk_tav sk_ic ta_set_pars ta_tol ta_pars ta_state]; try assumption; try reflexivity.
    + exists u0. rewrite I5. split; [assumption|reflexivity].
    + exists u1. rewrite I9. split; [assumption|reflexivity].
  - destruct I as [I1 I2 I3 [u0 [I4 I5]] I6 I7 [u1 [I8 I9]] I10 I11 I12].
    constructor; cbn [set_veff smodify fst sk_mu sk_veff sk_tol sk_ta sk_tav sk_ic ta_set_pars ta_tol ta_pars ta_state]; try assumption; try reflexivity.
    + exists u0. rewrite I5. split; [assumption|reflexivity].
    + exists u1. rewrite I9. split; [assumption|reflexivity].
  - apply propagate_eq; tauto.
  - apply propagate_var_eq; tauto.
Qed.

Lemma run_sk_inv : forall ops mu veff s, Forall sk_typed ops -> sk_inv mu veff s ->
  sk_inv (cur_mu ops mu) (cur_veff ops veff) (sk_run integ integv ops s).
Proof.
  induction ops as [|o ops IH]; intros mu veff s T I; [exact I|].
  inversion T; subst. unfold cur_mu, cur_veff, sk_run. cbn [fold_left]. apply IH; [assumption|]. apply step_inv; assumption.
Qed.

Theorem stark_history ops mu veff s x u t : Forall sk_typed ops -> s = sk_run integ integv ops (stark_ctor var_ic mu veff tol) ->
  length x = 7%nat -> length u = 3%nat ->
  snd (propagate integ x u t s) = stark_flow integ (cur_mu ops mu) (cur_veff ops veff) tol x u t /\
  var_result (stark_flow_var integv var_ic (cur_mu ops mu) (cur_veff ops veff) tol x u t) (snd (propagate_var integv x u t s)) /\
  sk_mu s = cur_mu ops mu /\ sk_veff s = cur_veff ops veff.
Proof.
  intros T -> Lx Lu. pose proof (run_sk_inv ops mu veff _ T (ctor_inv mu veff)) as I.
  split; [apply propagate_eq; assumption|]. split; [apply propagate_var_eq; assumption|]. split; apply I.
Qed.
End Stark.

(** if the variational integrator's first seven components are the plain flow, the two calls agree *)
Theorem stark_var_same_state integ integv var_ic tol ops mu veff s x u t y :
  integ_dim integ -> integ_dim integv -> length var_ic = 70%nat ->
  (forall tol p x t0 t1, length x = 7%nat -> fst (fst (integv tol p (x ++ var_ic) t0 t1)) = fst (fst (integ tol p x t0 t1)) /\
     firstn 7 (snd (fst (integv tol p (x ++ var_ic) t0 t1))) = snd (fst (integ tol p x t0 t1))) ->
  Forall sk_typed ops -> s = sk_run integ integv ops (stark_ctor var_ic mu veff tol) -> length x = 7%nat -> length u = 3%nat ->
  snd (propagate integ x u t s) = Ret y -> exists d, snd (propagate_var integv x u t s) = Ret (y, d).
Proof.
  intros Hd Hdv Hic Hrel T E Lx Lu P.
  destruct (stark_history integ integv var_ic Hd Hdv Hic tol ops mu veff s x u t T E Lx Lu) as (P1 & P2 & _).
  rewrite P in P1. unfold stark_flow, stark_flow_var in *.
  destruct (deqb _ _); [discriminate|].
  destruct (Hrel tol (cur_mu ops mu :: cur_veff ops veff :: u) x dzero t Lx) as [R1 R2].
  destruct (integ _ _ _ _ _) as [[ok1 y1] t1], (integv _ _ _ _ _) as [[ok2 y2] t2]. cbn [fst snd] in R1, R2. subst ok2.
  destruct ok1; [|discriminate]. injection P1 as P1.
  destruct P2 as [_ (a & b & P2 & _)]. rewrite R2, <- P1 in P2. exists (a, b). exact P2.
Qed.
