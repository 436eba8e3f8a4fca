(** * The derivative of a chain of coasts and impulses *)
From Coq Require Import Reals Lra Lia ZArith.
From Coquelicot Require Import Coquelicot.
From Coq Require Import List.
From Verif Require Import Outcome PartialReal RealLib KepSpec Vec3 TwoBodyModel TwoBodySpec TcModel DynModel ReynoldsModel FlowProofs FlowMain TwoBodyProofs StmProofs StmMain ReynoldsMain SfFlow SfModel SfSpec SfProofs SfMain.
Import ListNotations.
Open Scope R_scope.

(** ** Finite sums *)
Lemma sum_ext n f g : (forall j, (j < n)%nat -> f j = g j) -> sum_n n f = sum_n n g.
Proof. induction n as [|n IH]; intros H; cbn; [reflexivity|]. rewrite IH by (intros; apply H; lia). rewrite (H n) by lia. reflexivity. Qed.
Lemma sum_plus n f g : sum_n n (fun j => f j + g j) = sum_n n f + sum_n n g.
Proof. induction n as [|n IH]; cbn; [ring|]. rewrite IH. ring. Qed.
Lemma sum_scal n k f : sum_n n (fun j => k * f j) = k * sum_n n f.
Proof. induction n as [|n IH]; cbn; [ring|]. rewrite IH. ring. Qed.
Lemma sum_zero n : sum_n n (fun _ => 0) = 0. Proof. induction n as [|n IH]; cbn; [reflexivity|]. rewrite IH. ring. Qed.
Lemma sum_delta n k (f : nat -> R) : (k < n)%nat -> sum_n n (fun j => (if Nat.eqb j k then 1 else 0) * f j) = f k.
Proof.
  induction n as [|n IH]; intros L; [lia|]. cbn [sum_n]. destruct (Nat.eqb_spec n k) as [->|N].
  - rewrite (sum_ext k _ (fun _ => 0)), sum_zero; [ring|]. intros j J. destruct (Nat.eqb_spec j k); [lia|ring].
  - rewrite IH by lia. ring.
Qed.

(** ** States near a curve *)
Lemma nonsing_near mu c d : nonsing mu (c 0) -> sderive c 0 d -> near (fun e => nonsing mu (c e)).
Proof.
  intros [Rg E] [D1 D2]. destruct (regular_r _ _ Rg) as [Mu [Hr Hh]].
  pose proof (vder_cross (fun u => fst (c u)) (fun u => snd (c u)) 0 _ _ D1 D2) as DX. pose proof (der_dot _ _ 0 _ _ DX DX) as DD. cbv beta in DD.
  assert (N1 : near (fun e => 0 < dot (cross (fst (c e)) (snd (c e))) (cross (fst (c e)) (snd (c e))))) by (eapply near_gt; [exact DD|apply dot_pos; exact Hh]).
  pose proof (der_norm (fun u => fst (c u)) 0 _ D1 Hr) as DN. pose proof (norm_pos _ Hr) as PN. pose proof (der_dot _ _ 0 _ _ D2 D2) as DV. cbv beta in *.
  assert (DE : exists l, is_derive (fun e => energy mu (c e)) 0 l).
  { eexists. unfold energy. apply der_minus; [apply (der_div _ (fun _ => 2)); [exact DV|apply der_const|lra]|apply (der_div (fun _ => mu)); [apply der_const|exact DN|lra]]. }
  destruct DE as [l DE]. pose proof (der_mult _ _ _ _ _ DE DE) as D4. cbv beta in D4.
  assert (N2 : near (fun e => 0 < energy mu (c e) * energy mu (c e))) by (eapply near_gt; [exact D4|nra]).
  apply (near_imp _ _ (near_and _ _ N1 N2)). intros e [A B]. split; [split; [exact Mu|]|nra].
  unfold ang_mom. intros Z. rewrite Z in A. unfold dot, vzero in A. cbn in A. lra.
Qed.
Lemma dyn_field mu s : fst s <> vzero -> dyn s mu = field_at mu s.
Proof.
  intros N. unfold dyn, field_at, gravity. f_equal. replace (vx (fst s) * vx (fst s) + vy (fst s) * vy (fst s) + vz (fst s) * vz (fst s)) with (dot (fst s) (fst s)) by reflexivity.
  pose proof (norm_pos _ N) as P. rewrite <- norm_sq. replace (Rpower (norm (fst s) * norm (fst s)) 1.5) with (norm (fst s) ^ 3); [reflexivity|].
  replace (norm (fst s) * norm (fst s)) with (Rpower (norm (fst s)) 2). 2:{ replace 2 with (INR 2) by reflexivity. rewrite Rpower_pow by exact P. cbn. ring. }
  rewrite Rpower_mult. replace (2 * 1.5) with (INR 3) by (cbn; lra). rewrite Rpower_pow by exact P. reflexivity.
Qed.

Lemma derive7_near y1 y2 d : derive7 y1 0 d -> near (fun e => y1 e = y2 e) -> derive7 y2 0 d.
Proof.
  intros [[[A [B C]] [D [E F]]] G] [eps [P N]].
  split; [split; (split; [|split])|]; (eapply (der_near _ _ _ eps P); [|eassumption]); intros e He; cbn; rewrite (N e He); reflexivity.
Qed.

(** ** One half of the leg, as curves *)
Section Half.
Variable newton : (R -> R * R) -> R -> R -> R -> option R.
Hypothesis NS : newton_sound newton.
Variables (mu T a : R).
Variable nseg : nat.
(** displacements of the throttles, the mass and the time *)
Variable del : nat -> R.
Definition W : nat := (3 * nseg + 2)%nat.
Definition lsum (f : nat -> R) : R := sum_n W (fun j => f j * del j).
Definition vsum (f : nat -> vec) : vec := V (lsum (fun j => vx (f j))) (lsum (fun j => vy (f j))) (lsum (fun j => vz (f j))).
Definition tri (i : nat) : vec := V (del (3 * i)) (del (3 * i + 1)) (del (3 * i + 2)).
(** the time step and c = T dt *)
Variables (dt : R -> R).
Definition ddt : R := del (3 * nseg + 1) / INR nseg.
Hypothesis dtD : is_derive dt 0 ddt.
Hypothesis dt0 : 0 < dt 0.
Hypothesis T0 : 0 <= T.
Hypothesis Nz : (0 < nseg)%nat.
Let c (e : R) : R := T * dt e.
Definition kfc (e m : R) (u : vec) : vec := vscal (T * dt e / m) u.
Definition mfc (e m : R) (u : vec) : R := m * exp (- norm (vscal (T * dt e / m) u) * a).
Definition runc (e : R) (us : list vec) (d : R) (x : state) (m : R) (q : col7) : Prop := run (nonsing mu) mu (dt e / 2) (kfc e) (mfc e) us d x m q.
Fixpoint udiff (i : nat) (uc : list (R -> vec)) : Prop := match uc with [] => True | f :: r => vderive f 0 (tri i) /\ udiff (S i) r end.
Definition at_ (e : R) (uc : list (R -> vec)) : list vec := map (fun f => f e) uc.
Fixpoint lin (Mf : list (list R * state)) (ws : list vec) (dd : R) (dx : state) : state :=
  match Mf, ws with
  | (M, f) :: rest, w :: ws' => lin rest ws' ddt (add6 (add6 (mat_apply M dx) (scal6 dd f)) (iv w))
  | (M, f) :: _, [] => add6 (mat_apply M dx) (scal6 (ddt / 2) f)
  | [], _ => dx
  end.
Lemma Npos : 0 < INR nseg. Proof. apply lt_0_INR, Nz. Qed.
Lemma cD : is_derive (fun e => T * dt e) 0 (T * ddt). Proof. apply der_scal, dtD. Qed.

(** linearity of the sums *)
Lemma lsum_du i : (i < nseg)%nat -> vsum (du i) = tri i.
Proof. intros L. unfold vsum, tri, du, lsum, W. cbn [vx vy vz]. rewrite !sum_delta by lia. reflexivity. Qed.
Lemma lsum_dtof : lsum (dtof nseg) = del (3 * nseg + 1). Proof. unfold lsum, dtof, W. rewrite sum_delta by lia. reflexivity. Qed.
Lemma lsum_dm0 : lsum (dm0 nseg) = del (3 * nseg). Proof. unfold lsum, dm0, W. rewrite sum_delta by lia. reflexivity. Qed.
Lemma lsum_plus f g : lsum (fun j => f j + g j) = lsum f + lsum g.
Proof. unfold lsum. rewrite <- sum_plus. apply sum_ext. intros j _. ring. Qed.
Lemma lsum_scal k f : lsum (fun j => k * f j) = k * lsum f.
Proof. unfold lsum. rewrite <- sum_scal. apply sum_ext. intros j _. ring. Qed.
Lemma lsum_ext f g : (forall j, f j = g j) -> lsum f = lsum g.
Proof. intros H. unfold lsum. apply sum_ext. intros j _. rewrite H. reflexivity. Qed.
Lemma lsum_dot u f : lsum (fun j => dot u (f j)) = dot u (vsum f).
Proof. unfold dot. rewrite !lsum_plus, !lsum_scal. reflexivity. Qed.

(** the derivative of the impulse, and of the mass after it *)
Lemma impulse_der (u : R -> vec) (m : R -> R) dm i : (i < nseg)%nat -> 0 < m 0 -> vderive u 0 (tri i) -> is_derive m 0 (lsum dm) ->
  vderive (fun e => vscal (T * dt e / m e) (u e)) 0
    (vsum (fun j => vadd (vsub (vscal (c 0 / m 0) (du i j)) (vscal (c 0 / m 0 / m 0) (vscal (dm j) (u 0)))) (vscal (T / m 0) (vscal (/ INR nseg) (vscal (dtof nseg j) (u 0)))))).
Proof.
  intros L M U D. pose proof Npos as NP. unfold c.
  assert (Q : is_derive (fun e => T * dt e / m e) 0 (T * ddt / m 0 - T * dt 0 / m 0 / m 0 * lsum dm)).
  { eapply der_to; [apply (der_div (fun e => T * dt e) m); [apply cD|exact D|lra]|]. cbv beta. field. lra. }
  eapply vder_eq; [apply (vder_scal (fun e => T * dt e / m e)); [exact Q|exact U]|]. cbv beta.
  pose proof (lsum_du i L) as E. unfold vsum, tri in E. injection E as E1 E2 E3.
  assert (G : forall (pr : vec -> R) (x : R), (forall p q, pr (vadd p q) = pr p + pr q) -> (forall p q, pr (vsub p q) = pr p - pr q) -> (forall k p, pr (vscal k p) = k * pr p) -> lsum (fun j => pr (du i j)) = x ->
    lsum (fun j => pr (vadd (vsub (vscal (T * dt 0 / m 0) (du i j)) (vscal (T * dt 0 / m 0 / m 0) (vscal (dm j) (u 0)))) (vscal (T / m 0) (vscal (/ INR nseg) (vscal (dtof nseg j) (u 0)))))) =
    (T * ddt / m 0 - T * dt 0 / m 0 / m 0 * lsum dm) * pr (u 0) + T * dt 0 / m 0 * x).
  { intros pr x P1 P2 P3 <-. rewrite (lsum_ext _ (fun j => T * dt 0 / m 0 * pr (du i j) + (- (T * dt 0 / m 0 / m 0 * pr (u 0)) * dm j + T / m 0 * / INR nseg * pr (u 0) * dtof nseg j))).
    - rewrite !lsum_plus, !lsum_scal, lsum_dtof. unfold ddt. field. split; lra.
    - intros j. rewrite P1, P2, !P3. ring. }
  unfold vsum. apply vec_eq.
  - refine (eq_trans _ (eq_sym (G vx (vx (tri i)) (fun _ _ => eq_refl) (fun _ _ => eq_refl) (fun _ _ => eq_refl) E1))). unfold vadd, vscal; cbn [vx vy vz]. ring.
  - refine (eq_trans _ (eq_sym (G vy (vy (tri i)) (fun _ _ => eq_refl) (fun _ _ => eq_refl) (fun _ _ => eq_refl) E2))). unfold vadd, vscal; cbn [vx vy vz]. ring.
  - refine (eq_trans _ (eq_sym (G vz (vz (tri i)) (fun _ _ => eq_refl) (fun _ _ => eq_refl) (fun _ _ => eq_refl) E3))). unfold vadd, vscal; cbn [vx vy vz]. ring.
Qed.
Lemma near_c : near (fun e => 0 <= T * dt e).
Proof. apply (near_imp (fun e => 0 < dt e)); [eapply near_gt; [exact dtD|exact dt0]|]. intros e H. nra. Qed.
Lemma mass_der (u : R -> vec) (m : R -> R) dm i : (i < nseg)%nat -> 0 < m 0 -> u 0 <> vzero -> vderive u 0 (tri i) -> is_derive m 0 (lsum dm) ->
  let un := norm (u 0) in let m1 := m 0 * exp (- (c 0 / m 0 * un) * a) in
  is_derive (fun e => mfc e (m e) (u e)) 0
    (lsum (fun j => - m1 * a * (c 0 / m 0 / un * dot (u 0) (du i j) - c 0 / m 0 / m 0 * un * dm j + T / m 0 * un * dtof nseg j / INR nseg) + exp (- (c 0 / m 0 * un) * a) * dm j))
  /\ mfc 0 (m 0) (u 0) = m1.
Proof.
  intros L M U DU D un m1. pose proof Npos as NP. unfold c in *. pose proof (norm_pos _ U) as UP. fold un in UP.
  assert (V0 : mfc 0 (m 0) (u 0) = m1). { unfold mfc, m1. rewrite norm_vscal, Rabs_right; [reflexivity|]. apply Rle_ge. apply Rmult_le_pos; [nra|left; apply Rinv_0_lt_compat, M]. }
  split; [|exact V0].
  assert (Q : is_derive (fun e => T * dt e / m e) 0 (T * ddt / m 0 - T * dt 0 / m 0 / m 0 * lsum dm)).
  { eapply der_to; [apply (der_div (fun e => T * dt e) m); [apply cD|exact D|lra]|]. cbv beta. field. lra. }
  assert (D1 : is_derive (fun e => m e * exp (- (T * dt e / m e * norm (u e)) * a)) 0
     (lsum (fun j => - m1 * a * (T * dt 0 / m 0 / un * dot (u 0) (du i j) - T * dt 0 / m 0 / m 0 * un * dm j + T / m 0 * un * dtof nseg j / INR nseg) + exp (- (T * dt 0 / m 0 * un) * a) * dm j))).
  { rewrite (lsum_ext _ (fun j => (- m1 * a * (T * dt 0 / m 0 / un)) * dot (u 0) (du i j) + ((m1 * a * (T * dt 0 / m 0 / m 0 * un) + exp (- (T * dt 0 / m 0 * un) * a)) * dm j + (- m1 * a * (T / m 0 * un / INR nseg)) * dtof nseg j))).
    2:{ intros j. field. lra. }
    rewrite !lsum_plus, !lsum_scal, lsum_dot, lsum_dtof, (lsum_du i L).
    pose proof (der_norm u 0 _ DU U) as DN. fold un in DN.
    eapply der_to.
    - apply (der_mult m (fun e => exp (- (T * dt e / m e * norm (u e)) * a))); [exact D|].
      apply (der_comp exp (fun e => - (T * dt e / m e * norm (u e)) * a)); [apply is_derive_Reals, derivable_pt_lim_exp|].
      apply (der_mult (fun e => - (T * dt e / m e * norm (u e))) (fun _ => a)); [|apply der_const]. apply der_opp.
      apply (der_mult (fun e => T * dt e / m e) (fun e => norm (u e))); [exact Q|exact DN].
    - cbv beta. fold un. unfold m1, ddt. field. repeat split; lra. }
  destruct (near_and _ _ near_c (near_gt m _ 0 D M)) as [eps [P N]].
  apply (der_near (fun e => m e * exp (- (T * dt e / m e * norm (u e)) * a)) _ _ eps P); [|exact D1].
  intros e He. destruct (N e He) as [N1 N2]. unfold mfc. rewrite norm_vscal, Rabs_right; [reflexivity|]. apply Rle_ge. apply Rmult_le_pos; [exact N1|left; apply Rinv_0_lt_compat, N2].
Qed.
Lemma sder_kick (y : R -> state) (w : R -> vec) d v : sderive y 0 d -> vderive w 0 v -> sderive (fun e => kick (y e) (w e)) 0 (add6 d (iv v)).
Proof.
  intros [A B] D. split; cbn [kick fst snd add6 iv].
  - eapply vder_eq; [exact A|]. apply vec_eq; unfold vadd, vzero; cbn; ring.
  - apply (vder_add (fun e => snd (y e)) w); assumption.
Qed.
Theorem run_der uc : forall i sch mN dmN Mf (x : R -> state) (m d : R -> R) dx dm dd q0,
  schedule nseg i (at_ 0 uc) T (c 0) a (m 0) dm = Some (sch, mN, dmN) -> (i + length uc = nseg)%nat ->
  arcs newton nseg i (map fst sch) (dt 0) mu (x 0) = Ret Mf ->
  (uc <> [] -> d 0 = (if Nat.eqb i 0 then dt 0 / 2 else dt 0)) -> (uc = [] -> i <> 0%nat) ->
  runc 0 (at_ 0 uc) (d 0) (x 0) (m 0) q0 ->
  udiff i uc -> sderive x 0 dx -> is_derive m 0 (lsum dm) -> 0 < m 0 -> is_derive d 0 dd ->
  exists q, q 0 = q0 /\ near (fun e => runc e (at_ e uc) (d e) (x e) (m e) (q e)) /\
  sderive (fun e => fst (q e)) 0 (lin Mf (map (fun s => vsum (snd s)) sch) dd dx) /\ is_derive (fun e => snd (q e)) 0 (lsum dmN) /\ mN = snd q0 /\ length Mf = S (length uc) /\ length sch = length uc.
Proof.
  induction uc as [|u uc IH]; intros i sch mN dmN Mf x m d dx dm dd q0 SC L AR Hd Hi R0 UD Dx Dm M0 Dd.
  - cbn in SC. injection SC as <- <- <-. cbn [map arcs] in AR. cbn [runc run at_ map] in R0. destruct R0 as [OK [F Qm]].
    cbn in L. replace (Nat.eqb i 0) with false in AR by (symmetry; apply Nat.eqb_neq; intros ->; apply (Hi eq_refl); reflexivity). replace (Nat.eqb i nseg) with true in AR by (symmetry; apply Nat.eqb_eq; lia). cbn [orb] in AR.
    destruct (propagate_lagrangian newton (x 0) (dt 0 / 2) mu true) as [[s' o]| |] eqn:PL; cbn [bind] in AR; try discriminate.
    destruct (jac_sound newton mu (x 0) (dt 0 / 2) s' o NS (proj1 OK) (proj2 OK) PL) as [F' [M [-> J]]]. cbn [fst snd] in AR. injection AR as <-.
    pose proof (flow_functional _ _ _ _ _ F F') as E. rewrite <- E in *. clear E s'.
    assert (DH : is_derive (fun e => dt e / 2) 0 (ddt / 2)). { eapply der_to; [apply (der_div dt (fun _ => 2)); [exact dtD|apply der_const|lra]|]. cbv beta. field. }
    destruct (flow_joint mu (x 0) (dt 0 / 2) (fst q0) M (proj1 (proj1 OK)) J ltac:(lra) F' (fun e => dt e / 2) (ddt / 2) eq_refl DH x dx eq_refl Dx) as [y [eps [EP [Y0 [FY DY]]]]].
    exists (fun e => (y e, m e)). split; [rewrite Y0; destruct q0; cbn in *; rewrite Qm; reflexivity|]. split.
    + apply (near_imp (fun e => nonsing mu (x e) /\ flow_at mu (x e) (dt e / 2) (y e))); [apply near_and; [apply (nonsing_near mu x dx OK Dx)|exists eps; split; assumption]|].
      intros e [A B]. cbn. split; [exact A|]. split; [exact B|reflexivity].
    + cbn [fst snd map lin]. split; [|split; [exact Dm|split; [symmetry; exact Qm|split; reflexivity]]].
      destruct (flow_integrals mu (x 0) _ _ (proj1 OK) F') as [_ N1]. rewrite (dyn_field mu _ N1). exact DY.
  - cbn [at_ map schedule] in SC. cbv zeta in SC. fold (dot (u 0) (u 0)) in SC. 
    change (vx (u 0) * vx (u 0) + vy (u 0) * vy (u 0) + vz (u 0) * vz (u 0)) with (dot (u 0) (u 0)) in SC. fold (norm (u 0)) in SC.
    destruct (Req_EM_T (norm (u 0)) 0) as [Z|Z]; [rewrite Z, pdiv_none in SC; discriminate SC|]. rewrite pdiv_some in SC by exact Z. cbn [obind] in SC.
    assert (U0 : u 0 <> vzero) by (intros E; apply Z; rewrite E; apply norm_0).
    cbn in L. destruct UD as [DU UD].
    destruct (mass_der u m dm i ltac:(lia) M0 U0 DU Dm) as [DM1 M1]. cbv zeta in DM1, M1.
    pose proof (impulse_der u m dm i ltac:(lia) M0 DU Dm) as DV.
    match type of SC with obind ?s _ = _ => destruct s as [[[sch' mN'] dmN']|] eqn:S'; [|discriminate SC] end. cbn [obind fst snd] in SC. injection SC as <- <- <-.
    cbn [map fst arcs] in AR.
    cbn [runc run at_ map] in R0. destruct R0 as [y0 [OK [F R1]]].
    replace (Nat.eqb i nseg) with false in AR by (symmetry; apply Nat.eqb_neq; lia). rewrite Bool.orb_false_r in AR. specialize (Hd ltac:(discriminate)). rewrite <- Hd in AR.
    destruct (propagate_lagrangian newton (x 0) (d 0) mu true) as [[s' o]| |] eqn:PL; cbn [bind] in AR; try discriminate.
    destruct (jac_sound newton mu (x 0) (d 0) s' o NS (proj1 OK) (proj2 OK) PL) as [F' [M [-> J]]]. cbn [fst snd] in AR.
    pose proof (flow_functional _ _ _ _ _ F F') as E. rewrite <- E in *. clear E s'.
    match type of AR with bind ?z _ = _ => destruct z as [Mf'| |] eqn:AR'; cbn [bind] in AR; try discriminate end. injection AR as <-.
    assert (D0 : d 0 <> 0) by (rewrite Hd; destruct (Nat.eqb i 0); lra).
    destruct (flow_joint mu (x 0) (d 0) y0 M (proj1 (proj1 OK)) J D0 F' d dd eq_refl Dd x dx eq_refl Dx) as [y [eps [EP [Y0 [FY DY]]]]].
    set (K := fun e => kick (y e) (kfc e (m e) (u e))). set (m1 := fun e => mfc e (m e) (u e)).
    match type of DV with vderive _ _ ?w => pose proof (sder_kick y _ _ w DY DV) as DK; set (wv := w) in * end.
    fold K in DK.
    assert (R2 : runc 0 (at_ 0 uc) (dt 0) (K 0) (m1 0) q0) by (unfold runc, K; rewrite Y0; replace (dt 0 / 2 + dt 0 / 2) with (dt 0) in R1 by field; exact R1).
    assert (M1P : 0 < m1 0) by (unfold m1; rewrite M1; apply Rmult_lt_0_compat; [exact M0|apply exp_pos]).
    assert (AR2 : arcs newton nseg (S i) (map fst sch') (dt 0) mu (K 0) = Ret Mf') by (unfold K, kick; rewrite Y0; exact AR').
    fold m1 in M1. change (m1 0) with (mfc 0 (m 0) (u 0)) in M1P, R2. 
    destruct (IH (S i) sch' mN' dmN' Mf' K m1 dt _ _ ddt q0 ltac:(unfold m1; rewrite M1; exact S') ltac:(lia) AR2 (fun _ => eq_refl) (fun _ => Nat.neq_succ_0 i) R2 UD DK DM1 M1P dtD) as [q [Q0 [NQ [DQ1 [DQ2 [QM [QL QS]]]]]]].
    exists q. split; [exact Q0|]. split.
    + apply (near_imp (fun e => (nonsing mu (x e) /\ flow_at mu (x e) (d e) (y e)) /\ runc e (at_ e uc) (dt e) (K e) (m1 e) (q e))).
      * apply near_and; [|exact NQ]. apply near_and; [apply (nonsing_near mu x dx OK Dx)|exists eps; split; assumption].
      * intros e [[A B] Rn]. unfold runc. cbn [at_ map run]. exists (y e). split; [exact A|]. split; [exact B|].
        replace (dt e / 2 + dt e / 2) with (dt e) by field. exact Rn.
    + split; [|split; [exact DQ2|split; [exact QM|split; cbn [length]; congruence]]].
      cbn [map lin snd]. destruct (flow_integrals mu (x 0) _ _ (proj1 OK) F') as [_ N1]. rewrite (dyn_field mu _ N1). exact DQ1.
Qed.

End Half.
