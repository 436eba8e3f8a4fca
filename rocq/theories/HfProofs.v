(** * Lemmas on the high-fidelity leg *)
From Coq Require Import ZArith Reals Lra List Bool Lia ZifyBool.
From Flocq Require Import Core.Core IEEE754.BinarySingleNaN.
From Verif Require Import Outcome StateMonad Float64 Float64Facts LegModel LegSpec LegProofs HfModel HfSpec.
Import ListNotations.
Open Scope Z_scope.
Ltac Zify.zify_post_hook ::= Z.div_mod_to_equations.

Ltac hfs := cbn [h_rvms h_thr h_thrusts h_rvmf h_tof h_T h_isp h_mu h_cut h_tol h_split h_tas
  hf_rvms hf_vars hf_thr hf_thrusts hf_rvmf hf_tof hf_T hf_isp hf_mu hf_cut hf_tol hf_n hf_nf hf_nb hf_tas hf_tasv].

Lemma blit_length {A} off (src dst : list A) : (off + length src <= length dst)%nat ->
  length (blit off src dst) = length dst.
Proof. intros H. unfold blit. rewrite !app_length, firstn_length, skipn_length. lia. Qed.

Lemma blit_all {A} (src dst : list A) : length src = length dst -> blit 0 src dst = src.
Proof. intros H. unfold blit. cbn [firstn app]. rewrite skipn_all2 by lia. apply app_nil_r. Qed.

Lemma blit_tail {A} (p u v : list A) : length u = length v -> blit (length p) v (p ++ u) = p ++ v.
Proof.
  intros H. unfold blit. rewrite firstn_app, Nat.sub_diag, firstn_all. cbn [firstn]. rewrite app_nil_r.
  rewrite skipn_all2 by (rewrite app_length; lia). rewrite app_nil_r. reflexivity.
Qed.

Lemma slice_ok {A} (l : list A) i j : 0 <= i <= j -> j <= Z.of_nat (length l) -> slice l i j = Ret (sub_range l i j).
Proof.
  intros H1 H2. unfold slice, lenZ.
  rewrite (proj2 (Z.leb_le 0 i)), (proj2 (Z.leb_le i j)), (proj2 (Z.leb_le j _)) by lia. reflexivity.
Qed.

Section Loops.
Variable integ : double -> list double -> list double -> double -> double -> bool * list double * double.
Hypothesis Hdim : integ_dim integ.
Variables (tol : double) (p : list double).
Hypothesis Hp : length p = 2%nat.

Definition good (a : ta) : Prop :=
  ta_tol a = tol /\ (exists u, length u = 3%nat /\ ta_pars a = p ++ u) /\ length (ta_state a) = 7%nat.

Lemma good_pars v a : length v = 3%nat -> good a -> good (ta_set_pars 2 v a) /\ ta_pars (ta_set_pars 2 v a) = p ++ v.
Proof.
  intros Hv [G1 [[u [Hu Gu]] G3]].
  assert (E : ta_pars (ta_set_pars 2 v a) = p ++ v).
  { cbn [ta_set_pars ta_pars]. rewrite Gu, <- Hp. apply blit_tail. lia. }
  split; [|exact E]. split; [exact G1|]. split; [|exact G3]. exists v. split; assumption.
Qed.


Definition seg_result (u : list double) (tend : double) (l : hfleg) (k : sm hfleg unit) : hfleg * outcome unit :=
  let '(ok, x', t') := integ tol (p ++ u) (ta_state (hf_tas l)) (ta_time (hf_tas l)) tend in
  let l2 := h_tas (mk_ta tol (p ++ u) x' t') l in
  if ok then k l2 else (l2, Throw DomainError).

Lemma fwd_step k i l u : slice (hf_thrusts l) (wrap32 (i * 3)) (wrap32 (3 * (i + 1))) = Ret u -> length u = 3%nat ->
  good (hf_tas l) ->
  fwd_loop integ (S k) i l = seg_result u (dmul (d_of_Z (i + 1)) (seg_dt l)) l (fwd_loop integ k (i + 1)).
Proof.
  intros Sl L3 Hg. cbn [fwd_loop]. unfold sbind at 1. rewrite Sl.
  destruct (good_pars u (hf_tas l) L3 Hg) as [[G1 _] P1].
  unfold seg_result, sbind, tas_upd, smodify, tas_propagate_until. cbn [h_tas hf_tas]. rewrite P1, G1.
  change (seg_dt (h_tas (ta_set_pars 2 u (hf_tas l)) l)) with (seg_dt l). cbn [ta_set_pars ta_state ta_time].
  destruct (integ tol (p ++ u) (ta_state (hf_tas l)) (ta_time (hf_tas l)) (dmul (d_of_Z (i + 1)) (seg_dt l))) as [[[|] x'] t']; reflexivity.
Qed.

Lemma bck_step k i l u : slice (hf_thrusts l) (wrap32 ((hf_n l - (i + 1)) * 3)) (wrap32 ((hf_n l - i) * 3)) = Ret u ->
  length u = 3%nat -> good (hf_tas l) ->
  bck_loop integ (S k) i l = seg_result u (dsub (hf_tof l) (dmul (d_of_Z (i + 1)) (seg_dt l))) l (bck_loop integ k (i + 1)).
Proof.
  intros Sl L3 Hg. cbn [bck_loop]. unfold sbind at 1. rewrite Sl.
  destruct (good_pars u (hf_tas l) L3 Hg) as [[G1 _] P1].
  unfold seg_result, sbind, tas_upd, smodify, tas_propagate_until. cbn [h_tas hf_tas hf_tof]. rewrite P1, G1.
  change (seg_dt (h_tas (ta_set_pars 2 u (hf_tas l)) l)) with (seg_dt l). cbn [ta_set_pars ta_state ta_time].
  destruct (integ tol (p ++ u) (ta_state (hf_tas l)) (ta_time (hf_tas l)) _) as [[[|] x'] t']; reflexivity.
Qed.

Lemma good_after u x t : length u = 3%nat -> length x = 7%nat -> good (mk_ta tol (p ++ u) x t).
Proof. intros Hu Hx. split; [reflexivity|]. split; [exists u; split; [exact Hu|reflexivity]|exact Hx]. Qed.

Lemma h_tas_id l : h_tas (hf_tas l) l = l.
Proof. destruct l; reflexivity. Qed.

(** generic induction step *)
Lemma seg_result_fly u tend l k segs : length u = 3%nat -> good (hf_tas l) ->
  (forall a1, good a1 -> exists a, good a /\ fst (k (h_tas a1 l)) = h_tas a l /\
     match fly integ tol p segs (ta_state a1) (ta_time a1) with
     | Some x => snd (k (h_tas a1 l)) = Ret tt /\ ta_state a = x
     | None => snd (k (h_tas a1 l)) = Throw DomainError
     end) ->
  exists a, good a /\ fst (seg_result u tend l k) = h_tas a l /\
     match fly integ tol p ((u, tend) :: segs) (ta_state (hf_tas l)) (ta_time (hf_tas l)) with
     | Some x => snd (seg_result u tend l k) = Ret tt /\ ta_state a = x
     | None => snd (seg_result u tend l k) = Throw DomainError
     end.
Proof.
  intros L3 Hg K. unfold seg_result. cbn [fly].
  pose proof (Hdim tol (p ++ u) (ta_state (hf_tas l)) (ta_time (hf_tas l)) tend) as D.
  destruct (integ tol (p ++ u) (ta_state (hf_tas l)) (ta_time (hf_tas l)) tend) as [[ok x'] t']. cbn [fst snd] in D.
  assert (G2 : good (mk_ta tol (p ++ u) x' t')) by (apply good_after; [exact L3|rewrite D; apply Hg]).
  destruct ok; [exact (K _ G2)|]. eexists. split; [exact G2|]. split; reflexivity.
Qed.

Lemma fwd_loop_fly th T : forall k i l,
  hf_thrusts l = thrusts_of T th -> Z.of_nat (length th) = 3 * hf_n l -> 3 * hf_n l < 2 ^ 32 ->
  0 <= i -> i + Z.of_nat k <= hf_n l -> good (hf_tas l) ->
  exists a, good a /\
    fst (fwd_loop integ k i l) = h_tas a l /\
    match fly integ tol p (map (fun j => (seg_thrust T th (Z.of_nat j), dmul (d_of_Z (Z.of_nat j + 1)) (seg_dt l)))
                               (seq (Z.to_nat i) k)) (ta_state (hf_tas l)) (ta_time (hf_tas l)) with
    | Some x => snd (fwd_loop integ k i l) = Ret tt /\ ta_state a = x
    | None => snd (fwd_loop integ k i l) = Throw DomainError
    end.
Proof.
  induction k as [|k IH]; intros i l Hth Hlen Hsz Hi Hk Hg.
  - exists (hf_tas l). split; [exact Hg|]. cbn [fwd_loop sret fst snd seq map fly]. rewrite h_tas_id. repeat split.
  - assert (Sl : slice (hf_thrusts l) (wrap32 (i * 3)) (wrap32 (3 * (i + 1))) = Ret (seg_thrust T th i)).
    { unfold wrap32. rewrite !Z.mod_small by lia. rewrite slice_ok.
      - f_equal. rewrite Hth. unfold sub_range, thrusts_of, seg_thrust.
        rewrite skipn_map, firstn_map.
        replace (Z.to_nat (3 * (i + 1) - i * 3)) with 3%nat by lia. replace (i * 3) with (3 * i) by lia. reflexivity.
      - lia.
      - rewrite Hth. unfold thrusts_of. rewrite map_length. lia. }
    assert (L3 : length (seg_thrust T th i) = 3%nat).
    { unfold seg_thrust. rewrite map_length, firstn_length, skipn_length. lia. }
    rewrite (fwd_step k i l _ Sl L3 Hg). cbn [seq map]. rewrite Z2Nat.id by lia.
    apply seg_result_fly; [exact L3|exact Hg|]. intros a1 Ga1.
    destruct (IH (i + 1) (h_tas a1 l) Hth Hlen Hsz ltac:(lia) ltac:(cbn [h_tas hf_n]; lia) Ga1) as [a [Ga [Ea Ra]]].
    exists a. split; [exact Ga|]. split; [rewrite Ea; reflexivity|].
    replace (Z.to_nat (i + 1)) with (S (Z.to_nat i)) in Ra by lia. exact Ra.
Qed.

Lemma bck_loop_fly th T : forall k i l,
  hf_thrusts l = thrusts_of T th -> Z.of_nat (length th) = 3 * hf_n l -> 3 * hf_n l < 2 ^ 32 ->
  0 <= i -> i + Z.of_nat k <= hf_n l -> good (hf_tas l) ->
  exists a, good a /\
    fst (bck_loop integ k i l) = h_tas a l /\
    match fly integ tol p (map (fun j => (seg_thrust T th (hf_n l - 1 - Z.of_nat j),
                                          dsub (hf_tof l) (dmul (d_of_Z (Z.of_nat j + 1)) (seg_dt l))))
                               (seq (Z.to_nat i) k)) (ta_state (hf_tas l)) (ta_time (hf_tas l)) with
    | Some x => snd (bck_loop integ k i l) = Ret tt /\ ta_state a = x
    | None => snd (bck_loop integ k i l) = Throw DomainError
    end.
Proof.
  induction k as [|k IH]; intros i l Hth Hlen Hsz Hi Hk Hg.
  - exists (hf_tas l). split; [exact Hg|]. cbn [bck_loop sret fst snd seq map fly]. rewrite h_tas_id. repeat split.
  - set (s := hf_n l - 1 - i).
    assert (Sl : slice (hf_thrusts l) (wrap32 ((hf_n l - (i + 1)) * 3)) (wrap32 ((hf_n l - i) * 3)) = Ret (seg_thrust T th s)).
    { unfold wrap32. rewrite !Z.mod_small by lia. rewrite slice_ok.
      - f_equal. rewrite Hth. unfold sub_range, thrusts_of, seg_thrust.
        rewrite skipn_map, firstn_map.
        replace (Z.to_nat ((hf_n l - i) * 3 - (hf_n l - (i + 1)) * 3)) with 3%nat by lia.
        replace ((hf_n l - (i + 1)) * 3) with (3 * s) by (unfold s; lia). reflexivity.
      - lia.
      - rewrite Hth. unfold thrusts_of. rewrite map_length. lia. }
    assert (L3 : length (seg_thrust T th s) = 3%nat).
    { unfold seg_thrust, s. rewrite map_length, firstn_length, skipn_length. lia. }
    rewrite (bck_step k i l _ Sl L3 Hg). cbn [seq map]. rewrite Z2Nat.id by lia. fold s.
    apply seg_result_fly; [exact L3|exact Hg|]. intros a1 Ga1.
    destruct (IH (i + 1) (h_tas a1 l) Hth Hlen Hsz ltac:(lia) ltac:(cbn [h_tas hf_n]; lia) Ga1) as [a [Ga [Ea Ra]]].
    exists a. split; [exact Ga|]. split; [rewrite Ea; reflexivity|].
    replace (Z.to_nat (i + 1)) with (S (Z.to_nat i)) in Ra by lia. exact Ra.
Qed.
End Loops.

Section Mismatch.
Variable integ : double -> list double -> list double -> double -> double -> bool * list double * double.
Hypothesis Hdim : integ_dim integ.

Lemma good_set_time tol p t a : good tol p a -> good tol p (ta_set_time t a).
Proof. intros [G1 [G2 G3]]. split; [exact G1|]. split; [exact G2|exact G3]. Qed.
Lemma good_set_state tol p x a : length x = 7%nat -> good tol p a -> good tol p (ta_set_state 0 x a) /\ ta_state (ta_set_state 0 x a) = x.
Proof.
  intros Hx [G1 [G2 G3]]. assert (E : ta_state (ta_set_state 0 x a) = x) by (cbn; apply blit_all; lia).
  split; [|exact E]. split; [exact G1|]. split; [exact G2|]. rewrite E. exact Hx.
Qed.

(** the composition in compute_mismatch as plain lets *)
Lemma compute_mismatch_unfold l :
  compute_mismatch integ l =
  let l1 := h_tas (ta_set_state 0 (hf_rvms l) (ta_set_time dzero (hf_tas l))) l in
  match fwd_loop integ (Z.to_nat (hf_nf l)) 0 l1 with
  | (l2, Ret _) =>
      let l3 := h_tas (ta_set_state 0 (hf_rvmf l2) (ta_set_time (hf_tof l2) (hf_tas l2))) l2 in
      match bck_loop integ (Z.to_nat (hf_nb l2)) 0 l3 with
      | (l4, Ret _) => (l4, Ret (vsub (ta_state (hf_tas l2)) (ta_state (hf_tas l4))))
      | (l4, Throw e) => (l4, Throw e)
      | (l4, UB) => (l4, UB)
      end
  | (l2, Throw e) => (l2, Throw e)
  | (l2, UB) => (l2, UB)
  end.
Proof.
  unfold compute_mismatch. cbv zeta.
  unfold sbind at 1, tas_upd at 1, smodify at 1.
  unfold sbind at 1, tas_upd at 1, smodify at 1. cbn [h_tas hf_tas hf_rvms].
  unfold sbind at 1. cbn [h_tas hf_nf].
  destruct (fwd_loop integ _ 0 _) as [l2 [[]| |]]; reflexivity.
Qed.

(** what is computed: the mismatch with the integrator's mu, isp, tol and with the thrust vector's max thrust *)
Theorem compute_mismatch_gen tol mu isp T l : hf_wf l -> ta_holds tol mu isp (hf_tas l) ->
  hf_thrusts l = thrusts_of T (hf_thr l) ->
  snd (compute_mismatch integ l)
  = mismatch_spec integ (hf_rvms l) (hf_thr l) (hf_rvmf l) (hf_tof l) T isp mu tol (hf_n l) (hf_nf l)
  /\ (exists a, fst (compute_mismatch integ l) = h_tas a l /\ ta_holds tol mu isp a).
Proof.
  intros [Wn Wt Wu Wf Wb _ Wc W1 W2 _ _ _ _ _] [S1 [S2 S3]] S4.
  rewrite compute_mismatch_unfold. cbv zeta.
  set (p := [mu; dmul isp dG0]) in *.
  assert (G : good tol p (hf_tas l)) by (split; [exact S1|split; [exact S2|exact S3]]).
  apply (good_set_time _ _ dzero) in G.
  destruct (good_set_state _ _ (hf_rvms l) _ W1 G) as [G1 E1].
  set (a1 := ta_set_state 0 (hf_rvms l) (ta_set_time dzero (hf_tas l))) in *.
  destruct (fwd_loop_fly integ Hdim tol p eq_refl (hf_thr l) T (Z.to_nat (hf_nf l)) 0 (h_tas a1 l)
    S4 Wt ltac:(cbn [h_tas hf_n]; lia) ltac:(lia) ltac:(cbn [h_tas hf_n]; lia) G1) as [a2 [G2 [E2 R2]]].
  change (seg_dt (h_tas a1 l)) with (seg_dt l) in R2. cbn [h_tas hf_tas] in R2.
  change (ta_time a1) with dzero in R2. rewrite E1 in R2. change (Z.to_nat 0) with 0%nat in R2.
  unfold mismatch_spec. cbv zeta. fold p. unfold fwd_segs, bck_segs.
  change (ddiv (hf_tof l) (d_of_Z (hf_n l))) with (seg_dt l).
  destruct (fwd_loop integ (Z.to_nat (hf_nf l)) 0 (h_tas a1 l)) as [l2 r2]. cbn [fst snd] in E2, R2.
  change (h_tas a2 (h_tas a1 l)) with (h_tas a2 l) in E2. subst l2.
  destruct (fly integ tol p _ (hf_rvms l) dzero) as [xf|].
  2:{ match goal with |- context [match ?r with Ret _ => _ | Throw _ => _ | UB => _ end] => replace r with (@Throw unit DomainError) by (symmetry; exact R2) end.
      split; [reflexivity|]. exists a2. split; [reflexivity|exact G2]. }
  destruct R2 as [-> Exf]. cbn [h_tas hf_rvmf hf_tof hf_tas hf_nb]. rewrite Exf.
  apply (good_set_time _ _ (hf_tof l)) in G2.
  destruct (good_set_state _ _ (hf_rvmf l) _ W2 G2) as [G4 E4].
  set (a4 := ta_set_state 0 (hf_rvmf l) (ta_set_time (hf_tof l) a2)) in *.
  match goal with |- context [bck_loop integ _ 0 ?m] => change m with (h_tas a4 l) end.
  destruct (bck_loop_fly integ Hdim tol p eq_refl (hf_thr l) T (Z.to_nat (hf_nb l)) 0 (h_tas a4 l)
    S4 Wt ltac:(cbn [h_tas hf_n]; lia) ltac:(lia) ltac:(cbn [h_tas hf_n]; lia) G4) as [a5 [G5 [E5 R5]]].
  change (seg_dt (h_tas a4 l)) with (seg_dt l) in R5. cbn [h_tas hf_tas hf_n hf_tof] in R5.
  change (ta_time a4) with (hf_tof l) in R5. rewrite E4 in R5. change (Z.to_nat 0) with 0%nat in R5.
  rewrite Wb in *.
  destruct (bck_loop integ (Z.to_nat (hf_n l - hf_nf l)) 0 (h_tas a4 l)) as [l4 r4]. cbn [fst snd] in E5, R5.
  change (h_tas a5 (h_tas a4 l)) with (h_tas a5 l) in E5. subst l4.
  destruct (fly integ tol p _ (hf_rvmf l) (hf_tof l)) as [xb|].
  - destruct R5 as [-> Exb]. cbn [h_tas hf_tas snd fst]. rewrite Exb. split; [reflexivity|].
    exists a5. split; [reflexivity|exact G5].
  - match goal with |- context [match ?r with Ret _ => _ | Throw _ => _ | UB => _ end] => replace r with (@Throw unit DomainError) by (symmetry; exact R5) end.
    split; [reflexivity|]. exists a5. split; [reflexivity|exact G5].
Qed.

Theorem compute_mismatch_spec l : hf_wf l -> hf_synced l ->
  snd (compute_mismatch integ l)
  = mismatch_spec integ (hf_rvms l) (hf_thr l) (hf_rvmf l) (hf_tof l) (hf_T l) (hf_isp l) (hf_mu l) (hf_tol l) (hf_n l) (hf_nf l).
Proof. intros W [H1 [_ H3]]. exact (proj1 (compute_mismatch_gen _ _ _ _ _ W H1 H3)). Qed.

Lemma compute_mismatch_wf l l' r : hf_wf l -> compute_mismatch integ l = (l', r) ->
  (exists tol mu isp, ta_holds tol mu isp (hf_tas l)) -> (exists T, hf_thrusts l = thrusts_of T (hf_thr l)) ->
  hf_wf l'.
Proof.
  intros W E [tol [mu [isp H1]]] [T H2].
  destruct (proj2 (compute_mismatch_gen _ _ _ _ _ W H1 H2)) as [a [Ea _]]. rewrite E in Ea. cbn [fst] in Ea. subst l'.
  destruct W. constructor; assumption.
Qed.

(** ** setters *)
Lemma check_tol_ok t : check_tol t = Ret tt -> dleb t dzero = false /\ dgtb t done = false.
Proof. unfold check_tol, guard. destruct (dleb t dzero), (dgtb t done); cbn; intros H; try discriminate; split; reflexivity. Qed.

Lemma nofail_split n c x : nseg_fwd_of n c <> Throw x.
Proof. unfold nseg_fwd_of, d_to_u32, d_to_int. destruct (is_finite _); [destruct (_ && _)|]; discriminate. Qed.

(** the core part of validity that does not mention the split *)
Definition core_ok (l : hfleg) : Prop :=
  length (hf_rvms l) = 7%nat /\ length (hf_rvmf l) = 7%nat /\ not_negative (hf_tof l) /\ not_negative (hf_T l) /\
  not_negative (hf_isp l) /\ not_negative (hf_mu l) /\ dleb (hf_tol l) dzero = false /\ dgtb (hf_tol l) done = false.

Lemma wf_core l : hf_wf l -> core_ok l.
Proof. intros []. repeat split; tauto. Qed.

Lemma throttles_ok_hf th : check_throttles th = Ret tt -> short th ->
  1 <= nseg_of th /\ 3 * nseg_of th < 2 ^ 32 - 100 /\ Z.of_nat (length th) = 3 * nseg_of th.
Proof.
  intros H S. unfold short in S. destruct (throttles_ok th H) as [B1 B2]; lia.
Qed.

Lemma hf_resplit_eq l : unit_double (hf_cut l) -> 0 <= nseg_of (hf_thr l) < 2 ^ 32 ->
  let n := nseg_of (hf_thr l) in let nf := Ztrunc (round_product n (hf_cut l)) in
  hf_resplit l = (h_split n nf (n - nf) l, Ret tt).
Proof.
  intros Hc Hn n nf. unfold hf_resplit, sbind, smodify. cbn [h_split hf_n hf_cut hf_thr].
  destruct (split_correct (nseg_of (hf_thr l)) (hf_cut l) Hn Hc) as [E [B1 B2]]. rewrite E.
  fold n in B2 |- *. fold nf in B2 |- *. rewrite B2. reflexivity.
Qed.

Lemma hf_resplit_ret l l' : hf_resplit l = (l', Ret tt) ->
  exists nf, nseg_fwd_of (nseg_of (hf_thr l)) (hf_cut l) = Ret nf /\
  l' = h_split (nseg_of (hf_thr l)) nf (nseg_bck_of (nseg_of (hf_thr l)) nf) l.
Proof.
  unfold hf_resplit, sbind, smodify. cbn [h_split hf_n hf_cut hf_thr].
  destruct (nseg_fwd_of _ _) as [nf| |] eqn:E; intros H; inversion H. exists nf. split; reflexivity.
Qed.

(** validity re-established by set_throttles *)
Lemma rethrust_wf l : core_ok l -> unit_double (hf_cut l) -> 1 <= nseg_of (hf_thr l) ->
  3 * nseg_of (hf_thr l) < 2 ^ 32 - 100 -> Z.of_nat (length (hf_thr l)) = 3 * nseg_of (hf_thr l) ->
  forall nf, nf = Ztrunc (round_product (nseg_of (hf_thr l)) (hf_cut l)) ->
  hf_wf (h_thrusts (thrusts_of (hf_T l) (hf_thr l)) (h_split (nseg_of (hf_thr l)) nf (nseg_of (hf_thr l) - nf) l)).
Proof.
  intros (A1 & A2 & A3 & A4 & A5 & A6 & A7) Hc N1 N2 N3 nf Hnf.
  destruct (split_correct (nseg_of (hf_thr l)) (hf_cut l)) as [_ [B1 _]]; [lia|exact Hc|].
  constructor; hfs; try assumption; try tauto; try lia.
  - unfold thrusts_of. apply map_length.
Qed.

Lemma thr_step l l' r : core_ok l -> unit_double (hf_cut l) -> 1 <= nseg_of (hf_thr l) ->
  3 * nseg_of (hf_thr l) < 2 ^ 32 - 100 -> Z.of_nat (length (hf_thr l)) = 3 * nseg_of (hf_thr l) ->
  sbind hf_resplit (fun _ => hf_rethrust) l = (l', r) ->
  r = Ret tt /\ hf_wf l' /\ hf_tas l' = hf_tas l /\ hf_tasv l' = hf_tasv l /\ hf_tol l' = hf_tol l /\ hf_mu l' = hf_mu l
  /\ hf_isp l' = hf_isp l /\ hf_T l' = hf_T l /\ hf_thrusts l' = thrusts_of (hf_T l') (hf_thr l').
Proof.
  intros C Hc N1 N2 N3 H. unfold sbind in H. rewrite hf_resplit_eq in H by (assumption || lia).
  cbn [hf_rethrust] in H. unfold hf_rethrust, smodify in H. inversion H; subst.
  split; [reflexivity|]. split; [|repeat split].
  apply rethrust_wf; try assumption. reflexivity.
Qed.

Lemma thrit_facts src i j : 0 <= i -> j <= Z.of_nat (length src) -> short src ->
  guard (negb (Z.rem (j - i) 3 =? 0) || (j - i <=? 0)) LogicError = Ret tt ->
  1 <= nseg_of (sub_range src i j) /\ 3 * nseg_of (sub_range src i j) < 2 ^ 32 - 100 /\
  Z.of_nat (length (sub_range src i j)) = 3 * nseg_of (sub_range src i j).
Proof.
  intros Hi Hj Hs E. unfold short in Hs. apply guard_ret in E. apply orb_false_iff in E. destruct E as [E1 E2].
  assert (Hd : 0 < j - i) by lia.
  assert (E3 : Z.rem (j - i) 3 = 0) by lia. rewrite Z.rem_mod_nonneg in E3 by lia.
  pose proof (sub_range_length src i j Hi Hj Hd) as L.
  assert (N : nseg_of (sub_range src i j) = (j - i) / 3) by (unfold nseg_of, lenZ, wrap32; rewrite L; lia).
  lia.
Qed.

Definition same_pars (l l' : hfleg) : Prop :=
  hf_tas l' = hf_tas l /\ hf_tasv l' = hf_tasv l /\ hf_tol l' = hf_tol l /\ hf_mu l' = hf_mu l /\ hf_isp l' = hf_isp l /\ hf_T l' = hf_T l.

Lemma bind_ret {A B} (m : outcome A) (f : A -> outcome B) b : bind m f = Ret b -> exists a, m = Ret a /\ f a = Ret b.
Proof. destruct m as [a| |]; cbn; intros H; try discriminate. exists a. split; [reflexivity|exact H]. Qed.

Lemma sanity_hf_inv th tof mt isp mu cut tol n nf nb : sanity_checks_hf th tof mt isp mu cut tol n nf nb = Ret tt ->
  check_throttles th = Ret tt /\ not_negative tof /\ not_negative mt /\ not_negative isp /\ not_negative mu /\
  check_cut cut = Ret tt /\ (dleb tol dzero = false /\ dgtb tol done = false).
Proof.
  unfold sanity_checks_hf. intros H.
  apply bind_ret in H as [[] [E1 H]]. apply bind_ret in H as [[] [E2 H]]. apply bind_ret in H as [[] [E3 H]].
  apply bind_ret in H as [[] [E4 H]]. apply bind_ret in H as [[] [E5 H]]. apply bind_ret in H as [[] [E6 H]].
  apply bind_ret in H as [[] [E7 H]].
  unfold check_tof, check_max_thrust, check_isp, check_mu in *.
  apply guard_ret in E2, E3, E4, E5. repeat split; try assumption; try (apply not_dltb_zero; assumption); try (apply check_tol_ok; assumption).
Qed.

(** the tail shared by the [set] overloads: split, checks on the new members, thrusts *)
Lemma set_tail l l' r : short (hf_thr l) -> length (hf_rvms l) = 7%nat -> length (hf_rvmf l) = 7%nat ->
  sbind hf_resplit (fun _ => sbind (hf_check_all (hf_thr l)) (fun _ => hf_rethrust)) l = (l', r) ->
  r = Ret tt -> hf_wf l' /\ same_pars l l' /\ hf_thrusts l' = thrusts_of (hf_T l') (hf_thr l').
Proof.
  intros Hs H1 H2 H Hr. subst r. unfold sbind at 1 in H.
  destruct (hf_resplit l) as [l1 [[]| |]] eqn:E; try discriminate.
  apply hf_resplit_ret in E as [nf [E ->]].
  unfold sbind, hf_check_all in H. cbn [h_split hf_tof hf_T hf_isp hf_mu hf_cut hf_tol hf_n hf_nf hf_nb] in H.
  destruct (sanity_checks_hf _ _ _ _ _ _ _ _ _ _) as [[]| |] eqn:S; try discriminate.
  apply sanity_hf_inv in S as (S1 & S2 & S3 & S4 & S5 & S6 & S7).
  unfold hf_rethrust, smodify in H. inversion H; subst l'; clear H.
  destruct (throttles_ok_hf _ S1 Hs) as (N1 & N2 & N3).
  apply check_cut_ok in S6; [|eapply split_nan_inv; eassumption].
  destruct (split_correct (nseg_of (hf_thr l)) (hf_cut l)) as [C1 [C2 C3]]; [lia|exact S6|].
  rewrite C1 in E. inversion E; subst nf. rewrite C3.
  split; [|repeat split].
  apply rethrust_wf; try assumption; try reflexivity. repeat split; tauto.
Qed.

Lemma blit_len7 off (v w : list double) : length w = 7%nat -> (off + length v <= 7)%nat -> length (blit off v w) = 7%nat.
Proof. intros H1 H2. rewrite blit_length; lia. Qed.

Lemma set_unfold rvms th rvmf tof T isp mu cut tol l :
  hf_do (HSet rvms th rvmf tof T isp mu cut tol) l =
  sbind hf_resplit (fun _ => sbind (hf_check_all th) (fun _ => hf_rethrust))
    (mk_hf rvms (hf_vars l) th (hf_thrusts l) rvmf tof T isp mu cut tol (hf_n l) (hf_nf l) (hf_nb l) (hf_tas l) (hf_tasv l)).
Proof. reflexivity. Qed.
Lemma set_short_unfold rvms th rvmf tof l :
  hf_do (HSetShort rvms th rvmf tof) l =
  sbind hf_resplit (fun _ => sbind (hf_check_all th) (fun _ => hf_rethrust))
    (mk_hf rvms (hf_vars l) th (hf_thrusts l) rvmf tof (hf_T l) (hf_isp l) (hf_mu l) (hf_cut l) (hf_tol l)
           (hf_n l) (hf_nf l) (hf_nb l) (hf_tas l) (hf_tasv l)).
Proof. reflexivity. Qed.

(** Every setter keeps the leg valid, unless it is a [set] that throws. *)
Theorem step_wf o l l' r : hf_wf l -> hop_ok o -> hf_do o l = (l', r) ->
  (is_set o = true -> r = Ret tt) -> hf_wf l'.
Proof.
  intros W Hok H Hset. pose proof (wf_core l W) as C. pose proof W as W0.
  destruct W as [Wn Wt Wu Wf Wb Ws Wc W1 W2 W3 W4 W5 W6 W7].
  assert (Cc : core_ok l) by exact C. destruct C as (A1 & A2 & A3 & A4 & A5 & A6 & A7 & A8).
  destruct o; cbn [hop_ok is_set] in Hok, Hset;
    try rewrite set_unfold in H; try rewrite set_short_unfold in H; cbn [hf_do] in H.
  - unfold sbind, slift, check_tof in H. destruct (guard (dltb v dzero) DomainError) as [[]| |] eqn:E; inversion H; subst; try assumption.
    apply guard_ret in E. apply not_dltb_zero in E. constructor; hfs; assumption.
  - inversion H; subst. constructor; hfs; try assumption. apply blit_len7; [assumption|cbn; lia].
  - inversion H; subst. constructor; hfs; try assumption. apply blit_len7; [assumption|cbn; lia].
  - unfold sbind at 1, slift in H. destruct (check_throttles v) as [[]| |] eqn:E; [|inversion H; subst; exact W0|inversion H; subst; exact W0].
    unfold sbind at 1, smodify at 1 in H. destruct (throttles_ok_hf v E Hok) as (N1 & N2 & N3).
    apply thr_step in H; try assumption; try tauto.
  - unfold sbind at 1, slift in H.
    destruct (guard (negb (Z.rem (j - i) 3 =? 0) || (j - i <=? 0)) LogicError) as [[]| |] eqn:E;
      [|inversion H; subst; exact W0|inversion H; subst; exact W0].
    unfold sbind at 1, smodify at 1 in H. destruct Hok as (O1 & O2 & O3).
    destruct (thrit_facts src i j O1 O2 O3 E) as (N1 & N2 & N3).
    apply thr_step in H; try assumption; try tauto.
  - inversion H; subst. constructor; hfs; try assumption. apply blit_len7; [assumption|cbn; lia].
  - inversion H; subst. constructor; hfs; try assumption. apply blit_len7; [assumption|cbn; lia].
  - unfold sbind, slift, check_max_thrust in H. destruct (guard (dltb v dzero) DomainError) as [[]| |] eqn:E; inversion H; subst; try assumption.
    apply guard_ret in E. apply not_dltb_zero in E. constructor; hfs; assumption.
  - unfold sbind, slift, check_isp in H. destruct (guard (dltb v dzero) DomainError) as [[]| |] eqn:E; inversion H; subst; try assumption.
    apply guard_ret in E. apply not_dltb_zero in E. constructor; hfs; assumption.
  - unfold sbind, slift, check_mu in H. destruct (guard (dltb v dzero) DomainError) as [[]| |] eqn:E; inversion H; subst; try assumption.
    apply guard_ret in E. apply not_dltb_zero in E. constructor; hfs; assumption.
  - unfold sbind at 1, slift in H. destruct (check_cut v) as [[]| |] eqn:E;
      [|inversion H; subst; exact W0|inversion H; subst; exact W0].
    apply check_cut_ok in E; [|exact Hok].
    unfold sbind, smodify in H. cbn [h_cut hf_n hf_cut] in H.
    destruct (split_correct (hf_n l) v) as [E1 [B1 B2]]; [lia|exact E|].
    rewrite E1 in H. inversion H; subst.
    constructor; hfs; try assumption; try reflexivity.
  - unfold sbind, slift in H. destruct (check_tol v) as [[]| |] eqn:E; inversion H; subst; try assumption.
    apply check_tol_ok in E. constructor; hfs; assumption.
  - inversion H; subst. constructor; hfs; assumption.
  - inversion H; subst. constructor; hfs; assumption.
  - specialize (Hset eq_refl). destruct Hok as (O1 & O2 & O3).
    eapply set_tail in H; [exact (proj1 H)|exact O3|exact O1|exact O2|exact Hset].
  - specialize (Hset eq_refl). destruct Hok as (O1 & O2 & O3).
    eapply set_tail in H; [exact (proj1 H)|exact O3|exact O1|exact O2|exact Hset].
Qed.

(** the integrators are never written by a setter, and the thrusts are always the throttles times some thrust level *)
Theorem step_tas o l l' r : hf_do o l = (l', r) -> hf_tas l' = hf_tas l /\ hf_tasv l' = hf_tasv l.
Proof.
  assert (RS : forall a b x, hf_resplit a = (b, x) -> hf_tas b = hf_tas a /\ hf_tasv b = hf_tasv a).
  { intros a b x. unfold hf_resplit, sbind, smodify. destruct (nseg_fwd_of _ _); intros H; inversion H; split; reflexivity. }
  assert (RR : forall a b x, sbind hf_resplit (fun _ => hf_rethrust) a = (b, x) -> hf_tas b = hf_tas a /\ hf_tasv b = hf_tasv a).
  { intros a b x H. unfold sbind in H. destruct (hf_resplit a) as [a1 r1] eqn:E. apply RS in E.
    destruct r1; inversion H; subst; exact E. }
  assert (RC : forall th a b x, sbind hf_resplit (fun _ => sbind (hf_check_all th) (fun _ => hf_rethrust)) a = (b, x) ->
                           hf_tas b = hf_tas a /\ hf_tasv b = hf_tasv a).
  { intros th a b x H. unfold sbind at 1 in H. destruct (hf_resplit a) as [a1 r1] eqn:E. apply RS in E.
    destruct r1; [|inversion H; subst; exact E|inversion H; subst; exact E].
    unfold sbind, hf_check_all in H. destruct (sanity_checks_hf _ _ _ _ _ _ _ _ _ _); inversion H; subst; exact E. }
  intros H. destruct o; try rewrite set_unfold in H; try rewrite set_short_unfold in H; cbn [hf_do] in H; unfold slift in H;
    try (inversion H; subst; split; reflexivity);
    try (unfold sbind at 1 in H;
         match type of H with match ?c with _ => _ end = _ => destruct c as [[]| |]; inversion H; split; reflexivity end).
  - unfold sbind at 1 in H. destruct (check_throttles v) as [[]| |]; try (inversion H; split; reflexivity).
    unfold sbind at 1, smodify at 1 in H. apply RR in H. exact H.
  - unfold sbind at 1 in H. destruct (guard _ _) as [[]| |]; try (inversion H; split; reflexivity).
    unfold sbind at 1, smodify at 1 in H. apply RR in H. exact H.
  - unfold sbind at 1 in H. destruct (check_cut v) as [[]| |]; try (inversion H; split; reflexivity).
    unfold sbind, smodify in H. destruct (nseg_fwd_of _ _); inversion H; split; reflexivity.
  - apply RC in H. exact H.
  - apply RC in H. exact H.
Qed.
End Mismatch.
