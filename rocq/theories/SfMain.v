(** * C28: the mismatch of the Sims-Flanagan leg *)
From Coq Require Import Reals Lra Lia ZArith.
From Coquelicot Require Import Coquelicot.
From Coq Require Import List.
From Verif Require Import Outcome RealLib KepSpec Vec3 TwoBodyModel TwoBodySpec TcModel DynModel FlowProofs FlowMain TwoBodyProofs StmProofs StmMain SfFlow SfModel SfSpec SfProofs.
Import ListNotations.
Open Scope R_scope.

Section Passes.
Variable newton : (R -> R * R) -> R -> R -> R -> option R.
Variable total : bool.
Variable ok : state -> Prop.
Variable l : sf.
Hypothesis P : proper l.
Let dt := s_tof l / IZR (s_nseg l).
Hypothesis okf : forall x t y, ok x -> flow_at (s_mu l) x t y -> ok y.
Hypothesis Hc : forall x t y, ok x -> flow_at (s_mu l) x t y -> Rabs t <= Rabs dt -> agree total (coast newton x t (s_mu l)) y.
Lemma pass_fwd q : forward_end ok l q -> agree total (forward_pass newton l) q.
Proof.
  destruct P as [[N1 [N2 [N3 N4]]] [LE [Mu _]]]. intros F. unfold forward_end in F. rewrite throttles_fwd in F by lia. unfold forward_pass. fold dt.
  destruct (Z.ltb_spec 0 (s_fwd l)) as [Z|Z].
  - remember (Z.to_nat (s_fwd l)) as nf eqn:Hn. replace (s_fwd l) with (Z.of_nat nf) by lia.
    pose proof (fwd_code newton ok (s_mu l) (s_T l * dt) (s_isp l * G0) dt total Hc (s_thr l) nf nf 0%nat (dt / 2) (s_rvs l) (s_ms l) q (half_dt dt) eq_refl ltac:(lia)) as C.
    replace (Z.of_nat 0 =? Z.of_nat nf)%Z with false in C by (symmetry; apply Z.eqb_neq; lia). apply C. clear C.
    destruct nf as [|k]; [lia|]. cbn [seq map] in *.
    apply (proj1 (legs_run ok (s_mu l) (dt / 2) (fun m u => vscal (s_T l * dt / m) u) (fun m u => m * exp (- norm (vscal (s_T l * dt / m) u) / (s_isp l * G0))) Mu okf _ _ _ _ _)). exact F.
  - replace (Z.to_nat (s_fwd l)) with O in * by lia. cbn in F. subst q. cbn. apply agree_ret.
Qed.
Lemma pass_bck q : backward_end ok l q -> agree total (backward_pass newton l) q.
Proof.
  destruct P as [[N1 [N2 [N3 N4]]] [LE [Mu _]]]. intros F. unfold backward_end in F. rewrite throttles_bck in F by lia. unfold backward_pass. fold dt.
  replace (Z.to_nat (s_nseg l) - Z.to_nat (s_fwd l))%nat with (Z.to_nat (s_bck l)) in F by lia.
  destruct (Z.ltb_spec 0 (s_bck l)) as [Z|Z].
  - remember (Z.to_nat (s_bck l)) as nf eqn:Hn. replace (s_bck l) with (Z.of_nat nf) by lia.
    pose proof (bck_code newton ok (s_mu l) (s_T l * dt) (s_isp l * G0) dt total Hc (s_thr l) nf nf 0%nat (- (dt / 2)) (s_rvf l) (s_mf l) q ltac:(rewrite Rabs_Ropp; apply half_dt) eq_refl ltac:(lia)) as C.
    replace (Z.of_nat 0 =? Z.of_nat nf)%Z with false in C by (symmetry; apply Z.eqb_neq; lia). replace (- dt / 2) with (- (dt / 2)) by field. apply C. clear C.
    destruct nf as [|k]; [lia|]. cbn [seq map] in *.
    apply (proj1 (legs_run ok (s_mu l) (- (dt / 2)) (fun m u => vneg (vscal (s_T l * dt / m) u)) (fun m u => m * exp (norm (vscal (s_T l * dt / m) u) / (s_isp l * G0))) Mu okf _ _ _ _ _)). exact F.
  - replace (Z.to_nat (s_bck l)) with O in * by lia. cbn in F. subst q. cbn. apply agree_ret.
Qed.
Lemma pass_mismatch y : leg_mismatch ok l y -> agree total (compute_mismatch_constraints newton l) y.
Proof.
  intros [pf [pb [F [B ->]]]]. unfold compute_mismatch_constraints. apply (agree_bind _ _ pf); [apply pass_fwd, F|]. apply (agree_bind _ _ pb); [apply pass_bck, B|].
  apply agree_ret.
Qed.
End Passes.

(** ** The two kinds of arcs *)
Lemma nonsing_flow mu x t y : nonsing mu x -> flow_at mu x t y -> nonsing mu y.
Proof.
  intros [Rg E] F. destruct (flow_integrals mu x t y Rg F) as [I _]. split; [apply (proj1 (same_regular mu x y I)), Rg|]. destruct I as [-> _]. exact E.
Qed.
Lemma good_regular mu dt x : good_arc mu dt x -> regular mu x. Proof. intros [[H _]|[[H _] _]]; exact H. Qed.
Lemma good_nonsing mu dt x : good_arc mu dt x -> nonsing mu x.
Proof. intros [[H E]|[[H E] _]]; (split; [exact H|lra]). Qed.
Lemma good_flow mu dt x t y : good_arc mu dt x -> flow_at mu x t y -> good_arc mu dt y.
Proof.
  intros G F. destruct (flow_integrals mu x t y (good_regular _ _ _ G) F) as [I _]. destruct (same_regular mu x y I) as [_ [A B]].
  destruct G as [G|[G H]]; [left; apply A, G|right; split; [apply B, G|]]. unfold mean_motion, sma in *. destruct I as [-> _]. exact H.
Qed.
Lemma coast_good newton mu dt x t y : newton_ok newton -> good_arc mu dt x -> flow_at mu x t y -> Rabs t <= Rabs dt -> agree true (coast newton x t mu) y.
Proof.
  intros NK G F L. cbn. unfold coast. destruct G as [G|[G H]].
  - destruct (ellipse_flow newton mu x t false NK G) as [s' [m [-> F']]]. cbn. rewrite (flow_functional _ _ _ _ _ F F'). reflexivity.
  - destruct (lag_hyp_total newton mu x t false NK G) as [s' [m [-> F']]].
    + eapply Rle_trans; [|exact H]. apply Rmult_le_compat_l; [unfold mean_motion; apply sqrt_pos|exact L].
    + cbn. rewrite (flow_functional _ _ _ _ _ F F'). reflexivity.
Qed.
Lemma coast_sound newton mu x t y : newton_sound newton -> nonsing mu x -> flow_at mu x t y -> agree false (coast newton x t mu) y.
Proof.
  intros NS [Rg E] F b. unfold coast. destruct (propagate_lagrangian newton x t mu false) as [[s' m]| |] eqn:Q; cbn; try discriminate. intros [= <-].
  apply (lag_sound newton mu x t false s' m NS Rg E) in Q. apply (flow_functional _ _ _ _ _ Q F).
Qed.
Definition leg_dt (l : sf) : R := s_tof l / IZR (s_nseg l).
Theorem mismatch_total newton l pf pb : newton_ok newton -> proper l ->
  forward_end (good_arc (s_mu l) (leg_dt l)) l pf -> backward_end (good_arc (s_mu l) (leg_dt l)) l pb ->
  compute_mismatch_constraints newton l = Ret (minus7 pf pb) /\ (minus7 pf pb = ((vzero, vzero), 0) <-> pf = pb).
Proof.
  intros NK P F B. split.
  - apply (pass_mismatch newton true (good_arc (s_mu l) (leg_dt l)) l P); [intros x t y; apply good_flow|intros x t y; apply coast_good, NK|exists pf, pb; auto].
  - split; [|intros ->; unfold minus7, vsub, vzero; f_equal; [f_equal; f_equal; ring|ring]].
    destruct pf as [[[] []] ?], pb as [[[] []] ?]. unfold minus7, vsub, vzero. cbn. intros H. injection H. intros. repeat f_equal; lra.
Qed.
Theorem mismatch_sound newton l y y' : newton_sound newton -> proper l -> leg_mismatch (nonsing (s_mu l)) l y -> compute_mismatch_constraints newton l = Ret y' -> y' = y.
Proof.
  intros NS P M. apply (pass_mismatch newton false (nonsing (s_mu l)) l P); [intros x t z; apply nonsing_flow|intros x t z H F _; apply coast_sound; assumption|exact M].
Qed.

(** ** Masses *)
Lemma exp_mono x y : x <= y -> exp x <= exp y.
Proof. intros [H| ->]; [left; apply exp_increasing, H|right; reflexivity]. Qed.
Section Mass.
Variables (ok : state -> Prop) (mu c veff dt : R).
Hypothesis C : 0 <= c.
Hypothesis Ve : 0 < veff.
Definition mf (m : R) (u : vec) : R := m * exp (- norm (vscal (c / m) u) / veff).
Definition mb (m : R) (u : vec) : R := m * exp (norm (vscal (c / m) u) / veff).
Lemma mass_fwd us : forall p q, legs (segment ok mu c veff dt) us p q -> snd q = fold_left mf us (snd p).
Proof. induction us as [|u us IH]; intros p q; cbn; [intros ->; reflexivity|]. intros [z [[a [_ [_ [_ [_ E]]]]] L]]. rewrite (IH _ _ L), E. reflexivity. Qed.
Lemma mass_bck us : forall p q, legs (segment_back ok mu c veff dt) us p q -> snd q = fold_left mb us (snd p).
Proof. induction us as [|u us IH]; intros p q; cbn; [intros ->; reflexivity|]. intros [z [[a [_ [_ [_ [_ E]]]]] L]]. rewrite (IH _ _ L), E. reflexivity. Qed.
Lemma mf_pos m u : 0 < m -> 0 < mf m u <= m.
Proof.
  intros M. unfold mf. pose proof (exp_pos (- norm (vscal (c / m) u) / veff)). split; [nra|].
  assert (exp (- norm (vscal (c / m) u) / veff) <= 1); [|nra]. rewrite <- exp_0. apply exp_mono. pose proof (norm_nonneg (vscal (c / m) u)).
  apply Rmult_le_reg_r with veff; [exact Ve|]. unfold Rdiv. rewrite Rmult_assoc, Rinv_l by lra. lra.
Qed.
Lemma mb_pos m u : 0 < m -> m <= mb m u.
Proof.
  intros M. unfold mb. assert (1 <= exp (norm (vscal (c / m) u) / veff)); [|nra]. rewrite <- exp_0 at 1. apply exp_mono. pose proof (norm_nonneg (vscal (c / m) u)).
  apply Rmult_le_reg_r with veff; [exact Ve|]. unfold Rdiv. rewrite Rmult_assoc, Rinv_l by lra. lra.
Qed.
Lemma fold_mf us : forall m, 0 < m -> 0 < fold_left mf us m <= m.
Proof. induction us as [|u us IH]; intros m M; cbn; [lra|]. pose proof (mf_pos m u M). specialize (IH (mf m u) ltac:(lra)). lra. Qed.
Lemma fold_mb us : forall m, 0 < m -> m <= fold_left mb us m.
Proof. induction us as [|u us IH]; intros m M; cbn; [lra|]. pose proof (mb_pos m u M). specialize (IH (mb m u) ltac:(lra)). lra. Qed.
(** the impulse at the cut, removed backward with the mass after it, does not cancel the one added forward with the mass before it *)
Lemma mass_cut mk my u : 0 < c -> 0 < my -> u <> vzero -> mk = mb my u -> mf mk u <> my.
Proof.
  intros C0 My U E Q. pose proof (mb_pos my u My) as L. rewrite <- E in L. assert (Mk : 0 < mk) by lra. unfold mf in Q. unfold mb in E.
  pose proof (norm_pos u U) as NU.
  assert (Nf : norm (vscal (c / mk) u) = c / mk * norm u) by (rewrite norm_vscal, Rabs_right; [reflexivity|apply Rle_ge, Rlt_le, Rdiv_lt_0_compat; lra]).
  assert (Nb : norm (vscal (c / my) u) = c / my * norm u) by (rewrite norm_vscal, Rabs_right; [reflexivity|apply Rle_ge, Rlt_le, Rdiv_lt_0_compat; lra]).
  rewrite Nf in Q. rewrite Nb in E.
  assert (X : mk = my * exp (c / mk * norm u / veff)).
  { rewrite <- Q. rewrite Rmult_assoc, <- exp_plus. replace (- (c / mk * norm u) / veff + c / mk * norm u / veff) with 0 by (field; lra). rewrite exp_0. ring. }
  assert (Y : exp (c / mk * norm u / veff) = exp (c / my * norm u / veff)). { apply Rmult_eq_reg_l with my; [|lra]. rewrite <- X, <- E. reflexivity. }
  apply exp_inv in Y.
  assert (Z : mk = my). { apply (f_equal (fun z => z * mk * my * veff / (c * norm u))) in Y. replace (c / mk * norm u / veff * mk * my * veff / (c * norm u)) with my in Y by (field; lra). replace (c / my * norm u / veff * mk * my * veff / (c * norm u)) with mk in Y by (field; lra). lra. }
  assert (W : 1 < exp (c / my * norm u / veff)). { rewrite <- exp_0 at 1. apply exp_increasing. apply Rdiv_lt_0_compat; [|exact Ve]. apply Rmult_lt_0_compat; [apply Rdiv_lt_0_compat; lra|exact NU]. }
  nra.
Qed.
End Mass.
Lemma G0_pos : 0 < G0. Proof. unfold G0. lra. Qed.
Lemma proper_c l : proper l -> 0 < IZR (s_nseg l) /\ 0 < leg_dt l /\ 0 <= s_T l * leg_dt l /\ 0 < s_isp l * G0.
Proof.
  intros [[N1 [N2 [N3 N4]]] [LE [Mu [T [I [tf _]]]]]]. assert (0 < IZR (s_nseg l)) by (apply IZR_lt; exact N4). assert (0 < leg_dt l) by (apply Rdiv_lt_0_compat; assumption).
  pose proof G0_pos. split; [assumption|]. split; [assumption|]. split; [nra|nra].
Qed.
Theorem mass_bounds ok l pf pb : proper l -> forward_end ok l pf -> backward_end ok l pb -> 0 < snd pf <= s_ms l /\ s_mf l <= snd pb.
Proof.
  intros P F B. destruct (proper_c l P) as [_ [_ [Cn Ve]]]. destruct P as [_ [_ [_ [_ [_ [_ [Ms Mf]]]]]]].
  unfold forward_end in F. apply mass_fwd in F. unfold backward_end in B. apply mass_bck in B. cbn [snd] in F, B. rewrite F, B. fold (leg_dt l). split.
  - apply fold_mf; assumption.
  - apply fold_mb; assumption.
Qed.

(** ** Another cut *)
Lemma skipn_S_cons {A} (d : A) k : forall l : list A, (k < length l)%nat -> skipn k l = nth k l d :: skipn (S k) l.
Proof. induction k as [|k IH]; intros [|x l] L; cbn in L |- *; try lia; [reflexivity|]. rewrite (IH l) by lia. reflexivity. Qed.
Lemma firstn_S_app {A} (d : A) k : forall l : list A, (k < length l)%nat -> firstn (S k) l = firstn k l ++ [nth k l d].
Proof. induction k as [|k IH]; intros [|x l] L; cbn in L |- *; try lia; [reflexivity|]. f_equal. apply (IH l). lia. Qed.
Lemma throttles_len n th : length (throttles n th) = n. Proof. unfold throttles. rewrite map_length, seq_length. reflexivity. Qed.
Lemma throttles_nth n th k d : (k < n)%nat -> nth k (throttles n th) d = thr_vec th k.
Proof. intros L. unfold throttles. rewrite (nth_indep _ d (thr_vec th 0)) by (rewrite map_length, seq_length; exact L). rewrite map_nth, seq_nth by exact L. reflexivity. Qed.
Theorem cut_dependence ok ok' l : proper l -> 0 < s_T l -> (s_fwd l < s_nseg l)%Z -> thr_vec (s_thr l) (Z.to_nat (s_fwd l)) <> vzero ->
  leg_mismatch ok l ((vzero, vzero), 0) -> forall y, leg_mismatch ok' (with_cut l (s_fwd l + 1)) y -> snd y <> 0.
Proof.
  intros P T L U [pf [pb [F [B E]]]] y [pf' [pb' [F' [B' ->]]]]. destruct (proper_c l P) as [Nn [Dt [Cn Ve]]]. destruct P as [[N1 [N2 [N3 N4]]] [LE [_ [_ [_ [_ [Ms Mf]]]]]]].
  apply (f_equal snd) in E. cbn in E. cbn [minus7 snd]. intros E'.
  unfold forward_end in F, F'. unfold backward_end in B, B'. apply mass_fwd in F, F'. apply mass_bck in B, B'.
  cbn [with_cut s_rvs s_ms s_thr s_rvf s_mf s_tof s_T s_isp s_mu s_nseg s_fwd s_bck snd] in *. fold (leg_dt l) in *.
  remember (Z.to_nat (s_fwd l)) as k eqn:Hk. replace (Z.to_nat (s_fwd l + 1)) with (S k) in * by lia.
  set (us := throttles (Z.to_nat (s_nseg l)) (s_thr l)) in *. assert (Lu : (k < length us)%nat) by (unfold us; rewrite throttles_len; lia).
  rewrite (firstn_S_app vzero k us Lu), fold_left_app in F'. rewrite (skipn_S_cons vzero k us Lu) in B. cbn [rev fold_left] in F', B. rewrite fold_left_app in B. cbn [fold_left] in B.
  unfold us in F', B. rewrite throttles_nth in F', B by lia. fold us in F', B.
  set (my := fold_left (mb (s_T l * leg_dt l) (s_isp l * G0)) (rev (skipn (S k) us)) (s_mf l)) in *.
  assert (My : 0 < my). { unfold my. pose proof (fold_mb (s_T l * leg_dt l) (s_isp l * G0) Ve (rev (skipn (S k) us)) (s_mf l) Mf). lra. }
  apply (mass_cut (s_T l * leg_dt l) (s_isp l * G0) Ve (snd pf) my (thr_vec (s_thr l) k) ltac:(apply Rmult_lt_0_compat; assumption) My U).
  - rewrite <- B. lra.
  - rewrite F. rewrite <- F'. lra.
Qed.

(** ** Without thrust *)
Lemma kick_0 s : kick s vzero = s. Proof. destruct s as [r []]. unfold kick, vadd, vzero. cbn. rewrite !Rplus_0_r. reflexivity. Qed.
Lemma vscal_0 k : vscal k vzero = vzero. Proof. unfold vscal, vzero. cbn. rewrite Rmult_0_r. reflexivity. Qed.
Lemma vneg_0 : vneg vzero = vzero. Proof. unfold vneg, vzero. cbn. rewrite Ropp_0. reflexivity. Qed.
Lemma norm_0 : norm vzero = 0. Proof. unfold norm, dot, vzero. cbn. replace (0 * 0 + 0 * 0 + 0 * 0) with 0 by ring. apply sqrt_0. Qed.
Section Coast.
Variables (ok : state -> Prop) (mu c veff dt : R).
Hypothesis Mu : 0 < mu.
Hypothesis Ve : 0 < veff.
Lemma coast_fwd us : (forall u, In u us -> u = vzero) -> forall p q, regular mu (fst p) -> legs (segment ok mu c veff dt) us p q -> flow_at mu (fst p) (INR (length us) * dt) (fst q) /\ snd q = snd p.
Proof.
  induction us as [|u us IH]; intros Z p q Rg L.
  - cbn in L. subst q. cbn. rewrite Rmult_0_l. split; [apply flow_0, Rg|reflexivity].
  - destruct L as [z [[a [A [B [D [E H]]]]] L]]. rewrite (Z u (or_introl eq_refl)), vscal_0 in D, E, H. rewrite kick_0 in D, E. rewrite norm_0 in H.
    pose proof (flow_comp mu _ _ _ _ _ Mu B E) as F. replace (dt / 2 + dt / 2) with dt in F by field.
    destruct (flow_integrals mu (fst p) dt (fst z) Rg F) as [I _].
    destruct (IH (fun u U => Z u (or_intror U)) z q (proj1 (same_regular mu _ _ I) Rg) L) as [G M]. split.
    + replace (INR (length (u :: us)) * dt) with (dt + INR (length us) * dt) by (cbn [length]; rewrite S_INR; ring). apply (flow_comp mu _ dt (fst z)); assumption.
    + rewrite M, H. replace (-0 / veff) with 0 by (field; lra). rewrite exp_0. ring.
Qed.
Lemma coast_bck us : (forall u, In u us -> u = vzero) -> forall p q, regular mu (fst p) -> legs (segment_back ok mu c veff dt) us p q -> flow_at mu (fst p) (- (INR (length us) * dt)) (fst q) /\ snd q = snd p.
Proof.
  induction us as [|u us IH]; intros Z p q Rg L.
  - cbn in L. subst q. cbn. rewrite Rmult_0_l, Ropp_0. split; [apply flow_0, Rg|reflexivity].
  - destruct L as [z [[a [A [B [D [E H]]]]] L]]. rewrite (Z u (or_introl eq_refl)), vscal_0 in D, E, H. rewrite vneg_0, kick_0 in D, E. rewrite norm_0 in H.
    pose proof (flow_comp mu _ _ _ _ _ Mu B E) as F. replace (- (dt / 2) + - (dt / 2)) with (- dt) in F by field.
    destruct (flow_integrals mu (fst p) (- dt) (fst z) Rg F) as [I _].
    destruct (IH (fun u U => Z u (or_intror U)) z q (proj1 (same_regular mu _ _ I) Rg) L) as [G M]. split.
    + replace (- (INR (length (u :: us)) * dt)) with (- dt + - (INR (length us) * dt)) by (cbn [length]; rewrite S_INR; ring). apply (flow_comp mu _ (- dt) (fst z)); assumption.
    + rewrite M, H. replace (0 / veff) with 0 by (field; lra). rewrite exp_0. ring.
Qed.
(** and they exist *)
Lemma coast_fwd_ex us : (forall x t y, ok x -> flow_at mu x t y -> ok y) -> (forall x, ok x -> exists z, flow_at mu x (dt / 2) z) -> (forall u, In u us -> u = vzero) -> forall p, ok (fst p) -> exists q, legs (segment ok mu c veff dt) us p q.
Proof.
  intros okf ex. induction us as [|u us IH]; intros Z p A; [exists p; reflexivity|].
  destruct (ex _ A) as [a F]. pose proof (okf _ _ _ A F) as A1. destruct (ex _ A1) as [b F1]. pose proof (okf _ _ _ A1 F1) as A2.
  destruct (IH (fun u U => Z u (or_intror U)) (b, snd p * exp (- norm (vscal (c / snd p) u) / veff)) A2) as [q L]. exists q, (b, snd p * exp (- norm (vscal (c / snd p) u) / veff)). split; [|exact L].
  exists a. split; [exact A|]. split; [exact F|]. cbn zeta. rewrite (Z u (or_introl eq_refl)), vscal_0, kick_0. split; [exact A1|]. split; [exact F1|reflexivity].
Qed.
Lemma coast_bck_ex us : (forall x t y, ok x -> flow_at mu x t y -> ok y) -> (forall x, ok x -> exists z, flow_at mu x (- (dt / 2)) z) -> (forall u, In u us -> u = vzero) -> forall p, ok (fst p) -> exists q, legs (segment_back ok mu c veff dt) us p q.
Proof.
  intros okf ex. induction us as [|u us IH]; intros Z p A; [exists p; reflexivity|].
  destruct (ex _ A) as [a F]. pose proof (okf _ _ _ A F) as A1. destruct (ex _ A1) as [b F1]. pose proof (okf _ _ _ A1 F1) as A2.
  destruct (IH (fun u U => Z u (or_intror U)) (b, snd p * exp (norm (vscal (c / snd p) u) / veff)) A2) as [q L]. exists q, (b, snd p * exp (norm (vscal (c / snd p) u) / veff)). split; [|exact L].
  exists a. split; [exact A|]. split; [exact F|]. cbn zeta. rewrite (Z u (or_introl eq_refl)), vscal_0, vneg_0, kick_0. split; [exact A1|]. split; [exact F1|reflexivity].
Qed.
End Coast.
Lemma flow_exists mu x t : regular mu x -> exists z, flow_at mu x t z.
Proof.
  intros Rg. destruct (regular_r _ _ Rg) as [M [Hr Hh]]. destruct x as [r v]. cbn [fst snd] in *.
  destruct (T_onto mu r v M Hr Hh (sqrt mu * t)) as [z E]. exists (ustate mu r v z). apply (ustate_flow mu r v M Hr Hh t z E).
Qed.
Definition no_thrust (l : sf) : Prop := forall i, nth i (s_thr l) 0 = 0.
Lemma no_thrust_zero l n u : no_thrust l -> In u (throttles n (s_thr l)) -> u = vzero.
Proof. intros Z I. unfold throttles in I. apply in_map_iff in I. destruct I as [i [<- _]]. unfold thr_vec. rewrite !Z. reflexivity. Qed.
Theorem coast_mismatch newton l : newton_ok newton -> proper l -> no_thrust l -> good_arc (s_mu l) (leg_dt l) (s_rvs l) -> good_arc (s_mu l) (leg_dt l) (s_rvf l) ->
  exists a b, flow_at (s_mu l) (s_rvs l) (s_tof l * IZR (s_fwd l) / IZR (s_nseg l)) a /\ flow_at (s_mu l) (s_rvf l) (- (s_tof l * IZR (s_bck l) / IZR (s_nseg l))) b /\
  compute_mismatch_constraints newton l = Ret (minus7 (a, s_ms l) (b, s_mf l)).
Proof.
  intros NK P Z Gs Gf. destruct (proper_c l P) as [Nn [Dt [Cn Ve]]]. pose proof P as [[N1 [N2 [N3 N4]]] [LE [Mu _]]].
  assert (okf : forall x t y, good_arc (s_mu l) (leg_dt l) x -> flow_at (s_mu l) x t y -> good_arc (s_mu l) (leg_dt l) y) by (intros x t y; apply good_flow).
  assert (ex : forall t x, good_arc (s_mu l) (leg_dt l) x -> exists z, flow_at (s_mu l) x t z) by (intros t x G; apply flow_exists, (good_regular _ _ _ G)).
  set (us := throttles (Z.to_nat (s_nseg l)) (s_thr l)).
  assert (Z1 : forall u, In u (firstn (Z.to_nat (s_fwd l)) us) -> u = vzero).
  { intros u I. apply (no_thrust_zero l (Z.to_nat (s_nseg l)) u Z). fold us. rewrite <- (firstn_skipn (Z.to_nat (s_fwd l)) us). apply in_or_app. left. exact I. }
  assert (Z2 : forall u, In u (rev (skipn (Z.to_nat (s_fwd l)) us)) -> u = vzero).
  { intros u I. apply in_rev in I. apply (no_thrust_zero l (Z.to_nat (s_nseg l)) u Z). fold us. rewrite <- (firstn_skipn (Z.to_nat (s_fwd l)) us). apply in_or_app. right. exact I. }
  destruct (coast_fwd_ex _ (s_mu l) (s_T l * leg_dt l) (s_isp l * G0) (leg_dt l) _ okf (ex _) Z1 (s_rvs l, s_ms l) Gs) as [pf F].
  destruct (coast_bck_ex _ (s_mu l) (s_T l * leg_dt l) (s_isp l * G0) (leg_dt l) _ okf (ex _) Z2 (s_rvf l, s_mf l) Gf) as [pb B].
  destruct (mismatch_total newton l pf pb NK P F B) as [E _].
  destruct (coast_fwd _ _ _ _ _ Mu Ve _ Z1 (s_rvs l, s_ms l) _ (good_regular _ _ _ Gs) F) as [F1 F2]. destruct (coast_bck _ _ _ _ _ Mu Ve _ Z2 (s_rvf l, s_mf l) _ (good_regular _ _ _ Gf) B) as [B1 B2].
  cbn [fst snd] in *. exists (fst pf), (fst pb). rewrite E. split; [|split].
  - replace (s_tof l * IZR (s_fwd l) / IZR (s_nseg l)) with (INR (length (firstn (Z.to_nat (s_fwd l)) us)) * leg_dt l); [exact F1|].
    rewrite firstn_length. unfold us. rewrite throttles_len, Nat.min_l by lia. rewrite INR_IZR_INZ, Z2Nat.id by lia. unfold leg_dt. field. lra.
  - replace (s_tof l * IZR (s_bck l) / IZR (s_nseg l)) with (INR (length (rev (skipn (Z.to_nat (s_fwd l)) us))) * leg_dt l); [exact B1|].
    rewrite rev_length, skipn_length. unfold us. rewrite throttles_len. rewrite INR_IZR_INZ. replace (Z.of_nat (Z.to_nat (s_nseg l) - Z.to_nat (s_fwd l))) with (s_bck l) by lia. unfold leg_dt. field. lra.
  - rewrite <- F2, <- B2. destruct pf, pb. reflexivity.
Qed.
Theorem coast_zero newton l : newton_ok newton -> proper l -> no_thrust l -> good_arc (s_mu l) (leg_dt l) (s_rvs l) -> good_arc (s_mu l) (leg_dt l) (s_rvf l) ->
  (compute_mismatch_constraints newton l = Ret ((vzero, vzero), 0) <-> flow_at (s_mu l) (s_rvs l) (s_tof l) (s_rvf l) /\ s_ms l = s_mf l).
Proof.
  intros NK P Z Gs Gf. destruct (coast_mismatch newton l NK P Z Gs Gf) as [a [b [A [B ->]]]]. destruct (proper_c l P) as [Nn _]. destruct P as [[N1 [N2 [N3 N4]]] [_ [Mu _]]].
  assert (S : s_tof l * IZR (s_fwd l) / IZR (s_nseg l) + s_tof l * IZR (s_bck l) / IZR (s_nseg l) = s_tof l). { rewrite <- N3, plus_IZR. rewrite <- N3, plus_IZR in Nn. field. lra. }
  set (tf := s_tof l * IZR (s_fwd l) / IZR (s_nseg l)) in *. set (tb := s_tof l * IZR (s_bck l) / IZR (s_nseg l)) in *.
  split.
  - intros E. assert (Q : a = b /\ s_ms l = s_mf l). { destruct a as [[] []], b as [[] []]. unfold minus7, vsub, vzero in E. cbn in E. injection E. intros. split; [repeat f_equal|]; lra. }
    destruct Q as [-> Q]. split; [|exact Q]. rewrite <- S. apply (flow_comp (s_mu l) _ tf b); try assumption.
    apply (flow_back (s_mu l) _ _ _ Mu) in B. rewrite Ropp_involutive in B. exact B.
  - intros [F Q]. assert (H : flow_at (s_mu l) (s_rvs l) tf b). { replace tf with (s_tof l + - tb) by lra. apply (flow_comp (s_mu l) _ _ (s_rvf l)); assumption. }
    rewrite (flow_functional _ _ _ _ _ A H), Q. f_equal. unfold minus7, vsub, vzero. cbn. f_equal; [f_equal; f_equal; ring|ring].
Qed.

(** ** A leg of one segment on which the two cuts disagree *)
Lemma elliptic_at r v : dot r r = 1 -> dot v v < 2 -> cross r v <> vzero -> elliptic 1 (r, v).
Proof.
  intros Hr Hv C. split; [split; [lra|exact C]|]. unfold energy. cbn [fst snd]. rewrite (norm_unique r 1) by lra. lra.
Qed.
Definition wit_leg (X : state) : sf := mk_sf (V 1 0 0, V 0 1 0) 1 [-1; 0; 0] X (exp (- (1 / 10))) PI (1 / (10 * PI)) (1 / G0) 1 1 1 0.
Lemma wit_c X : s_T (wit_leg X) * leg_dt (wit_leg X) = 1 / 10.
Proof. unfold leg_dt. cbn. pose proof PI_RGT_0. field. lra. Qed.
Lemma wit_ve X : s_isp (wit_leg X) * G0 = 1. Proof. cbn. pose proof G0_pos. field. lra. Qed.
Lemma wit_dt X : leg_dt (wit_leg X) = PI. Proof. unfold leg_dt. cbn. field. Qed.
Lemma wit_proper X : proper (wit_leg X).
Proof.
  pose proof PI_RGT_0. pose proof G0_pos. unfold proper. cbn. repeat split; try lia; try lra; try reflexivity.
  - apply Rlt_le, Rdiv_lt_0_compat; lra.
  - apply Rdiv_lt_0_compat; lra.
  - apply exp_pos.
Qed.
Lemma exp_01 : 1 < exp (1 / 10) < 2.
Proof.
  pose proof (exp_increasing 0 (1 / 10) ltac:(lra)) as I. rewrite exp_0 in I. split; [exact I|].
  pose proof (exp_ineq1 (- (1 / 10)) ltac:(lra)) as H. rewrite exp_Ropp in H. pose proof (exp_pos (1 / 10)) as P.
  apply (Rmult_lt_compat_r (exp (1 / 10))) in H; [|exact P]. rewrite Rinv_l in H by lra. lra.
Qed.
Theorem cut_refuted newton : newton_ok newton -> exists l y, proper l /\ proper (with_cut l 0) /\
  compute_mismatch_constraints newton l = Ret ((vzero, vzero), 0) /\ compute_mismatch_constraints newton (with_cut l 0) = Ret y /\ y <> ((vzero, vzero), 0).
Proof.
  intros NK. pose proof exp_01 as [X1 X2].
  assert (A0 : flow_at 1 (V 1 0 0, V 0 1 0) (PI / 2) (V 0 1 0, V (-1) 0 0)).
  { pose proof (flow_of_solution 1 (circle 0) (PI / 2) circle ltac:(lra) circle_solves eq_refl) as F. unfold circle in F. rewrite cos_0, sin_0, cos_PI2, sin_PI2, Ropp_0 in F. exact F. }
  assert (E0 : elliptic 1 (V 1 0 0, V 0 1 0)) by (apply elliptic_at; unfold dot, cross, vzero; cbn; try lra; intros H; injection H; lra).
  set (k1 := (V 0 1 0, V (- (11 / 10)) 0 0) : state).
  assert (E1 : elliptic 1 k1) by (apply elliptic_at; unfold dot, cross, vzero; cbn; try lra; intros H; injection H; lra).
  destruct (flow_exists 1 k1 (PI / 2) (proj1 E1)) as [X FX].
  set (k2 := (V 0 1 0, V (- (11 / 10) + 1 / 10 * exp (1 / 10)) 0 0) : state).
  assert (E2 : elliptic 1 k2) by (apply elliptic_at; unfold dot, cross, vzero; cbn; try nra; intros H; injection H; lra).
  destruct (flow_exists 1 k2 (- (PI / 2)) (proj1 E2)) as [W FW].
  assert (EX : elliptic 1 X). { destruct (flow_integrals 1 k1 _ X (proj1 E1) FX) as [I _]. apply (proj1 (proj2 (same_regular 1 _ _ I))), E1. }
  assert (M1 : norm (V (-1) 0 0) = 1) by (apply norm_unique; unfold dot; cbn; lra).
  assert (P0 : proper (with_cut (wit_leg X) 0)).
  { destruct (wit_proper X) as [_ H]. split; [cbn; lia|exact H]. }
  assert (FE : forward_end (good_arc 1 (leg_dt (wit_leg X))) (wit_leg X) (X, exp (- (1 / 10)))).
  { unfold forward_end. fold (leg_dt (wit_leg X)). rewrite wit_c, wit_ve, wit_dt. cbn. exists (X, exp (- (1 / 10))). split; [|reflexivity].
    exists (V 0 1 0, V (-1) 0 0). cbn [fst snd]. split; [left; exact E0|]. split; [exact A0|]. cbn zeta.
    replace (kick (V 0 1 0, V (-1) 0 0) (vscal (1 / 10 / 1) (thr_vec [-1; 0; 0] 0))) with k1 by (unfold kick, vadd, vscal, thr_vec, k1; cbn; f_equal; f_equal; field).
    split; [left; exact E1|]. split; [exact FX|]. replace (thr_vec [-1; 0; 0] 0) with (V (-1) 0 0) by reflexivity. rewrite norm_vscal, M1, Rabs_right by lra. rewrite Rmult_1_l. f_equal. field. }
  assert (BE : backward_end (good_arc 1 (leg_dt (wit_leg X))) (wit_leg X) (X, exp (- (1 / 10)))) by reflexivity.
  destruct (mismatch_total newton (wit_leg X) _ _ NK (wit_proper X) FE BE) as [C0 [_ C1]]. rewrite (C1 eq_refl) in C0.
  set (m2 := exp (- (1 / 10)) * exp (1 / 10 * exp (1 / 10))).
  assert (BE2 : backward_end (good_arc 1 (leg_dt (with_cut (wit_leg X) 0))) (with_cut (wit_leg X) 0) (W, m2)).
  { unfold backward_end. replace (leg_dt (with_cut (wit_leg X) 0)) with (leg_dt (wit_leg X)) by reflexivity.
    cbn [with_cut s_rvs s_ms s_thr s_rvf s_mf s_tof s_T s_isp s_mu s_nseg s_fwd s_bck]. fold (leg_dt (wit_leg X)). rewrite wit_c, wit_ve, wit_dt. cbn. exists (W, m2). split; [|reflexivity].
    exists k1. cbn [fst snd]. split; [left; exact EX|]. split; [apply flow_back; [lra|exact FX]|]. cbn zeta.
    assert (RE : 1 / 10 / exp (- (1 / 10)) = 1 / 10 * exp (1 / 10)) by (rewrite exp_Ropp; field; apply Rgt_not_eq, exp_pos).
    rewrite RE. replace (kick k1 (vneg (vscal (1 / 10 * exp (1 / 10)) (thr_vec [-1; 0; 0] 0)))) with k2 by (unfold kick, vadd, vneg, vscal, thr_vec, k1, k2; cbn; f_equal; f_equal; field).
    split; [left; exact E2|]. split; [exact FW|]. replace (thr_vec [-1; 0; 0] 0) with (V (-1) 0 0) by reflexivity. rewrite norm_vscal, M1, Rabs_right by lra. unfold m2. f_equal. f_equal. field. }
  assert (FE2 : forward_end (good_arc 1 (leg_dt (with_cut (wit_leg X) 0))) (with_cut (wit_leg X) 0) ((V 1 0 0, V 0 1 0), 1)) by reflexivity.
  destruct (mismatch_total newton (with_cut (wit_leg X) 0) _ _ NK P0 FE2 BE2) as [D0 [D1 _]].
  exists (wit_leg X), (minus7 ((V 1 0 0, V 0 1 0), 1) (W, m2)). split; [apply wit_proper|]. split; [exact P0|]. split; [exact C0|]. split; [exact D0|].
  intros H. apply D1 in H. apply (f_equal snd) in H. cbn in H. unfold m2 in H. rewrite <- exp_plus in H. rewrite <- exp_0 in H at 1. apply exp_inv in H. lra.
Qed.

(** ** A quarter of a circle in three coasting segments, cut after the first *)
Lemma quarter_zero newton : newton_ok newton ->
  compute_mismatch_constraints newton (mk_sf (V 1 0 0, V 0 1 0) 10 [0; 0; 0; 0; 0; 0; 0; 0; 0] (V 0 1 0, V (-1) 0 0) 10 (PI / 2) 1 1 1 3 1 2) = Ret ((vzero, vzero), 0).
Proof.
  intros NK. pose proof PI_RGT_0. apply coast_zero; try assumption.
  - unfold proper. cbn. repeat split; try lia; try lra; reflexivity.
  - intros i. cbn. do 9 (destruct i as [|i]; [reflexivity|]). destruct i; reflexivity.
  - left. apply elliptic_at; unfold dot, cross, vzero; cbn; try lra; intros Q; injection Q; lra.
  - left. apply elliptic_at; unfold dot, cross, vzero; cbn; try lra; intros Q; injection Q; lra.
  - split; [|reflexivity]. cbn [s_mu s_rvs s_rvf s_tof].
    pose proof (flow_of_solution 1 (circle 0) (PI / 2) circle ltac:(lra) circle_solves eq_refl) as F. unfold circle in F. rewrite cos_0, sin_0, cos_PI2, sin_PI2, Ropp_0 in F. exact F.
Qed.
