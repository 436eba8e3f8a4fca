(** * Lemmas on leg validation, segment split and setter histories *)
From Coq Require Import ZArith Reals Lra List Bool Lia ZifyBool.
From Flocq Require Import Core.Core IEEE754.BinarySingleNaN.
From Verif Require Import Outcome StateMonad Float64 Float64Facts LegModel LegSpec.
Import ListNotations.
Open Scope Z_scope.
Ltac Zify.zify_post_hook ::= Z.div_mod_to_equations.

Lemma d_one : is_finite done = true /\ B2R done = 1%R.
Proof. apply (d_of_Z_exact 1). vm_compute. discriminate. Qed.
Lemma d_zero : is_finite dzero = true /\ B2R dzero = 0%R.
Proof. split; reflexivity. Qed.

(** ** comparisons with constants *)
Lemma not_dltb_zero x : dltb x dzero = false -> not_negative x.
Proof.
  intros H. unfold not_negative. destruct x as [s|[|]| |s m e Hb] eqn:E.
  - right; right. split; [reflexivity|]. cbn. lra.
  - discriminate H.
  - right; left; reflexivity.
  - left; reflexivity.
  - right; right. split; [reflexivity|]. rewrite <- E in *.
    destruct (Rle_lt_dec 0 (B2R x)) as [|L]; [assumption|].
    assert (dltb x dzero = true); [|congruence].
    apply dltb_R; [subst; reflexivity|reflexivity|exact L].
Qed.

Lemma not_negative_check x : not_negative x -> dltb x dzero = false.
Proof.
  intros [H|[H|[F H]]].
  - destruct x; try discriminate H. reflexivity.
  - subst. reflexivity.
  - destruct (dltb x dzero) eqn:E; [|reflexivity]. apply dltb_R in E; [cbn in E; lra|assumption|reflexivity].
Qed.

Lemma check_cut_ok c : check_cut c = Ret tt -> is_nan c = false -> unit_double c.
Proof.
  unfold check_cut, guard. destruct (dltb c dzero || dgtb c done) eqn:E; [discriminate|]. intros _ Hn.
  apply orb_false_iff in E. destruct E as [E1 E2].
  destruct d_one as [F1 V1].
  apply not_dltb_zero in E1. destruct E1 as [E1|[E1|[F H]]].
  - congruence.
  - subst c. vm_compute in E2. discriminate.
  - split; [exact F|]. split; [exact H|].
    destruct (Rle_lt_dec (B2R c) 1) as [|L]; [assumption|].
    assert (dgtb c done = true); [|congruence].
    unfold dgtb. apply dltb_R; [assumption|assumption|]. rewrite V1. exact L.
Qed.

Lemma check_cut_unit c : unit_double c -> check_cut c = Ret tt.
Proof.
  intros [F [H0 H1]]. unfold check_cut, guard. destruct d_one as [F1 V1].
  destruct (dltb c dzero) eqn:E; [apply dltb_R in E; [cbn in E; lra|assumption|reflexivity]|].
  destruct (dgtb c done) eqn:E2; [|reflexivity].
  unfold dgtb in E2. apply dltb_R in E2; [rewrite V1 in E2; lra|assumption|assumption].
Qed.

(** ** the split *)
Lemma round_product_rnd n c : round_product n c = rnd (IZR n * B2R c).
Proof. reflexivity. Qed.

Lemma round_product_bounds n c : 0 <= n < 2 ^ 32 -> unit_double c ->
  (IZR (Zfloor (IZR n * B2R c)) <= round_product n c <= IZR (Zceil (IZR n * B2R c)))%R
  /\ (0 <= round_product n c <= IZR n)%R.
Proof.
  intros Hn [F [H0 H1]]. rewrite round_product_rnd.
  assert (Hn' : (0 <= IZR n)%R) by (apply IZR_le; lia).
  assert (P : (0 <= IZR n * B2R c <= IZR n)%R) by nra.
  assert (F0 : 0 <= Zfloor (IZR n * B2R c) <= n).
  { split; [apply Zfloor_lub; cbn; lra|].
    apply le_IZR. apply Rle_trans with (1 := Zfloor_lb _). lra. }
  assert (C0 : 0 <= Zceil (IZR n * B2R c) <= n).
  { split; [|apply Zceil_glb; lra].
    apply le_IZR. apply Rle_trans with (2 := Zceil_ub _). lra. }
  repeat split.
  - rewrite <- (rnd_IZR (Zfloor (IZR n * B2R c))) by lia. apply rnd_le. apply Zfloor_lb.
  - rewrite <- (rnd_IZR (Zceil (IZR n * B2R c))) by lia. apply rnd_le. apply Zceil_ub.
  - rewrite <- (rnd_IZR 0) by lia. apply rnd_le. lra.
  - apply Rle_trans with (rnd (IZR n)); [apply rnd_le; lra|rewrite rnd_IZR by lia; lra].
Qed.

Lemma Ztrunc_range x n : (0 <= x <= IZR n)%R -> 0 <= Ztrunc x <= n.
Proof.
  intros [H0 H1]. rewrite Ztrunc_floor by exact H0. split.
  - apply Zfloor_lub. exact H0.
  - apply le_IZR. apply Rle_trans with (1 := Zfloor_lb _). exact H1.
Qed.

Theorem split_correct n c : 0 <= n < 2 ^ 32 -> unit_double c ->
  nseg_fwd_of n c = Ret (Ztrunc (round_product n c)) /\ 0 <= Ztrunc (round_product n c) <= n
  /\ nseg_bck_of n (Ztrunc (round_product n c)) = n - Ztrunc (round_product n c).
Proof.
  intros Hn Hc. destruct (round_product_bounds n c Hn Hc) as [_ B].
  pose proof (Ztrunc_range _ _ B) as T. destruct Hc as [F [H0 H1]].
  destruct (d_of_Z_exact n) as [Fn Vn]; [lia|].
  assert (Hn' : (0 <= IZR n)%R) by (apply IZR_le; lia).
  destruct (dmul_correct (d_of_Z n) c 32) as [Fm Vm]; [lia|exact Fn|exact F| |].
  { rewrite Vn. rewrite Rabs_pos_eq by nra. change (bpow radix2 32) with (IZR (2 ^ 32)).
    apply Rle_trans with (IZR n); [nra|]. apply IZR_le. cbn. lia. }
  rewrite Vn in Vm. rewrite <- round_product_rnd in Vm.
  split; [|split; [exact T|]].
  - unfold nseg_fwd_of, d_to_u32. rewrite <- Vm. apply d_to_int_ret; [exact Fm|]. rewrite Vm. lia.
  - unfold nseg_bck_of, wrap32. apply Z.mod_small. lia.
Qed.

Theorem split_floor n c : 0 <= n < 2 ^ 32 -> unit_double c ->
  Zfloor (IZR n * B2R c) <= Ztrunc (round_product n c) <= Zceil (IZR n * B2R c).
Proof.
  intros Hn Hc. destruct (round_product_bounds n c Hn Hc) as [[B1 B2] [B3 B4]].
  rewrite Ztrunc_floor by exact B3. split.
  - apply Zfloor_lub. exact B1.
  - apply le_IZR. apply Rle_trans with (1 := Zfloor_lb _). exact B2.
Qed.

Theorem split_mono n c d : 0 <= n < 2 ^ 32 -> unit_double c -> unit_double d -> (B2R c <= B2R d)%R ->
  Ztrunc (round_product n c) <= Ztrunc (round_product n d).
Proof.
  intros Hn Hc Hd H. apply Ztrunc_le. rewrite !round_product_rnd. apply rnd_le.
  assert (0 <= IZR n)%R by (apply IZR_le; lia). nra.
Qed.

Theorem split_ends n : 0 <= n < 2 ^ 32 -> nseg_fwd_of n dzero = Ret 0 /\ nseg_fwd_of n done = Ret n.
Proof.
  intros Hn. destruct d_one as [F1 V1].
  assert (U0 : unit_double dzero) by (split; [reflexivity|cbn; lra]).
  assert (U1 : unit_double done) by (split; [exact F1|rewrite V1; lra]).
  destruct (split_correct n dzero Hn U0) as [E0 _]. destruct (split_correct n done Hn U1) as [E1 _].
  rewrite E0, E1. rewrite !round_product_rnd, V1. change (B2R dzero) with 0%R.
  rewrite Rmult_0_r, Rmult_1_r, (rnd_IZR 0), rnd_IZR by lia. rewrite !Ztrunc_IZR. split; reflexivity.
Qed.

Theorem split_nan n c : is_nan c = true -> nseg_fwd_of n c = UB.
Proof.
  intros H. destruct c; try discriminate H. unfold nseg_fwd_of, d_to_u32, d_to_int, dmul.
  destruct (d_of_Z n); reflexivity.
Qed.

Lemma split_nan_inv n c nf : nseg_fwd_of n c = Ret nf -> is_nan c = false.
Proof. intros H. destruct (is_nan c) eqn:E; [|reflexivity]. rewrite (split_nan _ _ E) in H. discriminate. Qed.

(** cut = k/n computed in double does not give k forward segments *)
Theorem split_fraction_fails :
  nseg_fwd_of 49 (ddiv (d_of_Z 1) (d_of_Z 49)) = Ret 0.
Proof. vm_compute. reflexivity. Qed.

(** ** validity is an invariant of setter histories *)
Lemma throttles_ok th : check_throttles th = Ret tt -> Z.of_nat (length th) < 2 ^ 32 ->
  1 <= nseg_of th < 2 ^ 32 /\ Z.of_nat (length th) = 3 * nseg_of th.
Proof.
  unfold check_throttles, guard, nseg_of, wrap32, lenZ.
  destruct (negb (Z.of_nat (length th) mod 3 =? 0)) eqn:E; cbn [bind]; [discriminate|].
  destruct th as [|x th]; [discriminate|]. intros _ H. cbn [length] in *. lia.
Qed.

Lemma sub_range_length {A} (src : list A) i j : 0 <= i -> j <= Z.of_nat (length src) -> 0 < j - i ->
  Z.of_nat (length (sub_range src i j)) = j - i.
Proof. intros H1 H2 H3. unfold sub_range. rewrite firstn_length, skipn_length. lia. Qed.

Lemma resplit_valid l l' r :
  1 <= nseg_of (sf_thr l) < 2 ^ 32 -> Z.of_nat (length (sf_thr l)) = 3 * nseg_of (sf_thr l) ->
  unit_double (sf_cut l) -> not_negative (sf_tof l) -> not_negative (sf_T l) -> not_negative (sf_isp l) ->
  not_negative (sf_mu l) ->
  sf_resplit l = (l', r) -> r = Ret tt /\ valid_leg l'.
Proof.
  intros Hn Hl Hc H1 H2 H3 H4 H. unfold sf_resplit, sbind, smodify in H.
  cbn [up_split sf_n sf_cut sf_thr] in H.
  destruct (split_correct (nseg_of (sf_thr l)) (sf_cut l)) as [E [B1 B2]]; [lia|exact Hc|].
  rewrite E in H. cbn in H. inversion H; subst. split; [reflexivity|].
  constructor; cbn [up_split sf_n sf_cut sf_thr sf_nf sf_nb sf_tof sf_T sf_isp sf_mu]; try assumption; try reflexivity.
Qed.

Lemma guard_ret b e : guard b e = Ret tt -> b = false.
Proof. unfold guard. destruct b; [discriminate|reflexivity]. Qed.

Lemma valid_up_tof v l : valid_leg l -> not_negative v -> valid_leg (up_tof v l).
Proof. intros [] H. constructor; cbn; assumption. Qed.

Theorem step_valid o l l' r : valid_leg l -> op_ok o -> sf_do o l = (l', r) -> r <> UB -> valid_leg l'.
Proof.
  intros V Hok H Hub. pose proof V as V0. destruct V as [Vn Vl Vf Vb Vs Vc Vt VT Vi Vm].
  destruct o; cbn [sf_do op_ok] in *; try contradiction.
  - unfold sbind, slift, check_tof in H. destruct (guard (dltb v dzero) DomainError) as [[]| |] eqn:E;
      inversion H; subst; try assumption.
    apply guard_ret in E. apply not_dltb_zero in E. constructor; cbn; assumption.
  - inversion H; subst. constructor; cbn; assumption.
  - inversion H; subst. constructor; cbn; assumption.
  - unfold sbind at 1, slift in H. destruct (check_throttles v) as [[]| |] eqn:E; [|inversion H; subst; exact V0|inversion H; subst; exact V0].
    unfold sbind at 1, smodify at 1 in H. destruct (throttles_ok v E Hok) as [B1 B2].
    apply resplit_valid in H; cbn [up_thr sf_thr sf_cut sf_tof sf_T sf_isp sf_mu]; try assumption. tauto.
  - unfold sbind at 1, slift in H.
    destruct (guard (negb (Z.rem (j - i) 3 =? 0) || (j - i <=? 0)) LogicError) as [[]| |] eqn:E;
      [|inversion H; subst; exact V0|inversion H; subst; exact V0].
    apply guard_ret in E. apply orb_false_iff in E. destruct E as [E1 E2].
    unfold sbind at 1, smodify at 1 in H.
    assert (Hd : 0 < j - i) by lia.
    assert (E3 : Z.rem (j - i) 3 = 0) by lia. rewrite Z.rem_mod_nonneg in E3 by lia.
    destruct Hok as [Hi [Hj Hs]].
    pose proof (sub_range_length src i j Hi Hj Hd) as L.
    assert (N : nseg_of (sub_range src i j) = (j - i) / 3) by (unfold nseg_of, lenZ, wrap32; rewrite L; lia).
    apply resplit_valid in H; cbn [up_thr sf_thr sf_cut sf_tof sf_T sf_isp sf_mu]; try assumption; try lia. tauto.
  - inversion H; subst. constructor; cbn; assumption.
  - inversion H; subst. constructor; cbn; assumption.
  - unfold sbind, slift, check_max_thrust in H. destruct (guard (dltb v dzero) DomainError) as [[]| |] eqn:E;
      inversion H; subst; try assumption.
    apply guard_ret in E. apply not_dltb_zero in E. constructor; cbn; assumption.
  - unfold sbind, slift, check_isp in H. destruct (guard (dltb v dzero) DomainError) as [[]| |] eqn:E;
      inversion H; subst; try assumption.
    apply guard_ret in E. apply not_dltb_zero in E. constructor; cbn; assumption.
  - unfold sbind, slift, check_mu in H. destruct (guard (dltb v dzero) DomainError) as [[]| |] eqn:E;
      inversion H; subst; try assumption.
    apply guard_ret in E. apply not_dltb_zero in E. constructor; cbn; assumption.
  - unfold sbind at 1, slift in H. destruct (check_cut v) as [[]| |] eqn:E;
      [|inversion H; subst; exact V0|inversion H; subst; exact V0].
    unfold sbind, smodify in H. cbn [up_cut sf_n sf_cut] in H.
    destruct (nseg_fwd_of (sf_n l) v) as [nf| |] eqn:Es.
    + apply check_cut_ok in E; [|eapply split_nan_inv; eassumption].
      destruct (split_correct (sf_n l) v) as [E1 [B1 B2]]; [lia|exact E|].
      rewrite E1 in Es. inversion Es; subst nf. inversion H; subst.
      constructor; cbn; try assumption; try reflexivity.
    + exfalso. unfold nseg_fwd_of, d_to_u32, d_to_int in Es.
      destruct (is_finite _); [destruct (_ && _)|]; discriminate.
    + inversion H; subst. congruence.
Qed.

Theorem step_no_ub o l l' r : valid_leg l -> op_ok o -> op_no_nan_cut o -> sf_do o l = (l', r) -> r <> UB.
Proof.
  intros V Hok Hn H. pose proof V as V0. destruct V as [Vn Vl Vf Vb Vs Vc Vt VT Vi Vm].
  destruct o; cbn [sf_do op_ok op_no_nan_cut] in *; try contradiction.
  - unfold sbind, slift, check_tof, guard in H. destruct (dltb v dzero); inversion H; discriminate.
  - inversion H; discriminate.
  - inversion H; discriminate.
  - unfold sbind at 1, slift in H. destruct (check_throttles v) as [[]| |] eqn:E.
    + unfold sbind at 1, smodify at 1 in H. destruct (throttles_ok v E Hok) as [B1 B2].
      apply resplit_valid in H; cbn [up_thr sf_thr sf_cut sf_tof sf_T sf_isp sf_mu]; try assumption.
      destruct H as [-> _]. discriminate.
    + inversion H; discriminate.
    + unfold check_throttles, guard in E. destruct (negb _); cbn [bind] in E; [discriminate|].
      destruct v; discriminate.
  - unfold sbind at 1, slift in H.
    destruct (guard (negb (Z.rem (j - i) 3 =? 0) || (j - i <=? 0)) LogicError) as [[]| |] eqn:E.
    + apply guard_ret in E. apply orb_false_iff in E. destruct E as [E1 E2].
      unfold sbind at 1, smodify at 1 in H.
      assert (Hd : 0 < j - i) by lia.
      assert (E3 : Z.rem (j - i) 3 = 0) by lia. rewrite Z.rem_mod_nonneg in E3 by lia.
      destruct Hok as [Hi [Hj Hs]].
      pose proof (sub_range_length src i j Hi Hj Hd) as L.
      assert (N : nseg_of (sub_range src i j) = (j - i) / 3) by (unfold nseg_of, lenZ, wrap32; rewrite L; lia).
      apply resplit_valid in H; cbn [up_thr sf_thr sf_cut sf_tof sf_T sf_isp sf_mu]; try assumption; try lia.
      destruct H as [-> _]. discriminate.
    + inversion H; discriminate.
    + unfold guard in E. destruct (_ || _); discriminate.
  - inversion H; discriminate.
  - inversion H; discriminate.
  - unfold sbind, slift, check_max_thrust, guard in H. destruct (dltb v dzero); inversion H; discriminate.
  - unfold sbind, slift, check_isp, guard in H. destruct (dltb v dzero); inversion H; discriminate.
  - unfold sbind, slift, check_mu, guard in H. destruct (dltb v dzero); inversion H; discriminate.
  - unfold sbind at 1, slift in H. destruct (check_cut v) as [[]| |] eqn:E.
    + apply check_cut_ok in E; [|exact Hn].
      destruct (split_correct (sf_n l) v) as [E1 [B1 B2]]; [lia|exact E|].
      unfold sbind, smodify in H. cbn [up_cut sf_n sf_cut] in H. rewrite E1 in H. inversion H; discriminate.
    + inversion H; discriminate.
    + unfold check_cut, guard in E. destruct (_ || _); discriminate.
Qed.

Theorem run_valid ops : forall l l', valid_leg l -> Forall op_ok ops -> sf_run ops l = Ret l' -> valid_leg l'.
Proof.
  induction ops as [|o ops IH]; intros l l' V Hok H.
  - inversion H; subst. exact V.
  - inversion Hok as [|? ? Ho Hos]; subst. cbn [sf_run] in H.
    destruct (sf_do o l) as [l1 r] eqn:E.
    assert (r <> UB) by (destruct r; congruence).
    pose proof (step_valid o l l1 r V Ho E H0) as V1.
    destruct r; try congruence; eapply IH; eassumption.
Qed.

Theorem run_no_ub ops : forall l, valid_leg l -> Forall op_ok ops -> Forall op_no_nan_cut ops ->
  exists l', sf_run ops l = Ret l'.
Proof.
  induction ops as [|o ops IH]; intros l V Hok Hnn.
  - exists l. reflexivity.
  - inversion Hok as [|? ? Ho Hos]; subst. inversion Hnn as [|? ? Hn Hns]; subst. cbn [sf_run].
    destruct (sf_do o l) as [l1 r] eqn:E.
    pose proof (step_no_ub o l l1 r V Ho Hn E) as U.
    pose proof (step_valid o l l1 r V Ho E U) as V1.
    destruct (IH l1 V1 Hos Hns) as [l' E']. exists l'. destruct r; congruence.
Qed.

(** the constructor *)
Theorem ctor_valid rvs ms th rvf mf tof mt isp mu cut l : Z.of_nat (length th) < 2 ^ 32 ->
  sf_ctor rvs ms th rvf mf tof mt isp mu cut = Ret l -> valid_leg l.
Proof.
  intros Hlen H. unfold sf_ctor in H.
  destruct (nseg_fwd_of (nseg_of th) cut) as [nf| |] eqn:Es; try discriminate. cbn [bind] in H.
  unfold sanity_checks in H.
  destruct (check_throttles th) as [[]| |] eqn:E1; try discriminate. cbn [bind] in H.
  unfold check_tof in H. destruct (guard (dltb tof dzero) DomainError) as [[]| |] eqn:E2; try discriminate. cbn [bind] in H.
  unfold check_max_thrust in H. destruct (guard (dltb mt dzero) DomainError) as [[]| |] eqn:E3; try discriminate. cbn [bind] in H.
  unfold check_isp in H. destruct (guard (dltb isp dzero) DomainError) as [[]| |] eqn:E4; try discriminate. cbn [bind] in H.
  unfold check_mu in H. destruct (guard (dltb mu dzero) DomainError) as [[]| |] eqn:E5; try discriminate. cbn [bind] in H.
  destruct (check_cut cut) as [[]| |] eqn:E6; try discriminate. cbn [bind] in H.
  destruct (check_nseg _ _ _) as [[]| |] eqn:E7; try discriminate. cbn [bind] in H.
  inversion H; subst. clear H.
  apply guard_ret in E2, E3, E4, E5. apply not_dltb_zero in E2, E3, E4, E5.
  apply check_cut_ok in E6; [|eapply split_nan_inv; eassumption].
  destruct (throttles_ok th E1 Hlen) as [B1 B2].
  destruct (split_correct (nseg_of th) cut) as [C1 [C2 C3]]; [lia|exact E6|].
  rewrite C1 in Es. inversion Es; subst nf.
  constructor; cbn; try assumption; try reflexivity.
Qed.

Theorem default_valid : valid_leg sf_default.
Proof.
  assert (C : unit_double dhalf).
  { split; [reflexivity|]. unfold dhalf, d_of_dyadic.
    pose proof (binary_normalize_correct prec64 emax64 _ _ mode_NE 1 (-1) false) as H. cbv zeta in H.
    replace (F2R (Float radix2 1 (-1))) with (/ 2)%R in H by (unfold F2R; cbn; lra).
    change (round_mode mode_NE) with ZnearestE in H. fold fexp64 in H.
    rewrite (no_overflow _ 0) in H; [|lia|cbn; rewrite Rabs_pos_eq; lra].
    destruct H as [H1 _]. rewrite H1. fold (rnd (/ 2)).
    rewrite (rnd_gen (/ 2)%R); [lra|].
    replace (/ 2)%R with (IZR 1 * bpow radix2 (-1))%R by (cbn; lra). apply gen_Z; lia. }
  assert (Pos : forall x, dltb x dzero = false -> not_negative x) by exact not_dltb_zero.
  constructor; cbn [sf_default sf_n sf_thr sf_nf sf_nb sf_cut sf_tof sf_T sf_isp sf_mu]; try lia.
  - reflexivity.
  - destruct (split_correct 2 dhalf) as [E _]; [lia|exact C|].
    assert (E2 : nseg_fwd_of 2 dhalf = Ret 1) by (vm_compute; reflexivity). congruence.
  - exact C.
  - apply Pos. vm_compute. reflexivity.
  - apply Pos. vm_compute. reflexivity.
  - apply Pos. vm_compute. reflexivity.
  - apply Pos. vm_compute. reflexivity.
Qed.

(** a setter that throws leaves the leg unchanged: true of every setter, [set] included *)
Theorem throw_unchanged o l l' e : sf_do o l = (l', Throw e) -> l' = l.
Proof.
  assert (NT : forall n c x, nseg_fwd_of n c <> Throw x).
  { intros n c x. unfold nseg_fwd_of, d_to_u32, d_to_int. destruct (is_finite _); [destruct (_ && _)|]; discriminate. }
  assert (RS : forall l l' e, sf_resplit l = (l', Throw e) -> l' = l).
  { intros a b x. unfold sf_resplit, sbind, smodify. cbn [up_split sf_n sf_cut sf_thr].
    destruct (nseg_fwd_of _ _) eqn:E; intros H; inversion H. exfalso. eapply NT; eassumption. }
  assert (RS2 : forall l l' e, sf_resplit l = (l', Throw e) -> False).
  { intros a b x. unfold sf_resplit, sbind, smodify. cbn [up_split sf_n sf_cut sf_thr].
    destruct (nseg_fwd_of _ _) eqn:E; intros H; inversion H. eapply NT; eassumption. }
  intros H. destruct o; cbn [sf_do] in H; unfold slift in H; try (inversion H; fail);
    try (unfold sbind at 1 in H;
         match type of H with match ?c with _ => _ end = _ => destruct c as [[]| |]; inversion H; reflexivity end).
  - unfold sbind at 1 in H. destruct (check_throttles v) as [[]| |]; try (inversion H; reflexivity).
    unfold sbind at 1, smodify at 1 in H. apply RS2 in H. contradiction.
  - unfold sbind at 1 in H. destruct (guard _ _) as [[]| |]; try (inversion H; reflexivity).
    unfold sbind at 1, smodify at 1 in H. apply RS2 in H. contradiction.
  - unfold sbind at 1 in H. destruct (check_cut v) as [[]| |]; try (inversion H; reflexivity).
    unfold sbind, smodify in H. cbn [up_cut sf_n sf_cut] in H.
    destruct (nseg_fwd_of _ _) eqn:E; inversion H. exfalso. eapply NT; eassumption.
  - unfold sbind at 1 in H. destruct (sanity_checks _ _ _ _ _ _ _ _ _) as [[]| |]; try (inversion H; reflexivity).
    unfold sbind at 1, smodify at 1 in H. apply RS2 in H. contradiction.
Qed.
