(** * Coasting segments: the columns that are derivatives, and the one that no matrix can be *)
From Coq Require Import Reals Lra Lia List ZArith.
From Coquelicot Require Import Coquelicot.
From Verif Require Import RealLib Outcome Vec3 TwoBodySpec DynSpec DynModel DynProofs SfModel SfSpec SfGrad OdeLib OdeSd OdeNear HfGradModel HfGradSpec HfGradFlow HfGradAlg HfGradLin HfGradAll HfGradChain HfGradMain HfGradMis HfGradExample HfCut HfNear PyMatModel PyMatSpec PyMatProofs PyMatLegs HfExists HfCoast HfCoastMain.
Import ListNotations.
Open Scope R_scope.

Lemma gradient_any tas_var l A B G : tas_var_exact tas_var -> proper_hf l -> compute_mc_grad tas_var l = Ret (A, B, G) ->
  forall xs th xf tof (dxs : col7) (dth : list R) (dxf : col7) (dtof : R),
  xs 0 = col_of (g_rvms l) -> th 0 = g_thr l -> xf 0 = col_of (g_rvmf l) -> tof 0 = g_tof l -> keeps_coasting (Z.to_nat (g_nseg l)) th ->
  derive7 xs 0 dxs -> derive_list th 0 dth -> derive7 xf 0 dxf -> is_derive tof 0 dtof ->
  exists (y : R -> col7) eps, 0 < eps /\
  (forall e, Rabs e < eps -> flown (g_mu l) (g_isp l * G0) (g_T l) (Z.to_nat (g_nseg l)) (Z.to_nat (g_fwd l)) (xs e) (th e) (xf e) (tof e) (y e)) /\
  derive7 y 0 (plus7 (apply7 7 A (list7 dxs)) (plus7 (apply7 7 B (list7 dxf)) (apply7 (3 * Z.to_nat (g_nseg l) + 1) G (map (Rmult (g_T l)) dth ++ [dtof])))).
Proof. intros HT P E. exact (mc_grad_c tas_var l P A B G HT E). Qed.

Lemma hf_curve_c tas_var l A B G (xs xf ut : R -> list R) dxs dxf dut : let n := Z.to_nat (g_nseg l) in tas_var_exact tas_var -> proper_hf l -> HfGradModel.compute_mc_grad tas_var l = Ret (A, B, G) ->
  xs 0 = g_rvms l -> xf 0 = g_rvmf l -> ut 0 = hf_ut l -> (forall e, length (ut e) = (3 * n + 1)%nat) -> length dut = (3 * n + 1)%nat -> length dxs = 7%nat -> length dxf = 7%nat ->
  keeps_coasting n (fun e => firstn (3 * n) (ut e)) ->
  (forall k, is_derive (fun e => nth k (xs e) 0) 0 (nth k dxs 0)) -> (forall k, is_derive (fun e => nth k (xf e) 0) 0 (nth k dxf 0)) -> (forall k, is_derive (fun e => nth k (ut e) 0) 0 (nth k dut 0)) ->
  exists y eps, 0 < eps /\ (forall e, Rabs e < eps -> misses_hf l (xs e) (xf e) (ut e) (y e)) /\
  forall i, (i < 7)%nat -> is_derive (fun e => nth i (y e) 0) 0 (row 7 A dxs i + (row 7 B dxf i + row (3 * n + 1) G (map (Rmult (g_T l)) (firstn (3 * n) dut) ++ [nth (3 * n) dut 0]) i)).
Proof.
  intros n HT P C E1 E2 E3 LU LD L1 L2 KC D1 D2 D3. pose proof P as [_ [LT _]]. fold n in LT.
  assert (ET : firstn (3 * n) (ut 0) = g_thr l) by (rewrite E3; unfold hf_ut; rewrite firstn_app, LT, Nat.sub_diag, firstn_O, app_nil_r; rewrite <- LT; apply firstn_all).
  assert (EN : nth (3 * n) (ut 0) 0 = g_tof l) by (rewrite E3; unfold hf_ut; rewrite app_nth2, LT, Nat.sub_diag by lia; reflexivity).
  destruct (gradient_any tas_var l A B G HT P C (fun e => col_of (xs e)) (fun e => firstn (3 * n) (ut e)) (fun e => col_of (xf e)) (fun e => nth (3 * n) (ut e) 0)
    (col_of dxs) (firstn (3 * n) dut) (col_of dxf) (nth (3 * n) dut 0)) as [y [eps [Ep [Hy D]]]].
  - cbv beta. rewrite E1. reflexivity.
  - exact ET.
  - cbv beta. rewrite E2. reflexivity.
  - exact EN.
  - exact KC.
  - apply col_derive. exact D1.
  - split; [rewrite !firstn_length, LU, LD; reflexivity|]. intros j. apply derive_nth_firstn. exact D3.
  - apply col_derive. exact D2.
  - apply D3.
  - exists (fun e => list7 (y e)), eps. split; [exact Ep|]. split; [intros e He; exists (y e); split; [apply Hy; exact He|reflexivity]|].
    intros i Hi. apply comp7_derive with (i := i) in D; [|exact Hi]. rewrite !comp7_plus, !comp7_apply in D by exact Hi. rewrite !list7_col in D by assumption. exact D.
Qed.
Lemma keeps_same n (th : list R) : keeps_coasting n (fun _ => th).
Proof. intros i _ Z e. exact Z. Qed.
Lemma keeps_nudge n (u : list R) j : (j < length u)%nat -> ((j < 3 * n)%nat -> thr_vec (firstn (3 * n) u) (j / 3) <> vzero) -> keeps_coasting n (fun e => firstn (3 * n) (nudge u j e)).
Proof.
  intros Hj Nz i Hi Z e. cbv beta in Z. rewrite nudge_0 in Z by exact Hj. rewrite <- Z. assert (Ni : forall c, (c < 3)%nat -> (3 * i + c)%nat <> j).
  { intros c Hc E. apply Nz; [lia|]. replace (j / 3)%nat with i; [exact Z|]. rewrite <- E, Nat.mul_comm, Nat.div_add_l, (Nat.div_small c 3) by lia. lia. }
  pose proof (Ni 0%nat ltac:(lia)) as N0. pose proof (Ni 1%nat ltac:(lia)). pose proof (Ni 2%nat ltac:(lia)).
  unfold thr_vec. rewrite !nth_firstn_ by lia. rewrite !nudge_nth by exact Hj. rewrite !(proj2 (Nat.eqb_neq _ j)) by lia. rewrite !Rplus_0_r. reflexivity.
Qed.
Lemma hf_partials_any tas_var l a b g : tas_var_exact tas_var -> proper_hf l -> py_mc_grad_hf tas_var l = Ret (a, b, g) ->
  let n := Z.to_nat (g_nseg l) in
  has_partials (fun xs => misses_hf l xs (g_rvmf l) (hf_ut l)) (g_rvms l) 7 (entry a) /\
  has_partials (fun xf => misses_hf l (g_rvms l) xf (hf_ut l)) (g_rvmf l) 7 (entry b) /\
  forall j, (j < 3 * n + 1)%nat -> ((j < 3 * n)%nat -> thr_vec (g_thr l) (j / 3) <> vzero) ->
  has_column (fun ut => misses_hf l (g_rvms l) (g_rvmf l) ut) (hf_ut l) 7 (fun i => scaled_columns n (g_T l) g i j) j.
Proof.
  intros HT P E n. unfold py_mc_grad_hf in E. destruct (HfGradModel.compute_mc_grad tas_var l) as [[[A B] G]|e|] eqn:C; cbn [bind] in E; try discriminate.
  pose proof (gradient_safe tas_var l (exact_sized _ HT) P) as S. rewrite C in S. destruct S as [LA [LB LG]].
  pose proof P as [[P1 [P2 [P3 [P4 P5]]]] [LT [_ [L1 [L2 _]]]]].
  destruct (three_ok (g_nseg l) A B G) as [a' [b' [g' [E' [_ [_ [_ [Ha [Hb Hg]]]]]]]]]; [lia|exact P5|assumption|assumption|assumption|]. rewrite E' in E. injection E as -> -> ->.
  fold n in LT, LG, Hg. assert (LU : length (hf_ut l) = (3 * n + 1)%nat) by (unfold hf_ut; rewrite app_length, LT; reflexivity).
  assert (ET : firstn (3 * n) (hf_ut l) = g_thr l) by (unfold hf_ut; rewrite firstn_app, LT, Nat.sub_diag, firstn_O, app_nil_r; rewrite <- LT; apply firstn_all).
  assert (ZR : forall i, row (3 * n + 1) G (map (Rmult (g_T l)) (firstn (3 * n) (zeros_ (3 * n + 1))) ++ [nth (3 * n) (zeros_ (3 * n + 1)) 0]) i = 0).
  { intros i. apply row_zero. intros k. rewrite zeros_nth. destruct (Nat.lt_ge_cases k (3 * n)) as [L|L].
    - rewrite app_nth1 by (rewrite map_length, firstn_length; unfold zeros_; rewrite repeat_length; lia).
      rewrite (nth_indep _ 0 (g_T l * 0)) by (rewrite map_length, firstn_length; unfold zeros_; rewrite repeat_length; lia). rewrite (map_nth (Rmult (g_T l))), nth_firstn_, zeros_nth by exact L. ring.
    - rewrite app_nth2 by (rewrite map_length, firstn_length; unfold zeros_; rewrite repeat_length; lia).
      match goal with |- nth ?m _ _ = _ => destruct m as [|[|?]]; reflexivity end. }
  split; [|split]; intros j Hj.
  - rewrite L1 in Hj.
    destruct (hf_curve_c tas_var l A B G (fun e => nudge (g_rvms l) j e) (fun _ => g_rvmf l) (fun _ => hf_ut l) (unit 7 j) (zeros_ 7) (zeros_ (3 * n + 1))) as [y [eps [Ep [Hy D]]]]; try assumption; try reflexivity; try (intros; apply still).
    + apply nudge_0. lia.
    + intros; exact LU.
    + unfold zeros_. apply repeat_length.
    + apply keeps_same.
    + intros k. rewrite <- L1. apply nudge_derive. lia.
    + exists y, eps. split; [exact Ep|]. split; [exact Hy|]. intros i Hi. rewrite Ha by assumption. eapply der_to; [apply D; exact Hi|]. fold n. rewrite row_unit by exact Hj. rewrite row_zeros, ZR. ring.
  - rewrite L2 in Hj.
    destruct (hf_curve_c tas_var l A B G (fun _ => g_rvms l) (fun e => nudge (g_rvmf l) j e) (fun _ => hf_ut l) (zeros_ 7) (unit 7 j) (zeros_ (3 * n + 1))) as [y [eps [Ep [Hy D]]]]; try assumption; try reflexivity; try (intros; apply still).
    + apply nudge_0. lia.
    + intros; exact LU.
    + unfold zeros_. apply repeat_length.
    + apply keeps_same.
    + intros k. rewrite <- L2. apply nudge_derive. lia.
    + exists y, eps. split; [exact Ep|]. split; [exact Hy|]. intros i Hi. rewrite Hb by assumption. eapply der_to; [apply D; exact Hi|]. fold n. rewrite row_unit by exact Hj. rewrite row_zeros, ZR. ring.
  - intros Nz.
    destruct (hf_curve_c tas_var l A B G (fun _ => g_rvms l) (fun _ => g_rvmf l) (fun e => nudge (hf_ut l) j e) (zeros_ 7) (zeros_ 7) (unit (3 * n + 1) j)) as [y [eps [Ep [Hy D]]]]; try assumption; try reflexivity; try (intros; apply still).
    + apply nudge_0. lia.
    + intros e. rewrite nudge_length; [exact LU|lia].
    + apply unit_length.
    + apply keeps_nudge; [lia|]. fold n. rewrite ET. exact Nz.
    + intros k. rewrite <- LU. apply nudge_derive. lia.
    + exists y, eps. split; [exact Ep|]. split; [exact Hy|]. intros i Hi. unfold scaled_columns. rewrite Hg by assumption. eapply der_to; [apply D; exact Hi|]. fold n.
      rewrite <- (scaled_row (3 * n) G (g_T l) i j Hj). rewrite !row_zeros. ring.
Qed.

(** ** A coasting leg without gravity *)
Definition rest : col7 := ((V 1 1 0, V 0 0 0), 2).
Lemma rest_arc : arc (thrust_field 0 1 vzero) 1 (fun _ => rest).
Proof.
  intros t Ht. split; [split; cbn; [intros E; apply (f_equal vy) in E; cbn in E; lra|lra]|].
  assert (N0 : norm vzero = 0) by (unfold norm, dot, vzero; cbn; replace (0 * 0 + 0 * 0 + 0 * 0) with 0 by ring; apply sqrt_0).
  unfold thrust_field, gravity, rest, vadd, vscal. rewrite N0. cbn [fst snd vx vy vz vzero].
  split; [split; [split; [|split]|split; [|split]]|]; cbn [fst snd vx vy vz vzero]; try apply der_const; (eapply der_to; [apply der_const|]); unfold Rdiv; ring.
Qed.
(** the same thrust the other way *)
Definition rampn (c t : R) : col7 := ((V (1 - (t + (2 / c - t) * lam c t)) 1 0, V (lam c t) 0 0), 2 - c * t).
Lemma rampn_arc c : 0 < c < 2 -> arc (thrust_field 0 1 (V (- c) 0 0)) 1 (rampn c).
Proof.
  intros Hc t Ht. unfold between in Ht. rewrite Rmin_left, Rmax_right in Ht by lra.
  assert (P : 0 < 1 - c * t / 2) by nra. assert (P2 : 0 < 2 - c * t) by lra.
  split; [split; cbn; [intros E; apply (f_equal vy) in E; cbn in E; lra|lra]|].
  assert (Nc : norm (V (- c) 0 0) = c). { unfold norm, dot. cbn. replace (- c * - c + 0 * 0 + 0 * 0) with (c * c) by ring. apply sqrt_square. lra. }
  assert (DL : is_derive (lam c) t (- c / (2 - c * t))). { unfold lam. auto_derive; [lra|field; lra]. }
  unfold thrust_field, gravity. rewrite Nc. unfold rampn, vadd, vscal. cbn [fst snd vx vy vz].
  assert (D0 : forall a : R, is_derive (fun _ : R => a) t 0) by (intros; apply der_const).
  split; [split; [split; [|split]|split; [|split]]|]; cbn [fst snd vx vy vz].
  - eapply der_to; [apply der_minus; [apply der_const|apply der_plus; [apply der_id|apply der_mult; [apply der_minus; [apply der_const|apply der_id]|exact DL]]]|]. cbv beta. field. lra.
  - apply D0.
  - apply D0.
  - eapply der_to; [exact DL|]. unfold Rdiv. rewrite Ropp_0, !Rmult_0_l. field. lra.
  - eapply der_to; [apply D0|]. unfold Rdiv. ring.
  - eapply der_to; [apply D0|]. unfold Rdiv. ring.
  - auto_derive; [exact I|field].
Qed.
Lemma rampn_0 c : rampn c 0 = rest.
Proof. unfold rampn, rest. rewrite lam_0, !Rmult_0_r, !Rplus_0_r, !Rminus_0_r. reflexivity. Qed.

Definition cPt (i k : nat) : R := match i, k with 0, 3 | 1, 4 | 2, 5 => (1)%R | _, _ => (0)%R end%nat.
Definition cW (t : R) (i j : nat) : R :=
  match i, j with
  | 0, 0 | 1, 1 | 2, 2 | 3, 3 | 4, 4 | 5, 5 | 6, 6 => (1)%R
  | 0, 3 | 1, 4 | 2, 5 => (t)%R
  | _, _ => (0)%R
  end%nat.
Lemma cpartial i k : (i < 7)%nat -> (k < 7)%nat -> partial (thrust_field 0 1) rest vzero i k = cPt i k.
Proof.
  intros Hi Hk. unfold partial. apply is_derive_unique. cbv zeta.
  assert (Eu : forall s, z_thrust (moved (joined rest vzero) k s) = vzero) by (intros s; do 7 (destruct k as [|k]; [reflexivity|]); exfalso; lia).
  apply (is_derive_ext (fun s => comp7 (thrust_field 0 1 vzero (z_state (moved (joined rest vzero) k s))) i)); [intros s; rewrite Eu; reflexivity|].
  assert (N0 : norm vzero = 0) by (unfold norm, dot, vzero; cbn; replace (0 * 0 + 0 * 0 + 0 * 0) with 0 by ring; apply sqrt_0).
  assert (Z : forall j, (3 <= j < 7)%nat -> is_derive (fun s => comp7 (thrust_field 0 1 vzero (z_state (moved (joined rest vzero) k s))) j) 0 0).
  { intros j Hj. apply (is_derive_ext (fun _ => 0)); [|apply der_const]. intros s. symmetry. enough (E : comp7 (thrust_field 0 1 vzero (z_state (moved (joined rest vzero) k s))) j = 0) by exact E. unfold thrust_field, gravity, comp7, vadd, vscal, list7. rewrite N0. do 3 (destruct j as [|j]; [exfalso; lia|]).
    do 4 (destruct j as [|j]; [cbn [fst snd vx vy vz vzero nth]; unfold Rdiv; ring|]). exfalso; lia. }
  idx7 i Hi; try (eapply der_to; [apply Z; lia|]; do 7 (destruct k as [|k]; [reflexivity|]); exfalso; lia).
  - apply (der_ext (fun s => moved (joined rest vzero) k s 3)); [reflexivity|]. eapply der_to; [apply (der_moved _ k 3)|]. do 7 (destruct k as [|k]; [reflexivity|]). lia.
  - apply (der_ext (fun s => moved (joined rest vzero) k s 4)); [reflexivity|]. eapply der_to; [apply (der_moved _ k 4)|]. do 7 (destruct k as [|k]; [reflexivity|]). lia.
  - apply (der_ext (fun s => moved (joined rest vzero) k s 5)); [reflexivity|]. eapply der_to; [apply (der_moved _ k 5)|]. do 7 (destruct k as [|k]; [reflexivity|]). lia.
Qed.
Lemma cvar : variational (thrust_field 0 1) vzero 1 (fun _ => rest) cW.
Proof.
  intros t i j Ht Hi Hj Hz. specialize (Hz eq_refl). rewrite (proj2 (Nat.ltb_lt j 7) Hz), Rplus_0_r. eapply der_to.
  2:{ symmetry. rewrite (sum_ext 7 _ (fun k => cPt i k * cW t k j)); [reflexivity|]. intros k Hk. rewrite cpartial by assumption. reflexivity. }
  do 7 (destruct i as [|i]; [do 7 (destruct j as [|j]; [cbn [sum_n cPt cW]; eapply der_to; [lazymatch goal with |- is_derive (fun x => x) _ _ => apply der_id | |- is_derive (fun _ => ?c) _ _ => apply (der_const c) end|ring]|]); exfalso; lia|]). exfalso; lia.
Qed.
Definition cleg : hg := mk_hg [1; 1; 0; 0; 0; 0; 2] vars0 [0; 0; 0] [0 * 1; 0 * 1; 0 * 1] wrvmf 1 1 (/ G0) 0 1 1 0 0 (/ G0 * G0).
Definition cend : list R := list7 rest ++ map (fun k => cW 1 (k / 10) (k mod 10)) (seq 0 70).
Definition ctas (p : list R) (t0 t1 : R) (s : list R) : option (list R) :=
  if list_eq_dec Req_EM_T p [0; 1; 0; 0; 0] then if Req_EM_T (t1 - t0) 1 then if list_eq_dec Req_EM_T s ([1; 1; 0; 0; 0; 0; 2] ++ vars0) then Some cend else None else None else None.
Lemma cW_0 i j : (i < 7)%nat -> (j < 10)%nat -> cW 0 i j = if Nat.eqb i j then 1 else 0.
Proof. intros Hi Hj. do 7 (destruct i as [|i]; [do 10 (destruct j as [|j]; [reflexivity|]); lia|]). lia. Qed.
Lemma ctas_exact : tas_var_exact ctas.
Proof.
  intros mu veff ux uy uz t0 t1 s s' E Ls. unfold ctas in E.
  destruct (list_eq_dec Req_EM_T [mu; veff; ux; uy; uz] [0; 1; 0; 0; 0]) as [Ep|]; [|discriminate E]. destruct (Req_EM_T (t1 - t0) 1) as [Et|]; [|discriminate E].
  destruct (list_eq_dec Req_EM_T s ([1; 1; 0; 0; 0; 0; 2] ++ vars0)) as [Es|]; [|discriminate E].
  assert (Ee : s' = cend) by congruence. injection Ep as -> -> -> -> ->. rewrite Et, Ee, Es. split; [reflexivity|]. exists (fun _ => rest), cW.
  split; [apply arc_to_stark; [lra|exact rest_arc]|]. split; [apply var_to_stark; [lra|exact rest_arc|exact cvar]|].
  split; [reflexivity|]. split; [reflexivity|]. intros i j Hi Hj. split.
  - rewrite cW_0 by assumption. rewrite app_nth2 by (cbn [length]; lia). cbn [length]. replace (7 + 10 * i + j - 7)%nat with (10 * i + j)%nat by lia. symmetry. apply vars0_nth; assumption.
  - unfold cend. rewrite app_nth2 by (cbn [length list7]; lia). change (length (list7 rest)) with 7%nat. replace (7 + 10 * i + j - 7)%nat with (10 * i + j)%nat by lia.
    rewrite HfGradLin.nth_map_seq by lia. rewrite (Nat.mul_comm 10 i), Nat.add_comm, Nat.div_add, Nat.mod_add by lia. rewrite Nat.div_small, Nat.mod_small by exact Hj. reflexivity.
Qed.
Lemma cleg_proper : proper_hf cleg.
Proof.
  split; [cbn; repeat split; lia|]. split; [reflexivity|]. split; [reflexivity|]. split; [reflexivity|]. split; [reflexivity|]. split; [reflexivity|]. split; [reflexivity|]. split; [reflexivity|].
  cbn. apply Rinv_0_lt_compat. unfold G0. lra.
Qed.
Lemma ctas_run t : ctas [0; / G0 * G0; 0 * 1; 0 * 1; 0 * 1] 0 (1 * (1 / 1)) ([1; 1; 0; 0; 0; 0; 2] ++ vars0) = t -> t = Some cend.
Proof.
  intros <-. unfold ctas. rewrite veff_1, !Rmult_0_l. destruct (list_eq_dec Req_EM_T [0; 1; 0; 0; 0] [0; 1; 0; 0; 0]) as [_|N]; [|contradiction].
  destruct (Req_EM_T (1 * (1 / 1) - 0) 1) as [_|N]; [|exfalso; apply N; field]. destruct (list_eq_dec Req_EM_T ([1; 1; 0; 0; 0; 0; 2] ++ vars0) ([1; 1; 0; 0; 0; 0; 2] ++ vars0)) as [_|N]; [reflexivity|contradiction].
Qed.
Lemma cleg_runs : exists A B G, compute_mc_grad ctas cleg = Ret (A, B, G).
Proof.
  assert (S := mc_grad_safe ctas cleg cleg_proper (exact_sized _ ctas_exact)).
  assert (N : compute_mc_grad ctas cleg <> Throw DomainError).
  { unfold compute_mc_grad, compute_all_gradients. change (Z.to_nat (g_fwd cleg)) with 1%nat. change (Z.to_nat (g_bck cleg)) with 0%nat. cbn [vfwd vbck].
    match goal with |- context [bind (cut ?a ?b ?c)] => change (cut a b c) with (Ret [0 * 1; 0 * 1; 0 * 1]) end. cbn [bind].
    change (IZR (u32 (0 + 1)) * (g_tof cleg / IZR (g_nseg cleg))) with (1 * (1 / 1)).
    unfold run. change (g_pmu cleg :: g_pveff cleg :: [0 * 1; 0 * 1; 0 * 1]) with [0; / G0 * G0; 0 * 1; 0 * 1; 0 * 1]. change (g_rvms cleg ++ g_vars cleg) with ([1; 1; 0; 0; 0; 0; 2] ++ vars0).
    rewrite (ctas_run _ eq_refl). generalize cend. intros w E. cbv -[R Rplus Rmult Rinv Ropp IZR dxdx_of dxdu_of firstn mdot state_derivative final_array add_l negl eye7 map zeros Rdiv] in E. discriminate E. }
  destruct (compute_mc_grad ctas cleg) as [[[A B] G]|e|]; [exists A, B, G; reflexivity|exfalso; apply N; rewrite S; reflexivity|contradiction].
Qed.

(** the throttle is moved away from 0, either way *)
Definition cth (e : R) : list R := [e; 0; 0].
Definition cstate (e : R) : col7 := if Rlt_dec 0 e then ramp e 1 else if Rlt_dec e 0 then rampn (- e) 1 else rest.
Lemma cy_flown e : Rabs e < 1 -> flown 0 (/ G0 * G0) 1 1 1 (col_of [1; 1; 0; 0; 0; 0; 2]) (cth e) (col_of wrvmf) 1 (minus7 (cstate e) (col_of wrvmf)).
Proof.
  intros He. apply Rabs_lt_between in He. rewrite veff_1. unfold flown. cbn [throttles seq map firstn skipn rev legs]. exists (cstate e), (col_of wrvmf).
  split; [|split; [reflexivity|reflexivity]]. exists (cstate e). split; [|reflexivity]. replace (1 / INR 1) with 1 by (cbn; field).
  replace (vscal 1 (thr_vec (cth e) 0)) with (V e 0 0) by (unfold vscal, thr_vec, cth; cbn; apply vec_eq; cbn; ring).
  change (col_of [1; 1; 0; 0; 0; 0; 2]) with rest. unfold cstate. destruct (Rlt_dec 0 e) as [P|P]; [|destruct (Rlt_dec e 0) as [Q|Q]].
  - exists (ramp e). split; [apply ramp_arc; lra|]. split; [apply ramp_0|reflexivity].
  - exists (rampn (- e)). split; [pose proof (rampn_arc (- e) ltac:(lra)) as A; rewrite Ropp_involutive in A; exact A|]. split; [apply rampn_0|reflexivity].
  - replace e with 0 by lra. exists (fun _ => rest). split; [exact rest_arc|]. split; reflexivity.
Qed.
Lemma cstate_mass e : snd (cstate e) = 2 - Rabs e.
Proof.
  unfold cstate. destruct (Rlt_dec 0 e) as [P|P]; [|destruct (Rlt_dec e 0) as [Q|Q]]; cbn [snd ramp rampn rest].
  - rewrite Rabs_right by lra. ring.
  - rewrite Rabs_left by lra. ring.
  - replace e with 0 by lra. rewrite Rabs_R0. ring.
Qed.
Lemma no_derive_abs a (d : R) : ~ is_derive (fun e => a - Rabs e) 0 d.
Proof.
  intros D. destruct (derive_near _ _ _ D (1 / 2) ltac:(lra)) as [r [Rp H]].
  pose proof (H (r / 2) ltac:(rewrite Rminus_0_r, Rabs_right; lra)) as H1. pose proof (H (- (r / 2)) ltac:(rewrite Rminus_0_r, Rabs_left; lra)) as H2.
  rewrite !Rminus_0_r in H1. rewrite !Rminus_0_r in H2. rewrite Rabs_R0, !(Rabs_right (r / 2)) in H1 by lra. rewrite Rabs_R0, !(Rabs_left (- (r / 2))) in H2 by lra.
  apply Rabs_le_between in H1. apply Rabs_le_between in H2. nra.
Qed.
Lemma coast_refuted : exists (l : hg) tas_var A0 B0 G0', tas_var_exact tas_var /\ proper_hf l /\ g_T l = 1 /\ compute_mc_grad tas_var l = Ret (A0, B0, G0') /\
  forall k A B G, ~ hf_jacobian (g_mu l) (g_isp l * G0) (g_T l) (Z.to_nat (g_nseg l)) (Z.to_nat (g_fwd l)) (col_of (g_rvms l)) (g_thr l) (col_of (g_rvmf l)) (g_tof l) k A B G.
Proof.
  destruct cleg_runs as [A0 [B0 [G0' E]]]. exists cleg, ctas, A0, B0, G0'. split; [exact ctas_exact|]. split; [exact cleg_proper|]. split; [reflexivity|]. split; [exact E|].
  intros k A B G [_ [_ [_ J]]].
  assert (Dth : derive_list cth 0 [1; 0; 0]).
  { split; [reflexivity|]. intros j. unfold cth. destruct j as [|[|[|j]]]; cbn [nth]; [apply der_id|apply der_const|apply der_const|destruct j; apply der_const]. }
  specialize (J (fun _ => col_of [1; 1; 0; 0; 0; 0; 2]) cth (fun _ => col_of wrvmf) (fun _ => 1) (fun e => minus7 (cstate e) (col_of wrvmf)) ((V 0 0 0, V 0 0 0), 0) [1; 0; 0] ((V 0 0 0, V 0 0 0), 0) 0).
  specialize (J eq_refl eq_refl eq_refl eq_refl (const_derive7 _ 0) Dth (const_derive7 _ 0) (der_const 1 0)).
  specialize (J ltac:(exists 1; split; [lra|]; intros e He; apply cy_flown; exact He)).
  destruct J as [_ J]. cbn [snd] in J. match type of J with is_derive _ _ ?d => apply (no_derive_abs 1 d) end.
  eapply is_derive_ext; [|exact J]. intros e. unfold minus7. cbn [snd]. rewrite cstate_mass. cbn. ring.
Qed.
(** a coasting leg: the gradient is returned, and its end moves with the initial velocity *)
Definition drift (v t : R) : col7 := ((V (1 + v * t) 1 0, V v 0 0), 2).
Lemma drift_arc v : arc (thrust_field 0 1 vzero) 1 (drift v).
Proof.
  intros t Ht. split; [split; cbn; [intros E; apply (f_equal vy) in E; cbn in E; lra|lra]|].
  assert (N0 : norm vzero = 0) by (unfold norm, dot, vzero; cbn; replace (0 * 0 + 0 * 0 + 0 * 0) with 0 by ring; apply sqrt_0).
  unfold thrust_field, gravity, drift, vadd, vscal. rewrite N0. cbn [fst snd vx vy vz vzero].
  split; [split; [split; [|split]|split; [|split]]|]; cbn [fst snd vx vy vz vzero].
  - eapply der_to; [apply der_plus; [apply der_const|apply der_scal; apply der_id]|]. ring.
  - apply der_const.
  - apply der_const.
  - eapply der_to; [apply (der_const v)|]. unfold Rdiv. ring.
  - eapply der_to; [apply (der_const 0)|]. unfold Rdiv. ring.
  - eapply der_to; [apply (der_const 0)|]. unfold Rdiv. ring.
  - eapply der_to; [apply (der_const 2)|]. unfold Rdiv. ring.
Qed.
Lemma drift_flown v : flown 0 (/ G0 * G0) 1 1 1 (col_of [1; 1; 0; v; 0; 0; 2]) [0; 0; 0] (col_of wrvmf) 1 (minus7 (drift v 1) (col_of wrvmf)).
Proof.
  rewrite veff_1. unfold flown. cbn [throttles seq map firstn skipn rev legs]. exists (drift v 1), (col_of wrvmf).
  split; [|split; [reflexivity|reflexivity]]. exists (drift v 1). split; [|reflexivity]. replace (1 / INR 1) with 1 by (cbn; field).
  replace (vscal 1 (thr_vec [0; 0; 0] 0)) with vzero by (unfold vscal, thr_vec, vzero; cbn; apply vec_eq; cbn; ring).
  exists (drift v). split; [apply drift_arc|]. split; [|reflexivity]. unfold drift. rewrite Rmult_0_r, Rplus_0_r. reflexivity.
Qed.
Lemma cleg_grad : exists A B G, tas_var_exact ctas /\ proper_hf cleg /\ compute_mc_grad ctas cleg = Ret (A, B, G) /\ thr_vec (g_thr cleg) 0 = vzero /\ nth 3 A 0 = 1.
Proof.
  destruct cleg_runs as [A [B [G E]]]. exists A, B, G. split; [exact ctas_exact|]. split; [exact cleg_proper|]. split; [exact E|]. split; [reflexivity|].
  assert (Dx : derive7 (fun e => col_of [1; 1; 0; e; 0; 0; 2]) 0 ((V 0 0 0, V 1 0 0), 0)).
  { apply comp7_derive. intros i Hi. idx7 i Hi; [apply (der_const 1)|apply (der_const 1)|apply (der_const 0)|apply der_id|apply (der_const 0)|apply (der_const 0)|apply (der_const 2)]. }
  assert (Dt : derive_list (fun _ : R => [0; 0; 0]) 0 [0; 0; 0]).
  { split; [reflexivity|]. intros j. eapply der_to; [apply der_const|]. destruct j as [|[|[|[|j]]]]; reflexivity. }
  destruct (gradient_any ctas cleg A B G ctas_exact cleg_proper E (fun e => col_of [1; 1; 0; e; 0; 0; 2]) (fun _ => [0; 0; 0]) (fun _ => col_of wrvmf) (fun _ => 1) ((V 0 0 0, V 1 0 0), 0) [0; 0; 0] ((V 0 0 0, V 0 0 0), 0) 0 eq_refl eq_refl eq_refl eq_refl (keeps_same _ _) Dx Dt (const_derive7 _ 0) (der_const 1 0)) as [y [eps [Ep [Hy D]]]].
  destruct D as [[[D _] _] _].
  assert (D2 : is_derive (fun e => vx (fst (fst (y e)))) 0 1).
  { eapply (is_derive_ext_loc (fun e => 1 + e)); [|eapply der_to; [apply der_plus; [apply der_const|apply der_id]|ring]].
    exists (mkposreal eps Ep). intros e He0. assert (He : Rabs (e + - 0) < eps) by exact He0. rewrite Ropp_0, Rplus_0_r in He.
    rewrite (flown_unique _ _ _ _ _ _ _ _ _ _ _ (Hy e He) (drift_flown e)). enough (Q : 1 + e = vx (fst (fst (minus7 (drift e 1) (col_of wrvmf))))) by exact Q. cbn. ring. }
  apply is_derive_unique in D. apply is_derive_unique in D2. rewrite D in D2. rewrite <- D2.
  unfold plus7, apply7, row. cbn [snd fst list7 sum_n map app nth vx vy vz plus mult]. change (Z.to_nat (g_nseg cleg)) with 1%nat. cbn [sum_n Nat.mul Nat.add Init.Nat.add Init.Nat.mul app map nth vx vy vz]. unfold vadd. cbn [vx vy vz]. ring.
Qed.

(** ** One propagation under constant, possibly no thrust *)
Lemma stark_partials_any tas_var mu veff x u tof : tas_var_exact tas_var -> veff <> 0 -> length x = 7%nat -> length u = 3%nat ->
  match py_propagate_var tas_var vars0 mu veff x u tof with
  | Ret (y, A, B) => flies mu veff tof x u y /\ shaped 7 7 A /\ shaped 7 3 B /\
      has_partials (fun x' => flies mu veff tof x' u) x 7 (entry A) /\
      ((exists k, nth k u 0 <> 0) -> has_partials (fun u' => flies mu veff tof x u') u 7 (entry B))
  | Throw e => e = DomainError
  | UB => False
  end.
Proof.
  intros HT Hv Lx Lu. assert (DU : (exists k, nth k u 0 <> 0) \/ V (nth 0 u 0) (nth 1 u 0) (nth 2 u 0) = vzero).
  { destruct (Req_dec (nth 0 u 0) 0) as [E0|N]; [|left; eauto]. destruct (Req_dec (nth 1 u 0) 0) as [E1|N]; [|left; eauto]. destruct (Req_dec (nth 2 u 0) 0) as [E2|N]; [|left; eauto].
    right. rewrite E0, E1, E2. reflexivity. }
  destruct DU as [Nu|Zu].
  { pose proof (stark_partials_exist tas_var mu veff x u tof HT Hv Lx Lu Nu) as H. destruct (py_propagate_var tas_var vars0 mu veff x u tof) as [[[y A] B]|e|]; [|exact H|exact H]. tauto. }
  unfold py_propagate_var, stark_propagate_var. destruct (Req_EM_T (nth 6 x 0) 0) as [Z|NZ]; [reflexivity|].
  unfold run. destruct (tas_var (mu :: veff :: u) 0 tof (x ++ vars0)) as [s|] eqn:E; cbn [bind]; [|reflexivity].
  destruct u as [|ux [|uy [|uz [|? ?]]]]; try discriminate. cbn [nth] in Zu.
  destruct (HT _ _ _ _ _ _ _ _ _ E) as [L77 [q [W [A [Va [Q0 [Q1 HW]]]]]]]; [rewrite app_length, Lx, vars0_len; reflexivity|].
  rewrite Rminus_0_r in *.
  rewrite cut_ok by lia. cbn [bind]. change (Z.to_nat (7 - 0)) with 7%nat. change (Z.to_nat 0) with 0%nat. cbn [skipn].
  destruct (rows_ok s 7 7 7 0) as [a [Ea [La Ha]]]; [lia|]. change (rows_of 7 0 7 7 s = Ret a) in Ea. rewrite Ea. cbn [bind].
  destruct (rows_ok s 3 14 7 0) as [b [Eb [Lb Hb]]]; [lia|]. change (rows_of 7 0 3 14 s = Ret b) in Eb. rewrite Eb. cbn [bind].
  destruct (np2_ok 7 7 a) as [MA [-> [SA HA]]]; [lia|]. cbn [bind]. destruct (np2_ok 7 3 b) as [MB [-> [SB HB]]]; [lia|]. cbn [bind].
  set (u := V ux uy uz) in *.
  assert (C0 : col_of (x ++ vars0) = col_of x) by (unfold col_of; rewrite !app_nth1 by lia; reflexivity). rewrite C0 in Q0.
  assert (SD : seg_any mu veff tof u (col_of x) (col_of s) a b (list7 (thrust_field mu veff u (col_of x)))).
  { split; [reflexivity|]. exists q, W. split; [apply arc_stark; assumption|]. split; [apply var_stark; assumption|].
    split; [exact Q0|]. split; [exact Q1|]. split; [|split].
    - intros i j Hi Hj. destruct (HW i j Hi Hj) as [-> _]. rewrite app_nth2 by lia. rewrite Lx. replace (7 + 10 * i + j - 7)%nat with (10 * i + j)%nat by lia. apply vars0_nth; assumption.
    - intros i j Hi Hj. destruct (HW i j Hi ltac:(lia)) as [_ ->]. rewrite Ha by assumption. reflexivity.
    - intros i c Hi Hc. destruct (HW i (7 + c)%nat Hi ltac:(lia)) as [_ ->]. rewrite Hb by assumption. f_equal. lia. }
  split; [|split; [exact SA|split; [exact SB|split]]].
  - exists (col_of s). split.
    + exists q. split; [apply arc_stark; assumption|]. split; [exact Q0|exact Q1].
    + rewrite <- (list7_col (firstn 7 s)) by (rewrite firstn_length; lia). f_equal. unfold col_of. rewrite !nth_firstn_ by lia. reflexivity.
  - intros j Hj. rewrite Lx in Hj.
    assert (FC : fam_diff (fun e p => p = col_of (nudge x j e)) (col_of x) (comp7 (col_of (unit 7 j)))).
    { pose proof (fam_curve (fun e => col_of (nudge x j e)) _ (nudge_col x j Lx Hj)) as FC. cbv beta in FC. rewrite nudge_0 in FC by lia. exact FC. }
    pose proof (fam_step8 mu veff (fun e p => p = col_of (nudge x j e)) (fun _ => u) (fun _ => tof) tof (col_of x) (col_of s) a b _ (comp7 (col_of (unit 7 j))) (fun _ => 0) 0 (fun _ => eq_refl) (fun _ _ => eq_refl) SD eq_refl (const_derive tof 0) FC) as FS.
    destruct (seg_near8 mu veff u tof q (arc_stark _ _ _ _ _ Hv A)) as [Y HY]. destruct (HY 1 ltac:(lra)) as [rho [Rp G]].
    destruct (d7_near (fun e => col_of (nudge x j e)) _ (nudge_col x j Lx Hj) rho Rp) as [eps [Ep Hn]].
    assert (Fl : forall e, Rabs e < eps -> flight mu veff tof u (col_of (nudge x j e)) (Y tof (col_of (nudge x j e)))).
    { intros e He. apply G. rewrite Q0. specialize (Hn e He). cbv beta in Hn. rewrite nudge_0 in Hn by lia. rewrite Rminus_diag_eq, Rabs_R0 by reflexivity. lra. }
    exists (fun e => list7 (Y tof (col_of (nudge x j e)))), eps. split; [exact Ep|]. split; [intros e He; exists (Y tof (col_of (nudge x j e))); split; [apply Fl; exact He|reflexivity]|].
    intros i Hi. rewrite HA by assumption. pose proof (fam_one _ _ _ (fun e => Y tof (col_of (nudge x j e))) FS) as D.
    replace (nth (7 * i + j) a 0) with (ap 7 a (comp7 (col_of (unit 7 j))) i + ap 3 b (fun _ => 0) i + 0 * ap 7 a (fv (list7 (thrust_field mu veff u (col_of x)))) i).
    2:{ rewrite Rmult_0_l, Rplus_0_r. replace (ap 3 b (fun _ => 0) i) with 0 by (unfold ap; cbn; ring). rewrite Rplus_0_r.
        rewrite <- row_unit by exact Hj. unfold row, ap. apply sum_ext. intros k Hk. f_equal. }
    apply D; [|exact Hi]. exists eps. split; [exact Ep|]. intros e He. eauto.
  - intros [k Hk]. exfalso. apply Hk. unfold u in Zu. injection Zu as -> -> ->. do 3 (destruct k as [|k]; [reflexivity|]). destruct k; reflexivity.
Qed.
