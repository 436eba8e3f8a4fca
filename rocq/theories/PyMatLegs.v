(** * Proofs: the gradients of the legs, entry by entry *)
From Coq Require Import Reals Lra Lia List ZArith.
From Coquelicot Require Import Coquelicot.
From Verif Require Import Outcome RealLib KepSpec Vec3 TwoBodyModel TwoBodySpec TwoBodyProofs StmMain DynSpec DynModel SfModel SfSpec SfGrad SfMain SfJac OdeLib HfGradModel HfGradSpec HfGradFlow HfGradLin HfGradChain HfGradMain HfGradMis HfGradExample TcModel TcSpec TcProofs PyMatModel PyMatSpec PyMatProofs.
Import ListNotations.
Open Scope R_scope.

Lemma firstn_last (l : list R) w : length l = (w + 1)%nat -> firstn w l ++ [nth w l 0] = l.
Proof.
  intros L. rewrite <- (firstn_skipn w l) at 3. f_equal. assert (LS : length (skipn w l) = 1%nat) by (rewrite skipn_length; lia).
  pose proof (nth_skipn_ 0 w l 0) as N. rewrite Nat.add_0_r in N. destruct (skipn w l) as [|a [|b r]]; try discriminate LS. cbn in N. rewrite <- N. reflexivity.
Qed.
Lemma derive_nth_firstn (f : R -> list R) (d : list R) w j : (forall k, is_derive (fun e => nth k (f e) 0) 0 (nth k d 0)) ->
  is_derive (fun e => nth j (firstn w (f e)) 0) 0 (nth j (firstn w d) 0).
Proof.
  intros H. destruct (Nat.lt_ge_cases j w) as [L|L].
  - rewrite nth_firstn_ by exact L. apply (is_derive_ext (fun e => nth j (f e) 0)); [|apply H]. intros e. symmetry. apply nth_firstn_. exact L.
  - rewrite (nth_overflow (firstn w d)) by (rewrite firstn_length; lia). apply (is_derive_ext (fun _ => 0)); [|apply const_derive].
    intros e. symmetry. apply nth_overflow. rewrite firstn_length. lia.
Qed.
Lemma col_derive (f : R -> list R) (d : list R) : (forall k, is_derive (fun e => nth k (f e) 0) 0 (nth k d 0)) -> derive7 (fun e => col_of (f e)) 0 (col_of d).
Proof. intros H. unfold derive7, sderive, vderive, col_of. cbn [fst snd vx vy vz]. repeat split; apply H. Qed.
Definition zeros_ (n : nat) : list R := repeat 0 n.
Lemma zeros_nth n k : nth k (zeros_ n) 0 = 0.
Proof. unfold zeros_. destruct (Nat.lt_ge_cases k n); [apply nth_repeat|apply nth_overflow; rewrite repeat_length; exact H]. Qed.
Lemma still (l : list R) n k : is_derive (fun _ : R => nth k l 0) 0 (nth k (zeros_ n) 0).
Proof. rewrite zeros_nth. apply const_derive. Qed.
Lemma row_zeros w m i : row w m (zeros_ w) i = 0.
Proof. apply row_zero. apply zeros_nth. Qed.
Lemma u32_small z : (0 <= z < 2 ^ 32)%Z -> u32 z = z.
Proof. intros H. apply Z.mod_small. exact H. Qed.
Lemma cols_ok n : (0 <= n)%Z -> (3 * n + 1 < 2 ^ 32)%Z -> Z.to_nat (u32 (u32 (n * 3) + 1)) = (3 * Z.to_nat n + 1)%nat.
Proof. intros H L. rewrite (u32_small (n * 3)) by lia. rewrite u32_small by lia. lia. Qed.
Lemma three_ok n A B G : (0 <= n)%Z -> (3 * n + 1 < 2 ^ 32)%Z -> length A = 49%nat -> length B = 49%nat -> length G = (7 * (3 * Z.to_nat n + 1))%nat ->
  exists a b g, three n A B G = Ret (a, b, g) /\ shaped 7 7 a /\ shaped 7 7 b /\ shaped 7 (3 * Z.to_nat n + 1) g /\
  (forall i j, (i < 7)%nat -> (j < 7)%nat -> entry a i j = nth (7 * i + j) A 0) /\ (forall i j, (i < 7)%nat -> (j < 7)%nat -> entry b i j = nth (7 * i + j) B 0) /\
  (forall i j, (i < 7)%nat -> (j < 3 * Z.to_nat n + 1)%nat -> entry g i j = nth ((3 * Z.to_nat n + 1) * i + j) G 0).
Proof.
  intros H L LA LB LG. unfold three. rewrite cols_ok by assumption.
  destruct (np2_ok 7 7 A) as [a [-> [Sa Ha]]]; [lia|]. destruct (np2_ok 7 7 B) as [b [-> [Sb Hb]]]; [lia|].
  destruct (np2_ok 7 (3 * Z.to_nat n + 1) G) as [g [-> [Sg Hg]]]; [lia|]. cbn [bind]. exists a, b, g. auto 8.
Qed.

(** ** sims_flanagan *)
Lemma leg_curve l y0 A B G (xs xf ut : R -> list R) dxs dxf dut : mismatch_jacobian (nonsing (s_mu l)) l y0 A B G ->
  length (s_thr l) = (3 * Z.to_nat (s_nseg l))%nat ->
  xs 0 = sf_xs l -> xf 0 = sf_xf l -> ut 0 = sf_ut l -> (forall e, length (ut e) = (3 * Z.to_nat (s_nseg l) + 1)%nat) -> length dut = (3 * Z.to_nat (s_nseg l) + 1)%nat ->
  length dxs = 7%nat -> length dxf = 7%nat ->
  (forall k, is_derive (fun e => nth k (xs e) 0) 0 (nth k dxs 0)) -> (forall k, is_derive (fun e => nth k (xf e) 0) 0 (nth k dxf 0)) -> (forall k, is_derive (fun e => nth k (ut e) 0) 0 (nth k dut 0)) ->
  exists y eps, 0 < eps /\ (forall e, Rabs e < eps -> misses l (xs e) (xf e) (ut e) (y e)) /\
  forall i, (i < 7)%nat -> is_derive (fun e => nth i (y e) 0) 0 (row 7 A dxs i + (row 7 B dxf i + row (3 * Z.to_nat (s_nseg l) + 1) G dut i)).
Proof.
  intros [_ [_ [_ J]]] LT E1 E2 E3 LU LD L1 L2 D1 D2 D3. set (w := (3 * Z.to_nat (s_nseg l))%nat) in *.
  pose proof (col_derive _ _ D1) as [C1 C2]. pose proof (col_derive _ _ D2) as [C3 C4].
  destruct (J (fun e => fst (col_of (xs e))) (fun e => snd (col_of (xs e))) (fun e => firstn w (ut e)) (fun e => fst (col_of (xf e))) (fun e => snd (col_of (xf e))) (fun e => nth w (ut e) 0)
    (fst (col_of dxs)) (snd (col_of dxs)) (firstn w dut) (fst (col_of dxf)) (snd (col_of dxf)) (nth w dut 0)) as [y [eps [Ep [_ [Hy D]]]]]; try assumption.
  - rewrite E1. unfold sf_xs. rewrite col_list7. reflexivity.
  - rewrite E1. unfold sf_xs. rewrite col_list7. reflexivity.
  - rewrite E3. unfold sf_ut. rewrite firstn_app, LT, Nat.sub_diag, firstn_O, app_nil_r. rewrite <- LT. apply firstn_all.
  - rewrite E2. unfold sf_xf. rewrite col_list7. reflexivity.
  - rewrite E2. unfold sf_xf. rewrite col_list7. reflexivity.
  - rewrite E3. unfold sf_ut. rewrite app_nth2 by lia. rewrite LT, Nat.sub_diag. reflexivity.
  - intros e. rewrite firstn_length, LU. lia.
  - split; [rewrite !firstn_length, LU, LD; reflexivity|]. intros j. apply derive_nth_firstn. exact D3.
  - apply D3.
  - exists (fun e => list7 (y e)), eps. split; [exact Ep|]. split.
    + intros e He. exists (y e). split; [|reflexivity]. apply Hy. exact He.
    + intros i Hi. apply comp7_derive with (i := i) in D; [|exact Hi]. rewrite !comp7_plus, !comp7_apply in D by exact Hi.
      rewrite firstn_last in D by exact LD. rewrite <- !surjective_pairing, !list7_col in D by assumption. exact D.
Qed.
Lemma sf_partials newton l y0 a b g : newton_sound newton -> proper l -> (3 * s_nseg l + 1 < 2 ^ 32)%Z -> leg_mismatch (nonsing (s_mu l)) l y0 ->
  py_mc_grad newton l = Ret (Some (a, b, g)) ->
  shaped 7 7 a /\ shaped 7 7 b /\ shaped 7 (3 * Z.to_nat (s_nseg l) + 1) g /\
  has_partials (fun xs => misses l xs (sf_xf l) (sf_ut l)) (sf_xs l) 7 (entry a) /\
  has_partials (fun xf => misses l (sf_xs l) xf (sf_ut l)) (sf_xf l) 7 (entry b) /\
  has_partials (fun ut => misses l (sf_xs l) (sf_xf l) ut) (sf_ut l) 7 (entry g).
Proof.
  intros NS P LN LM E. unfold py_mc_grad in E. destruct (SfModel.compute_mc_grad newton l) as [[[[A B] G]|]|e|] eqn:C; cbn [bind] in E; try discriminate.
  pose proof (grad_jacobian newton l y0 A B G NS P LM C) as J. destruct J as [LA [LB [LG J']]]. pose proof (conj LA (conj LB (conj LG J'))) as J.
  assert (N0 : (0 <= s_nseg l)%Z) by (destruct P as [P _]; lia). assert (LT : length (s_thr l) = (3 * Z.to_nat (s_nseg l))%nat) by apply P.
  assert (LU : length (sf_ut l) = (3 * Z.to_nat (s_nseg l) + 1)%nat) by (unfold sf_ut; rewrite app_length, LT; reflexivity).
  destruct (three_ok (s_nseg l) A B G N0 LN LA LB LG) as [a' [b' [g' [E' [Sa [Sb [Sg [Ha [Hb Hg]]]]]]]]]. rewrite E' in E. cbn [bind] in E. injection E as -> -> ->.
  split; [exact Sa|]. split; [exact Sb|]. split; [exact Sg|].
  set (w := (3 * Z.to_nat (s_nseg l))%nat) in *.
  split; [|split]; intros j Hj.
  - change (length (sf_xs l)) with 7%nat in Hj.
    destruct (leg_curve l y0 A B G (fun e => nudge (sf_xs l) j e) (fun _ => sf_xf l) (fun _ => sf_ut l) (unit 7 j) (zeros_ 7) (zeros_ (w + 1)) J LT) as [y [eps [Ep [Hy D]]]];
      try reflexivity; try (intros; apply still); try (intros; exact LU).
    + apply nudge_0. exact Hj.
    + unfold zeros_. apply repeat_length.
    + intros k. apply (nudge_derive (sf_xs l) j k). exact Hj.
    + exists y, eps. split; [exact Ep|]. split; [exact Hy|]. intros i Hi. specialize (D i Hi). fold w in D. rewrite !row_zeros, row_unit in D by exact Hj.
      rewrite Ha by assumption. rewrite !Rplus_0_r in D. exact D.
  - change (length (sf_xf l)) with 7%nat in Hj.
    destruct (leg_curve l y0 A B G (fun _ => sf_xs l) (fun e => nudge (sf_xf l) j e) (fun _ => sf_ut l) (zeros_ 7) (unit 7 j) (zeros_ (w + 1)) J LT) as [y [eps [Ep [Hy D]]]];
      try reflexivity; try (intros; apply still); try (intros; exact LU).
    + apply nudge_0. exact Hj.
    + unfold zeros_. apply repeat_length.
    + intros k. apply (nudge_derive (sf_xf l) j k). exact Hj.
    + exists y, eps. split; [exact Ep|]. split; [exact Hy|]. intros i Hi. specialize (D i Hi). fold w in D. rewrite !row_zeros, row_unit in D by exact Hj.
      rewrite Hb by assumption. rewrite Rplus_0_r, Rplus_0_l in D. exact D.
  - rewrite LU in Hj.
    destruct (leg_curve l y0 A B G (fun _ => sf_xs l) (fun _ => sf_xf l) (fun e => nudge (sf_ut l) j e) (zeros_ 7) (zeros_ 7) (unit (w + 1) j) J LT) as [y [eps [Ep [Hy D]]]];
      try reflexivity; try (intros; apply still).
    + apply nudge_0. rewrite LU. exact Hj.
    + intros e. rewrite nudge_length; [exact LU|rewrite LU; exact Hj].
    + apply unit_length.
    + intros k. rewrite <- LU. apply (nudge_derive (sf_ut l) j k). rewrite LU. exact Hj.
    + exists y, eps. split; [exact Ep|]. split; [exact Hy|]. intros i Hi. specialize (D i Hi). fold w in D. rewrite !row_zeros, row_unit in D by exact Hj.
      rewrite Hg by assumption. rewrite !Rplus_0_l in D. exact D.
Qed.
Lemma sf_total newton l y0 : newton_ok newton -> newton_sound newton -> proper l -> (3 * s_nseg l + 1 < 2 ^ 32)%Z -> leg_mismatch (good_arc (s_mu l) (leg_dt l)) l y0 ->
  (forall i, (i < Z.to_nat (s_nseg l))%nat -> thr_vec (s_thr l) i <> vzero) -> exists a b g, py_mc_grad newton l = Ret (Some (a, b, g)) /\ shaped 7 7 a /\ shaped 7 7 b /\ shaped 7 (3 * Z.to_nat (s_nseg l) + 1) g /\
  has_partials (fun xs => misses l xs (sf_xf l) (sf_ut l)) (sf_xs l) 7 (entry a) /\
  has_partials (fun xf => misses l (sf_xs l) xf (sf_ut l)) (sf_xf l) 7 (entry b) /\
  has_partials (fun ut => misses l (sf_xs l) (sf_xf l) ut) (sf_ut l) 7 (entry g).
Proof.
  intros NO NS P LN LM Th. destruct (grad_total newton NO NS l P y0 LM Th) as [A [B [G [E J]]]].
  assert (N0 : (0 <= s_nseg l)%Z) by (destruct P as [P _]; lia). destruct J as [LA [LB [LG J]]].
  destruct (three_ok (s_nseg l) A B G N0 LN LA LB LG) as [a [b [g [E' _]]]]. exists a, b, g.
  assert (EE : py_mc_grad newton l = Ret (Some (a, b, g))) by (unfold py_mc_grad; rewrite E; cbn [bind]; rewrite E'; reflexivity).
  split; [exact EE|]. apply (sf_partials newton l y0); try assumption.
  apply good_leg. exact LM.
Qed.

(** ** sims_flanagan_hf *)
Lemma hf_curve l A B G k (xs xf ut y : R -> list R) dxs dxf dut : let n := Z.to_nat (g_nseg l) in
  hf_jacobian (g_mu l) (g_isp l * G0) (g_T l) n (Z.to_nat (g_fwd l)) (col_of (g_rvms l)) (g_thr l) (col_of (g_rvmf l)) (g_tof l) k A B G ->
  length (g_thr l) = (3 * n)%nat -> xs 0 = g_rvms l -> xf 0 = g_rvmf l -> ut 0 = hf_ut l ->
  (forall e, length (ut e) = (3 * n + 1)%nat) -> length dut = (3 * n + 1)%nat -> length dxs = 7%nat -> length dxf = 7%nat ->
  (forall k, is_derive (fun e => nth k (xs e) 0) 0 (nth k dxs 0)) -> (forall k, is_derive (fun e => nth k (xf e) 0) 0 (nth k dxf 0)) -> (forall k, is_derive (fun e => nth k (ut e) 0) 0 (nth k dut 0)) ->
  (exists eps, 0 < eps /\ forall e, Rabs e < eps -> misses_hf l (xs e) (xf e) (ut e) (y e)) ->
  forall i, (i < 7)%nat -> is_derive (fun e => nth i (y e) 0) 0 (row 7 A dxs i + (row 7 B dxf i + row (3 * n + 1) G (map (Rmult k) (firstn (3 * n) dut) ++ [nth (3 * n) dut 0]) i)).
Proof.
  intros n [_ [_ [_ J]]] LT E1 E2 E3 LU LD L1 L2 D1 D2 D3 [eps [Ep Hy]] i Hi.
  pose proof (J (fun e => col_of (xs e)) (fun e => firstn (3 * n) (ut e)) (fun e => col_of (xf e)) (fun e => nth (3 * n) (ut e) 0) (fun e => col_of (y e)) (col_of dxs) (firstn (3 * n) dut) (col_of dxf) (nth (3 * n) dut 0)) as D.
  cbv beta in D. rewrite E1, E2, E3 in D. unfold hf_ut in D. rewrite firstn_app, LT, Nat.sub_diag, firstn_O, app_nil_r in D. rewrite <- LT in D at 1. rewrite firstn_all in D.
  rewrite app_nth2, LT, Nat.sub_diag in D by lia.
  specialize (D eq_refl eq_refl eq_refl eq_refl (col_derive _ _ D1)).
  specialize (D ltac:(split; [rewrite !firstn_length, LU, LD; reflexivity|]; intros j; apply derive_nth_firstn; exact D3) (col_derive _ _ D2) (D3 _)).
  eapply (is_derive_ext_loc (fun e => comp7 (col_of (y e)) i)).
  { exists (mkposreal eps Ep). intros e He. cbn in He. unfold ball in He. cbn in He. unfold AbsRing_ball, abs, minus, plus, opp in He. cbn in He.
    destruct (Hy e) as [z [_ ->]]; [replace e with (e + - 0) by ring; exact He|]. rewrite col_list7. reflexivity. }
  assert (DD : derive7 (fun e => col_of (y e)) 0 (plus7 (apply7 7 A (list7 (col_of dxs))) (plus7 (apply7 7 B (list7 (col_of dxf))) (apply7 (3 * n + 1) G (map (Rmult k) (firstn (3 * n) dut) ++ [nth (3 * n) dut 0]))))).
  { apply D. exists eps. split; [exact Ep|]. intros e He. destruct (Hy e He) as [z [F ->]]. rewrite col_list7. exact F. }
  apply comp7_derive with (i := i) in DD; [|exact Hi]. rewrite !comp7_plus, !comp7_apply in DD by exact Hi. rewrite !list7_col in DD by assumption. exact DD.
Qed.

Lemma scaled_row w G k i j : (j < w + 1)%nat -> row (w + 1) G (map (Rmult k) (firstn w (unit (w + 1) j)) ++ [nth w (unit (w + 1) j) 0]) i = (if Nat.ltb j w then k else 1) * nth ((w + 1) * i + j) G 0.
Proof.
  intros H. unfold row. set (kk := if Nat.ltb j w then k else 1).
  rewrite (sum_ext _ _ (fun c => (if Nat.eqb c j then 1 else 0) * (kk * nth ((w + 1) * i + c) G 0))); [apply (sum_delta (w + 1) j (fun c => kk * nth ((w + 1) * i + c) G 0)); exact H|].
  intros c Hc. replace (nth c (map (Rmult k) (firstn w (unit (w + 1) j)) ++ [nth w (unit (w + 1) j) 0]) 0) with ((if Nat.eqb c j then 1 else 0) * kk); [ring|].
  assert (LF : length (map (Rmult k) (firstn w (unit (w + 1) j))) = w) by (rewrite map_length, firstn_length, unit_length; lia).
  destruct (Nat.lt_ge_cases c w) as [L|L].
  - rewrite app_nth1 by lia. rewrite (nth_indep _ 0 (k * 0)) by lia. rewrite (map_nth (Rmult k)), nth_firstn_ by exact L. rewrite unit_nth by exact H.
    unfold kk. destruct (Nat.eqb_spec c j) as [->|N]; [|ring]. rewrite (proj2 (Nat.ltb_lt j w) L). ring.
  - rewrite app_nth2 by lia. rewrite LF. replace c with w by lia. rewrite Nat.sub_diag. cbn [nth]. rewrite unit_nth by exact H.
    destruct (Nat.eqb_spec w j) as [E|N]; [|ring]. unfold kk. rewrite (proj2 (Nat.ltb_ge j w)) by lia. ring.
Qed.
Lemma hf_shapes tas_var l : tas_var_sized tas_var -> proper_hf l ->
  match py_mc_grad_hf tas_var l with
  | Ret (a, b, g) => shaped 7 7 a /\ shaped 7 7 b /\ shaped 7 (3 * Z.to_nat (g_nseg l) + 1) g
  | Throw e => e = DomainError
  | UB => False
  end.
Proof.
  intros HS P. pose proof (gradient_safe tas_var l HS P) as H. unfold py_mc_grad_hf. destruct (HfGradModel.compute_mc_grad tas_var l) as [[[A B] G]|e|]; cbn [bind]; [|exact H|exact H].
  destruct H as [LA [LB LG]]. destruct P as [[P1 [P2 [P3 [P4 P5]]]] _].
  destruct (three_ok (g_nseg l) A B G) as [a [b [g [-> H]]]]; [lia|exact P5|assumption|assumption|assumption|]. split; [apply H|]. split; apply H.
Qed.
Lemma hf_partials tas_var l a b g : tas_var_exact tas_var -> proper_hf l -> thrusting l -> py_mc_grad_hf tas_var l = Ret (a, b, g) ->
  has_partials_where (fun xs => misses_hf l xs (g_rvmf l) (hf_ut l)) (g_rvms l) 7 (entry a) /\
  has_partials_where (fun xf => misses_hf l (g_rvms l) xf (hf_ut l)) (g_rvmf l) 7 (entry b) /\
  has_partials_where (fun ut => misses_hf l (g_rvms l) (g_rvmf l) ut) (hf_ut l) 7 (scaled_columns (Z.to_nat (g_nseg l)) (g_T l) g).
Proof.
  intros HT P Th E. unfold py_mc_grad_hf in E. destruct (HfGradModel.compute_mc_grad tas_var l) as [[[A B] G]|e|] eqn:C; cbn [bind] in E; try discriminate.
  pose proof (gradient_scaled tas_var l A B G HT P Th C) as J. pose proof J as [LA [LB [LG _]]].
  pose proof P as [[P1 [P2 [P3 [P4 P5]]]] [LT [_ [L1 [L2 _]]]]].
  destruct (three_ok (g_nseg l) A B G) as [a' [b' [g' [E' [_ [_ [_ [Ha [Hb Hg]]]]]]]]]; [lia|exact P5|assumption|assumption|assumption|]. rewrite E' in E. injection E as -> -> ->.
  set (n := Z.to_nat (g_nseg l)) in *. assert (LU : length (hf_ut l) = (3 * n + 1)%nat) by (unfold hf_ut; rewrite app_length, LT; reflexivity).
  assert (ZR : forall i, row (3 * n + 1) G (map (Rmult (g_T l)) (firstn (3 * n) (zeros_ (3 * n + 1))) ++ [nth (3 * n) (zeros_ (3 * n + 1)) 0]) i = 0).
  { intros i. apply row_zero. intros k. rewrite zeros_nth. destruct (Nat.lt_ge_cases k (3 * n)) as [L|L].
    - rewrite app_nth1 by (rewrite map_length, firstn_length; unfold zeros_; rewrite repeat_length; lia).
      rewrite (nth_indep _ 0 (g_T l * 0)) by (rewrite map_length, firstn_length; unfold zeros_; rewrite repeat_length; lia). rewrite (map_nth (Rmult (g_T l))), nth_firstn_, zeros_nth by exact L. ring.
    - rewrite app_nth2 by (rewrite map_length, firstn_length; unfold zeros_; rewrite repeat_length; lia).
      match goal with |- nth ?m _ _ = _ => destruct m as [|[|?]]; reflexivity end. }
  split; [|split]; intros j y Hj Hy i Hi.
  - rewrite L1 in Hj. rewrite Ha by assumption.
    pose proof (hf_curve l A B G (g_T l) (fun e => nudge (g_rvms l) j e) (fun _ => g_rvmf l) (fun _ => hf_ut l) y (unit 7 j) (zeros_ 7) (zeros_ (3 * n + 1)) J LT) as D. fold n in D.
    replace (nth (7 * i + j) A 0) with (row 7 A (unit 7 j) i + (row 7 B (zeros_ 7) i + row (3 * n + 1) G (map (Rmult (g_T l)) (firstn (3 * n) (zeros_ (3 * n + 1))) ++ [nth (3 * n) (zeros_ (3 * n + 1)) 0]) i)) by (rewrite row_unit by exact Hj; rewrite row_zeros, ZR; ring).
    apply D; try assumption; try reflexivity; try (intros; apply still).
    + apply nudge_0. lia.
    + intros; exact LU.
    + unfold zeros_. apply repeat_length.
    + intros k. rewrite <- L1. apply nudge_derive. lia.
  - rewrite L2 in Hj. rewrite Hb by assumption.
    pose proof (hf_curve l A B G (g_T l) (fun _ => g_rvms l) (fun e => nudge (g_rvmf l) j e) (fun _ => hf_ut l) y (zeros_ 7) (unit 7 j) (zeros_ (3 * n + 1)) J LT) as D. fold n in D.
    replace (nth (7 * i + j) B 0) with (row 7 A (zeros_ 7) i + (row 7 B (unit 7 j) i + row (3 * n + 1) G (map (Rmult (g_T l)) (firstn (3 * n) (zeros_ (3 * n + 1))) ++ [nth (3 * n) (zeros_ (3 * n + 1)) 0]) i)) by (rewrite row_unit by exact Hj; rewrite row_zeros, ZR; ring).
    apply D; try assumption; try reflexivity; try (intros; apply still).
    + apply nudge_0. lia.
    + intros; exact LU.
    + unfold zeros_. apply repeat_length.
    + intros k. rewrite <- L2. apply nudge_derive. lia.
  - rewrite LU in Hj. unfold scaled_columns. rewrite Hg by assumption.
    pose proof (hf_curve l A B G (g_T l) (fun _ => g_rvms l) (fun _ => g_rvmf l) (fun e => nudge (hf_ut l) j e) y (zeros_ 7) (zeros_ 7) (unit (3 * n + 1) j) J LT) as D. fold n in D.
    rewrite <- (scaled_row (3 * n) G (g_T l) i j Hj). replace (row (3 * n + 1) G (map (Rmult (g_T l)) (firstn (3 * n) (unit (3 * n + 1) j)) ++ [nth (3 * n) (unit (3 * n + 1) j) 0]) i) with (row 7 A (zeros_ 7) i + (row 7 B (zeros_ 7) i + row (3 * n + 1) G (map (Rmult (g_T l)) (firstn (3 * n) (unit (3 * n + 1) j)) ++ [nth (3 * n) (unit (3 * n + 1) j) 0]) i)) by (rewrite !row_zeros; ring).
    apply D; try assumption; try reflexivity; try (intros; apply still).
    + apply nudge_0. rewrite LU. exact Hj.
    + intros e. rewrite nudge_length; [exact LU|rewrite LU; exact Hj].
    + apply unit_length.
    + intros k. rewrite <- LU. apply nudge_derive. rewrite LU. exact Hj.
Qed.

(** ** throttle constraints *)
Lemma tc_partials n th : (0 <= n)%Z -> (3 * n < 2 ^ 32)%Z -> Z.of_nat (length th) = (3 * n)%Z ->
  exists M, py_tc_grad n th = Ret M /\ shaped (Z.to_nat n) (3 * Z.to_nat n) M /\
  has_partials (fun u y => y = map (throttle_norm u) (seq 0 (Z.to_nat n))) th (Z.to_nat n) (entry M).
Proof.
  intros H L LT. destruct (tc_grad_is_jacobian n th H LT) as [g [E [LG D]]]. unfold py_tc_grad. rewrite E. cbn [bind].
  rewrite u32_small by lia. replace (Z.to_nat (n * 3)) with (3 * Z.to_nat n)%nat by lia.
  destruct (np2_ok (Z.to_nat n) (3 * Z.to_nat n) g) as [M [-> [S HM]]]; [nia|]. exists M. split; [reflexivity|]. split; [exact S|].
  intros j Hj. exists (fun e => map (throttle_norm (nudge th j e)) (seq 0 (Z.to_nat n))), 1. split; [lra|]. split; [reflexivity|].
  intros i Hi. rewrite HM by lia.
  apply (is_derive_ext (fun e => throttle_norm (replace_nth th j (nth j th 0 + e)) i)).
  { intros e. rewrite (nth_indep (map (throttle_norm (nudge th j e)) (seq 0 (Z.to_nat n))) 0 (throttle_norm (nudge th j e) 0)) by (rewrite map_length, seq_length; exact Hi).
    rewrite (map_nth (throttle_norm (nudge th j e))). rewrite seq_nth by exact Hi. reflexivity. }
  specialize (D (Z.of_nat i) (Z.of_nat j) ltac:(lia) ltac:(lia)). rewrite !Nat2Z.id in D.
  replace (Z.to_nat (Z.of_nat i * (3 * n) + Z.of_nat j)) with (3 * Z.to_nat n * i + j)%nat in D by nia.
  rewrite <- (Rmult_1_l (nth _ g 0)).
  apply (is_derive_comp (fun x => throttle_norm (replace_nth th j x) i) (fun e => nth j th 0 + e)); [rewrite Rplus_0_r; exact D|].
  auto_derive; trivial; ring.
Qed.

(** ** examples *)
Lemma circle_py newton t : newton_ok newton -> exists M, py_propagate_lagrangian newton (circle 0) t 1 true = Ret (RvStm (circle t) M) /\ shaped 6 6 M /\
  entry M 0 1 - entry M 0 3 = - sin t /\ entry M 1 1 - entry M 1 3 = cos t /\ entry M 4 1 - entry M 4 3 = - sin t.
Proof.
  intros NK. destruct (circle_stm newton t NK) as [m [P E]]. pose proof (jac_ok_E newton 1 (circle 0) t NK circle_elliptic) as [s' [m' [P' [_ [L _]]]]].
  rewrite P in P'. injection P' as _ <-. destruct (np2_ok 6 6 m) as [M [EM [S HM]]]; [lia|]. exists M.
  split; [unfold py_propagate_lagrangian; rewrite P; cbn [bind fst snd]; rewrite EM; reflexivity|]. split; [exact S|].
  rewrite !HM by lia. unfold mat_apply, row_apply, mat_entry in E. cbn [fst snd vx vy vz] in E.
  injection E as E1 E2 E3 E4 E5 E6. cbn [Nat.mul Nat.add] in *. split; [|split]; lra.
Qed.
Lemma stark_py : exists A B, py_propagate_var wtas vars0 0 1 [1; 1; 0; 0; 0; 0; 2] [1; 0; 0] 1 = Ret (list7 (ramp 1 1), A, B) /\ entry A 6 6 = 1 /\ entry B 6 0 = -1 /\ entry B 6 1 = 0 /\
  forall e, Rabs e < 1 / 2 -> flies 0 1 1 [1; 1; 0; 0; 0; 0; 2] (nudge [1; 0; 0] 0 e) (list7 (ramp (1 + e) 1)).
Proof.
  assert (RW : wtas [0; 1; 1; 0; 0] 0 1 ([1; 1; 0; 0; 0; 0; 2] ++ vars0) = Some wend).
  { unfold wtas. destruct (list_eq_dec Req_EM_T [0; 1; 1; 0; 0] [0; 1; 1; 0; 0]) as [_|N]; [|contradiction].
    destruct (Req_EM_T (1 - 0) 1) as [_|N]; [|exfalso; apply N; ring]. destruct (list_eq_dec Req_EM_T ([1; 1; 0; 0; 0; 0; 2] ++ vars0) ([1; 1; 0; 0; 0; 0; 2] ++ vars0)) as [_|N]; [reflexivity|contradiction]. }
  assert (Lw : length wend = 77%nat) by reflexivity.
  destruct (rows_ok wend 7 7 7 0) as [a [Ea [La Ha]]]; [rewrite Lw; lia|]. change (rows_of 7 0 7 7 wend = Ret a) in Ea.
  destruct (rows_ok wend 3 14 7 0) as [b [Eb [Lb Hb]]]; [rewrite Lw; lia|]. change (rows_of 7 0 3 14 wend = Ret b) in Eb.
  destruct (np2_ok 7 7 a) as [A [EA [_ HA]]]; [lia|]. destruct (np2_ok 7 3 b) as [B [EB [_ HB]]]; [lia|].
  exists A, B. split; [|split; [|split; [|split]]].
  - unfold py_propagate_var, stark_propagate_var. cbn [nth]. destruct (Req_EM_T 2 0) as [Z|_]; [exfalso; lra|]. unfold run. rewrite RW. cbn [bind].
    change (cut wend 0 7) with (Ret (list7 (ramp 1 1))). cbn [bind]. rewrite Ea. cbn [bind]. rewrite Eb. cbn [bind]. rewrite EA. cbn [bind]. rewrite EB. reflexivity.
  - rewrite HA by lia. change (7 * 6 + 6)%nat with (7 * 6 + 6)%nat. rewrite (Ha 6%nat 6%nat) by lia. reflexivity.
  - rewrite HB by lia. rewrite (Hb 6%nat 0%nat) by lia. cbn. lra.
  - rewrite HB by lia. rewrite (Hb 6%nat 1%nat) by lia. reflexivity.
  - intros e He. apply Rabs_lt_between in He. exists (ramp (1 + e) 1). split; [|reflexivity]. exists (ramp (1 + e)). cbn [nudge replace_nth nth firstn skipn app].
    split; [apply ramp_arc; lra|]. split; [apply ramp_0|reflexivity].
Qed.
Lemma hf_plain_refuted : exists l tas_var a b g, tas_var_exact tas_var /\ proper_hf l /\ thrusting l /\ py_mc_grad_hf tas_var l = Ret (a, b, g) /\
  ~ has_partials_where (fun ut => misses_hf l (g_rvms l) (g_rvmf l) ut) (hf_ut l) 7 (entry g).
Proof.
  destruct wleg_mass as [A [B [G [E [NG _]]]]].
  pose proof (gradient_safe wtas wleg (exact_sized _ wtas_exact) wleg_proper) as L. rewrite E in L. destruct L as [LA [LB LG]].
  destruct (three_ok (g_nseg wleg) A B G) as [a [b [g [E' [_ [_ [_ [_ [_ Hg]]]]]]]]]; [cbn; lia|reflexivity|assumption|assumption|assumption|].
  exists wleg, wtas, a, b, g. assert (EE : py_mc_grad_hf wtas wleg = Ret (a, b, g)) by (unfold py_mc_grad_hf; rewrite E; exact E').
  split; [exact wtas_exact|]. split; [exact wleg_proper|]. split; [exact wleg_thrusting|]. split; [exact EE|]. intros H.
  pose proof (proj2 (proj2 (hf_partials wtas wleg a b g wtas_exact wleg_proper wleg_thrusting EE))) as H2.
  assert (X : exists eps, 0 < eps /\ forall e, Rabs e < eps -> misses_hf wleg (g_rvms wleg) (g_rvmf wleg) (nudge (hf_ut wleg) 0 e) (list7 (wy e))).
  { exists (1 / 4). split; [lra|]. intros e He. exists (wy e). split; [|reflexivity]. apply (wy_flown e He). }
  specialize (H 0%nat (fun e => list7 (wy e)) ltac:(cbn; lia) X 6%nat ltac:(lia)). specialize (H2 0%nat (fun e => list7 (wy e)) ltac:(cbn; lia) X 6%nat ltac:(lia)).
  apply is_derive_unique in H. apply is_derive_unique in H2. rewrite H in H2. unfold scaled_columns in H2. rewrite Hg in H2 by (cbn; lia).
  change ((3 * Z.to_nat (g_nseg wleg) + 1) * 6 + 0)%nat with 24%nat in H2. rewrite NG in H2. change (if Nat.ltb 0 (3 * Z.to_nat (g_nseg wleg)) then g_T wleg else 1) with 2 in H2. lra.
Qed.
