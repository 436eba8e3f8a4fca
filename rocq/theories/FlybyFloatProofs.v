(** * fb_con and fb_dv in doubles: proofs *)
From Coq Require Import ZArith Reals Lra Lia Psatz.
From Flocq Require Import Core.Core IEEE754.BinarySingleNaN.
From Verif Require Import Float64 FlybyFloatModel Vec3 FlybyModel FlybyProofs.
Open Scope R_scope.

Notation fexp64 := (SpecFloat.fexp prec64 emax64).
Notation rnd64 := (round radix2 fexp64 (round_mode mode_NE)).
#[local] Instance fexp64_valid : Valid_exp fexp64 := fexp_correct _ _ _.
Lemma fexp64_eq e : (-1021 <= e)%Z -> fexp64 e = (e - 53)%Z.
Proof. intros H. unfold SpecFloat.fexp, SpecFloat.emin, prec64, emax64. lia. Qed.

(** the square root of a rounded square is the number *)
Section SqrtSq.
Variable x : R.
Hypothesis Fx : generic_format radix2 fexp64 x.
Hypothesis X : bpow radix2 (-500) <= x.
Let e : Z := mag radix2 x.
Let U : R := bpow radix2 e.
Let h : R := U * / 2 ^ 54.
Lemma x_pos : 0 < x. Proof. pose proof (bpow_gt_0 radix2 (-500)). lra. Qed.
Lemma e_low : (-499 <= e)%Z.
Proof. assert (H : (-500 < mag radix2 x)%Z); [|unfold e; lia]. apply mag_gt_bpow. rewrite Rabs_pos_eq by (pose proof x_pos; lra). exact X. Qed.
Lemma U_pos : 0 < U. Proof. apply bpow_gt_0. Qed.
Lemma x_range : U / 2 <= x < U.
Proof.
  pose proof x_pos. assert (He : bpow radix2 (e - 1) <= Rabs x < bpow radix2 e) by (unfold e; destruct (mag radix2 x) as [e' He]; cbn [mag_val]; apply He; intro; lra).
  rewrite Rabs_pos_eq in He by lra. unfold U. unfold Zminus in He. rewrite bpow_plus in He. change (bpow radix2 (- (1))) with (/ 2) in He. lra.
Qed.
Lemma ulp_x : ulp radix2 fexp64 x = 2 * h.
Proof.
  rewrite ulp_neq_0 by (pose proof x_pos; intro; lra). unfold cexp. fold e. rewrite fexp64_eq by (pose proof e_low; lia).
  replace (e - 53)%Z with (e + (-53))%Z by ring. rewrite bpow_plus. unfold h. change (bpow radix2 (-53)) with (/ IZR (2 ^ 53)). fold U.
  change (IZR (2 ^ 53)) with 9007199254740992. assert (E : 2 ^ 54 = 2 * 9007199254740992) by ring. rewrite E. field.
Qed.
Lemma bpow_2e k : bpow radix2 (2 * e + k) = U * U * bpow radix2 k.
Proof. replace (2 * e + k)%Z with (e + e + k)%Z by ring. rewrite !bpow_plus. reflexivity. Qed.
Lemma err_bound : Rabs (rnd64 (x * x) - x * x) < h * (2 * x - h) /\ Rabs (rnd64 (x * x) - x * x) < h * (2 * x).
Proof.
  pose proof x_pos. pose proof U_pos. pose proof x_range as [X1 X2]. pose proof e_low.
  assert (Hh : 0 < h) by (unfold h; apply Rmult_lt_0_compat; [assumption|apply Rinv_0_lt_compat; lra]).
  assert (Hs : h <= U / 1000) by (unfold h; apply Rmult_le_compat_l; [lra|]; apply Rinv_le_contravar; lra).
  assert (EE : Rabs (rnd64 (x * x) - x * x) <= / 2 * ulp radix2 fexp64 (x * x)) by (apply (error_le_half_ulp radix2 fexp64 (fun z => negb (Z.even z)))).
  assert (NZ : x * x <> 0) by nra.
  assert (K : / 2 * ulp radix2 fexp64 (x * x) < h * (2 * x - h)).
  { rewrite ulp_neq_0 by exact NZ. unfold cexp. destruct (Rle_or_lt (U * U / 2) (x * x)) as [A|B].
    - assert (M : mag radix2 (x * x) = (2 * e)%Z :> Z).
      { apply mag_unique. rewrite Rabs_pos_eq by nra. split.
        - replace (2 * e - 1)%Z with (2 * e + (-1))%Z by ring. rewrite bpow_2e. change (bpow radix2 (-1)) with (/ 2). lra.
        - replace (2 * e)%Z with (2 * e + 0)%Z by ring. rewrite bpow_2e. cbn [bpow]. nra. }
      rewrite M, fexp64_eq by lia. replace (2 * e - 53)%Z with (2 * e + (-53))%Z by ring. rewrite bpow_2e. change (bpow radix2 (-53)) with (/ IZR (2 ^ 53)).
      replace (/ 2 * (U * U * / IZR (2 ^ 53))) with (h * U).
      2: { unfold h. change (IZR (2 ^ 53)) with 9007199254740992. assert (E : 2 ^ 54 = 2 * 9007199254740992) by ring. rewrite E. field. }
      apply Rmult_lt_compat_l; [exact Hh|]. nra.
    - assert (M : mag radix2 (x * x) = (2 * e - 1)%Z :> Z).
      { apply mag_unique. rewrite Rabs_pos_eq by nra. split.
        - replace (2 * e - 1 - 1)%Z with (2 * e + (-2))%Z by ring. rewrite bpow_2e. change (bpow radix2 (-2)) with (/ 4). nra.
        - replace (2 * e - 1)%Z with (2 * e + (-1))%Z by ring. rewrite bpow_2e. change (bpow radix2 (-1)) with (/ 2). lra. }
      rewrite M, fexp64_eq by lia. replace (2 * e - 1 - 53)%Z with (2 * e + (-54))%Z by ring. rewrite bpow_2e. change (bpow radix2 (-54)) with (/ IZR (2 ^ 54)).
      replace (/ 2 * (U * U * / IZR (2 ^ 54))) with (h * (U / 2)).
      2: { unfold h. change (IZR (2 ^ 54)) with 18014398509481984. assert (E : 2 ^ 54 = 18014398509481984) by ring. rewrite E. field. }
      apply Rmult_lt_compat_l; [exact Hh|]. lra. }
  split; [lra|]. nra.
Qed.
Lemma sqrt_square : rnd64 (sqrt (rnd64 (x * x))) = x.
Proof.
  pose proof x_pos as P. pose proof err_bound as [E1 E2]. pose proof U_pos as PU.
  assert (Hh : 0 < h) by (unfold h; apply Rmult_lt_0_compat; [assumption|apply Rinv_0_lt_compat; lra]).
  assert (Hs : h <= U / 1000) by (unfold h; apply Rmult_le_compat_l; [lra|]; apply Rinv_le_contravar; lra).
  pose proof x_range as [X1 X2]. set (y := rnd64 (x * x)) in *. apply Rabs_def2 in E1. apply Rabs_def2 in E2.
  assert (Hi : sqrt y < x + h). { rewrite <- (sqrt_Rsqr (x + h)) by lra. apply sqrt_lt_1_alt. unfold Rsqr. nra. }
  assert (Lo : x - h < sqrt y). { rewrite <- (sqrt_Rsqr (x - h)) by lra. apply sqrt_lt_1_alt. unfold Rsqr. nra. }
  destruct (Req_dec x (bpow radix2 (e - 1))) as [Q|Q].
  - assert (Y : y = x * x).
    { apply round_generic; [typeclasses eauto|]. rewrite Q. rewrite <- bpow_plus. apply generic_format_bpow. pose proof e_low. rewrite fexp64_eq by lia. lia. }
    rewrite Y. rewrite sqrt_square by lra. apply round_generic; [typeclasses eauto|exact Fx].
  - apply Rle_antisym.
    + apply (round_N_le_midp radix2 fexp64 (fun z => negb (Z.even z)) x _ Fx). rewrite succ_eq_pos by lra. rewrite ulp_x. lra.
    + apply (round_N_ge_midp radix2 fexp64 (fun z => negb (Z.even z)) x _ Fx). rewrite pred_eq_pos by lra. unfold pred_pos. fold e.
      rewrite Req_bool_false by exact Q. rewrite ulp_x. lra.
Qed.
End SqrtSq.
Lemma half_max z : (z <= 1023)%Z -> bpow radix2 z < bpow radix2 emax64.
Proof. intros H. apply bpow_lt. unfold emax64. lia. Qed.
Lemma same_arg (x : double) : is_finite x = true -> bpow radix2 (-500) <= B2R x <= bpow radix2 500 -> ddiv x (dsqrt (dmul x x)) = done.
Proof.
  intros F [L H]. assert (Fx : generic_format radix2 fexp64 (B2R x)) by apply generic_format_B2R.
  pose proof (bpow_gt_0 radix2 (-500)) as Z0. assert (P : 0 < B2R x) by lra.
  pose proof (Bmult_correct prec64 emax64 _ _ mode_NE x x) as M. rewrite Rlt_bool_true in M.
  2: { apply Rle_lt_trans with (bpow radix2 1000); [|apply half_max; lia].
       rewrite Rabs_pos_eq. 2: { apply round_ge_generic; [typeclasses eauto|typeclasses eauto|apply generic_format_0|nra]. }
       apply round_le_generic; [typeclasses eauto|typeclasses eauto|apply generic_format_bpow; vm_compute; discriminate|].
       replace 1000%Z with (500 + 500)%Z by reflexivity. rewrite bpow_plus. nra. }
  fold (dmul x x) in M. destruct M as [M1 [M2 _]]. rewrite F in M2. cbn [andb] in M2.
  pose proof (Bsqrt_correct prec64 emax64 _ _ mode_NE (dmul x x)) as [Q1 [Q2 _]]. fold (dsqrt (dmul x x)) in Q1, Q2. rewrite M1 in Q1. rewrite (sqrt_square (B2R x) Fx L) in Q1.
  assert (FQ : is_finite (dsqrt (dmul x x)) = true).
  { rewrite Q2. destruct (dmul x x) as [s|s| |s m e' B] eqn:D; try discriminate; [reflexivity|]. destruct s; [|reflexivity].
    exfalso. assert (W : B2R (dmul x x) < 0) by (rewrite D; apply F2R_lt_0; reflexivity). rewrite D in W. rewrite M1 in W.
    assert (0 <= round radix2 fexp64 (round_mode mode_NE) (B2R x * B2R x)) by (apply round_ge_generic; [typeclasses eauto|typeclasses eauto|apply generic_format_0|nra]). lra. }
  pose proof (Bdiv_correct prec64 emax64 _ _ mode_NE x (dsqrt (dmul x x))) as Dv. rewrite Q1 in Dv. specialize (Dv ltac:(lra)).
  replace (B2R x / B2R x) with 1 in Dv by (field; lra).
  assert (R1 : rnd64 1 = 1) by (apply round_generic; [typeclasses eauto|change 1 with (bpow radix2 0); apply generic_format_bpow; vm_compute; discriminate]).
  rewrite R1 in Dv. rewrite Rlt_bool_true in Dv by (rewrite Rabs_pos_eq by lra; change 1 with (bpow radix2 0); apply half_max; lia).
  destruct Dv as [D1 [D2 _]]. fold (ddiv x (dsqrt (dmul x x))) in D1, D2. rewrite F in D2.
  assert (O1 : B2R done = 1). { unfold done, d_of_Z. pose proof (binary_normalize_correct prec64 emax64 _ _ mode_NE 1 0 false) as N. cbv zeta in N.
    replace (F2R {| Fnum := 1; Fexp := 0 |}) with 1 in N by (unfold F2R; cbn; lra). rewrite R1 in N.
    rewrite Rlt_bool_true in N by (rewrite Rabs_pos_eq by lra; change 1 with (bpow radix2 0); apply half_max; lia). exact (proj1 N). }
  apply B2R_inj.
  - destruct (ddiv x (dsqrt (dmul x x))) as [s|s| |s m e' B] eqn:D; try reflexivity; cbn in D1; lra.
  - reflexivity.
  - congruence.
Qed.
Lemma dsub_nan y : d_isnan (dsub dnan y) = true. Proof. destruct y; reflexivity. Qed.
Lemma nan_is (x : double) : d_isnan x = true -> x = dnan. Proof. destruct x; try discriminate. reflexivity. Qed.

Lemma out_of_range acos asin v w mu safe : acos_domain acos -> dltb done (cos_arg v w) = true -> ineq_delta_d acos asin v w mu safe = dnan.
Proof. intros D H. apply nan_is. unfold ineq_delta_d. rewrite (nan_is _ (D _ H)). apply dsub_nan. Qed.
Lemma dv_robust acos asin cos v w mu safe : acos_domain acos -> dltb done (cos_arg v w) = true ->
  fb_dv_d acos asin cos v w mu safe = Babs (dsub (dsqrt (ddot w w)) (dsqrt (ddot v v))).
Proof. intros D H. unfold fb_dv_d. rewrite (out_of_range acos asin v w mu safe D H). reflexivity. Qed.
Lemma same_velocity acos asin v mu safe : is_finite (ddot v v) = true -> bpow radix2 (-500) <= B2R (ddot v v) <= bpow radix2 500 ->
  fst (fb_con_d acos asin v v mu safe) = dzero /\
  snd (fb_con_d acos asin v v mu safe) = dsub (acos done) (dmul (d_of_Z 2) (asin (ddiv done (dadd done (dmul (ddiv safe mu) (ddot v v)))))).
Proof.
  intros F H. split.
  - unfold fb_con_d. cbn [fst]. pose proof (Bminus_correct prec64 emax64 _ _ mode_NE (ddot v v) (ddot v v) F F) as M.
    replace (B2R (ddot v v) - B2R (ddot v v)) with 0 in M by ring. rewrite round_0 in M by typeclasses eauto. rewrite Rlt_bool_true in M by (rewrite Rabs_R0; apply bpow_gt_0).
    destruct M as [M1 [M2 M3]]. fold (dsub (ddot v v) (ddot v v)) in *. rewrite Rcompare_Eq in M3 by reflexivity.
    destruct (dsub (ddot v v) (ddot v v)) as [s|s| |s m e B]; try discriminate.
    + cbn in M3. unfold dzero. f_equal. rewrite M3. now destruct (Bsign (ddot v v)).
    + exfalso. cbn in M1. destruct s; [assert (W : F2R (Float radix2 (cond_Zopp true (Zpos m)) e) < 0) by (apply F2R_lt_0; reflexivity)|assert (W : 0 < F2R (Float radix2 (cond_Zopp false (Zpos m)) e)) by (apply F2R_gt_0; reflexivity)]; lra.
  - unfold fb_con_d, ineq_delta_d, cos_arg. cbn [snd]. rewrite (same_arg (ddot v v) F H). reflexivity.
Qed.
Lemma sub_self x : is_finite x = true -> dsub x x = dzero.
Proof.
  intros F. pose proof (Bminus_correct prec64 emax64 _ _ mode_NE x x F F) as M.
  replace (B2R x - B2R x) with 0 in M by ring. rewrite round_0 in M by typeclasses eauto. rewrite Rlt_bool_true in M by (rewrite Rabs_R0; apply bpow_gt_0).
  destruct M as [M1 [M2 M3]]. fold (dsub x x) in *. rewrite Rcompare_Eq in M3 by reflexivity.
  destruct (dsub x x) as [s|s| |s m e B]; try discriminate.
  - cbn in M3. unfold dzero. f_equal. rewrite M3. now destruct (Bsign x).
  - exfalso. cbn in M1. destruct s; [assert (W : F2R (Float radix2 (cond_Zopp true (Zpos m)) e) < 0) by (apply F2R_lt_0; reflexivity)|assert (W : 0 < F2R (Float radix2 (cond_Zopp false (Zpos m)) e)) by (apply F2R_gt_0; reflexivity)]; lra.
Qed.
Lemma zero_minus y : dltb dzero y = true -> dgtb (dsub dzero (dmul (d_of_Z 2) y)) dzero = false.
Proof.
  intros H. assert (P : match dmul (d_of_Z 2) y with B754_zero s | B754_infinity s | B754_finite s _ _ _ => s = false | B754_nan => True end).
  { destruct y as [s|s| |s m e B]; try discriminate; destruct s; try discriminate; [reflexivity|].
    pose proof (Bmult_correct prec64 emax64 _ _ mode_NE (d_of_Z 2) (B754_finite false m e B)) as M. fold (dmul (d_of_Z 2) (B754_finite false m e B)) in M.
    destruct (Rlt_bool _ _) in M.
    - destruct M as [_ [_ M]]. destruct (dmul (d_of_Z 2) (B754_finite false m e B)); try exact I; exact (M eq_refl).
    - unfold dmul in *. destruct (Bmult _ _ _); cbn in M; try discriminate; injection M; auto. }
  destruct (dmul (d_of_Z 2) y) as [s|s| |s m e B]; try subst s; reflexivity.
Qed.
Lemma sqrt_fin x : is_finite x = true -> 0 < B2R x -> is_finite (dsqrt x) = true.
Proof.
  intros F P. pose proof (Bsqrt_correct prec64 emax64 _ _ mode_NE x) as [_ [Q _]]. fold (dsqrt x) in Q. rewrite Q.
  destruct x as [s|s| |[] m e B]; try discriminate; try reflexivity. exfalso. assert (B2R (B754_finite true m e B : double) < 0) by (apply F2R_lt_0; reflexivity). lra.
Qed.
Lemma same_free acos asin cos v mu safe : is_finite (ddot v v) = true -> bpow radix2 (-500) <= B2R (ddot v v) <= bpow radix2 500 -> acos done = dzero ->
  dltb dzero (asin (ddiv done (dadd done (dmul (ddiv safe mu) (ddot v v))))) = true -> fb_dv_d acos asin cos v v mu safe = dzero.
Proof.
  intros F H A P. unfold fb_dv_d. cbv zeta. destruct (same_velocity acos asin v mu safe F H) as [_ E]. unfold fb_con_d in E. cbn [snd] in E. rewrite E, A, (zero_minus _ P).
  rewrite sub_self; [reflexivity|]. apply sqrt_fin; [exact F|]. pose proof (bpow_gt_0 radix2 (-500)). lra.
Qed.
Lemma dv_by_con acos asin cos v w mu safe :
  (dltb dzero (snd (fb_con_d acos asin v w mu safe)) = true ->
     fb_dv_d acos asin cos v w mu safe = dsqrt (dsub (dadd (ddot w w) (ddot v v)) (dmul (dmul (d_of_Z 2) (dsqrt (dmul (ddot w w) (ddot v v)))) (cos (snd (fb_con_d acos asin v w mu safe)))))) /\
  (dltb dzero (snd (fb_con_d acos asin v w mu safe)) = false -> fb_dv_d acos asin cos v w mu safe = Babs (dsub (dsqrt (ddot w w)) (dsqrt (ddot v v)))).
Proof. unfold fb_dv_d, dgtb. cbn [fb_con_d snd]. split; intros ->; reflexivity. Qed.
(** exact dyadics *)
Lemma dyadic_exact m e : (Z.abs m < 2 ^ 53)%Z -> (-1074 <= e <= 900)%Z -> is_finite (d_of_dyadic m e) = true /\ B2R (d_of_dyadic m e) = IZR m * bpow radix2 e.
Proof.
  intros M E. pose proof (binary_normalize_correct prec64 emax64 _ _ mode_NE m e false) as N. cbv zeta in N.
  assert (G : rnd64 (F2R (Float radix2 m e)) = F2R (Float radix2 m e)).
  { apply round_generic; [typeclasses eauto|]. apply (generic_format_FLT radix2 (-1074) 53). apply (FLT_spec radix2 (-1074) 53 _ (Float radix2 m e)); [reflexivity|exact M|exact (proj1 E)]. }
  rewrite G in N. rewrite Rlt_bool_true in N.
  - destruct N as [N1 [N2 _]]. split; [exact N2|exact N1].
  - rewrite <- F2R_Zabs. apply Rlt_le_trans with (bpow radix2 53 * bpow radix2 e).
    + unfold F2R. cbn [Fnum Fexp]. apply Rmult_lt_compat_r; [apply bpow_gt_0|]. change (bpow radix2 53) with (IZR (2 ^ 53)). apply IZR_lt. exact M.
    + rewrite <- bpow_plus. apply bpow_le. unfold emax64. lia.
Qed.
Lemma small_angle c s : 0 < s <= 1 -> -1 <= c <= 1 -> 1 - 2 * (s * s) < c -> acos c < 2 * asin s.
Proof.
  intros S C H. pose proof (asin_pos s S) as A. pose proof (acos_bound c) as B. destruct (Rlt_or_le (acos c) (2 * asin s)) as [L|L]; [exact L|]. exfalso.
  assert (K : cos (acos c) <= cos (2 * asin s)) by (apply cos_decr_1; lra). rewrite cos_acos in K by exact C.
  rewrite cos_2a_sin in K. rewrite sin_asin in K by lra. lra.
Qed.
Definition ax : double := d_of_dyadic 230407154 (-15).
Definition bx : double := d_of_dyadic 230407155 (-15).
Definition wv : dvec := (ax, bx, dzero).
Definition ww : dvec := (bx, ax, dzero).
Lemma wv_r : rvec wv = V (115203577 / 16384) (230407155 / 32768) 0.
Proof.
  unfold rvec, wv, ax, bx. rewrite !(fun m H => proj2 (dyadic_exact m (-15) H ltac:(lia))) by reflexivity.
  change (bpow radix2 (-15)) with (/ IZR (2 ^ 15)). change (IZR (2 ^ 15)) with 32768. f_equal; try field; reflexivity.
Qed.
Lemma ww_r : rvec ww = V (230407155 / 32768) (115203577 / 16384) 0.
Proof.
  unfold rvec, ww, ax, bx. rewrite !(fun m H => proj2 (dyadic_exact m (-15) H ltac:(lia))) by reflexivity.
  change (bpow radix2 (-15)) with (/ IZR (2 ^ 15)). change (IZR (2 ^ 15)) with 32768. f_equal; try field; reflexivity.
Qed.
Definition rsafe := 6678000. Definition rmu := 398600441800000.
Lemma real_side : exists d, fb_con (rvec wv) (rvec ww) rmu rsafe = Some (0, d) /\ d < 0.
Proof.
  rewrite wv_r, ww_r. set (v := V (115203577 / 16384) (230407155 / 32768) 0). set (w := V (230407155 / 32768) (115203577 / 16384) 0).
  assert (NV : v <> vzero) by (intros E; apply (f_equal vx) in E; cbn in E; lra). assert (NW : w <> vzero) by (intros E; apply (f_equal vx) in E; cbn in E; lra).
  rewrite (con_some v w rmu rsafe NV NW) by (unfold rmu, rsafe; lra).
  assert (Q : dot w w = dot v v) by (unfold v, w, dot; cbn [vx vy vz]; ring). rewrite Q. rewrite Rminus_diag_eq by reflexivity.
  eexists. split; [reflexivity|]. unfold ang, turnf, norm. rewrite Q.
  assert (D : 0 < dot v v) by (unfold v, dot; cbn [vx vy vz]; lra). rewrite sqrt_sqrt by lra.
  enough (acos (dot v w / dot v v) < 2 * asin (1 / eccf rmu rsafe (dot v v))) by lra.
  assert (E1 : 1 <= eccf rmu rsafe (dot v v) <= 3).
  { split; [apply eccf_ge; unfold rmu, rsafe; lra|]. unfold eccf, rmu, rsafe, v, dot. cbn [vx vy vz]. lra. }
  assert (S : 1 / 3 <= 1 / eccf rmu rsafe (dot v v) <= 1).
  { split; [apply (proj1 (Rcomplements.Rle_div_r (1 / 3) 1 (eccf rmu rsafe (dot v v)) ltac:(lra))); lra|]. apply (proj2 (Rcomplements.Rle_div_l 1 1 (eccf rmu rsafe (dot v v)) ltac:(lra))); lra. }
  assert (C : 9 / 10 < dot v w / dot v v <= 1).
  { split; [apply (proj1 (Rcomplements.Rlt_div_r (9 / 10) (dot v w) (dot v v) D))|apply (proj2 (Rcomplements.Rle_div_l (dot v w) 1 (dot v v) D))]; unfold v, w, dot; cbn [vx vy vz]; lra. }
  apply small_angle; [lra|lra|nra].
Qed.
Lemma double_side acos asin mu safe : acos_domain acos -> fst (fb_con_d acos asin wv ww mu safe) = dzero /\ snd (fb_con_d acos asin wv ww mu safe) = dnan.
Proof.
  intros D. split.
  - assert (B : deqb (fst (fb_con_d acos asin wv ww mu safe)) dzero = true) by (vm_compute; reflexivity).
    assert (S : Bsign (fst (fb_con_d acos asin wv ww mu safe)) = false) by (vm_compute; reflexivity).
    destruct (fst (fb_con_d acos asin wv ww mu safe)) as [s|s| |s m e F]; try (destruct s; discriminate); [cbn in S; rewrite S; reflexivity|discriminate].
  - apply out_of_range; [exact D|]. vm_compute. reflexivity.
Qed.
Lemma witness : exists v w : dvec, exists mu safe : double,
  (exists d, fb_con (rvec v) (rvec w) (B2R mu) (B2R safe) = Some (0, d) /\ d < 0) /\
  forall acos asin, acos_domain acos -> fst (fb_con_d acos asin v w mu safe) = dzero /\ snd (fb_con_d acos asin v w mu safe) = dnan.
Proof.
  exists wv, ww, (d_of_dyadic 398600441800000 0), (d_of_dyadic 6678000 0).
  assert (M : B2R (d_of_dyadic 398600441800000 0) = rmu) by (rewrite (proj2 (dyadic_exact 398600441800000 0 ltac:(reflexivity) ltac:(lia))); cbn [bpow]; unfold rmu; lra).
  assert (S : B2R (d_of_dyadic 6678000 0) = rsafe) by (rewrite (proj2 (dyadic_exact 6678000 0 ltac:(reflexivity) ltac:(lia))); cbn [bpow]; unfold rsafe; lra).
  rewrite M, S.
  split; [exact real_side|]. intros acos asin D. exact (double_side acos asin _ _ D).
Qed.
Lemma domain_exists : exists acos : double -> double, acos_domain acos /\ acos done = dzero.
Proof. exists (fun x => if dltb done x then dnan else dzero). split; [intros x H; rewrite H; reflexivity|reflexivity]. Qed.
