(** * Proofs: rounding errors of the default period of a planet *)
From Coq Require Import ZArith Reals List Lra Lia Psatz.
From Flocq Require Import Core.Core IEEE754.BinarySingleNaN.
From Verif Require Import Outcome Float64 Float64Facts Vec3 FlybyFloatModel FloatVecModel FloatErrSpec FloatErr FloatErrMain PlanetModel PlanetPeriodSpec.
From Verif Require JplModel.
Open Scope R_scope.

Definition box (k : nat) (x : R) : Prop := / 2 ^ k <= x <= 2 ^ k.
Lemma box_pos k x : box k x -> 0 < x.
Proof. intros [H _]. assert (0 < / 2 ^ k) by (apply Rinv_0_lt_compat, pow_lt; lra). lra. Qed.
Lemma box_weak k l x : (k <= l)%nat -> box k x -> box l x.
Proof. intros L [A B]. split; [eapply Rle_trans; [apply (inv_le k l L)|exact A]|eapply Rle_trans; [exact B|apply Rle_pow; [lra|exact L]]]. Qed.
Lemma box_mul k l x y : box k x -> box l y -> box (k + l) (x * y).
Proof. intros A B. pose proof (box_pos _ _ A). pose proof (box_pos _ _ B). split; [apply inv_mul; [apply A|apply B]|]. rewrite pow_add. destruct A, B. apply Rmult_le_compat; lra. Qed.
Lemma box_inv k x : box k x -> box k (/ x).
Proof. intros A. pose proof (box_pos _ _ A) as P. destruct A as [L H]. split; [apply Rinv_le_contravar; assumption|]. rewrite <- (Rinv_inv (2 ^ k)). apply Rinv_le_contravar; [apply Rinv_0_lt_compat, pow_lt; lra|exact L]. Qed.
Lemma box_div k l x y : box k x -> box l y -> box (k + l) (x / y).
Proof. intros A B. apply box_mul; [exact A|apply box_inv; exact B]. Qed.
Lemma pow_ge1 k : 1 <= 2 ^ k. Proof. apply pow_R1_Rle. lra. Qed.
Lemma box_sqrt k x : box k x -> box k (sqrt x).
Proof.
  unfold box. intros A. pose proof (box_pos _ _ A) as P. destruct A as [L H]. pose proof (pow_ge1 k) as Q. pose proof (sqrt_lt_R0 _ P) as SP. pose proof (sqrt_sqrt x (Rlt_le _ _ P)) as E.
  assert (I : 0 < / 2 ^ k <= 1) by (split; [apply Rinv_0_lt_compat, pow_lt; lra|rewrite <- Rinv_1; apply Rinv_le_contravar; lra]). set (i := / 2 ^ k) in *. set (p := 2 ^ k) in *. set (s := sqrt x) in *. clearbody i p s. assert (i * i <= i * 1) by (apply Rmult_le_compat_l; lra). assert (p * 1 <= p * p) by (apply Rmult_le_compat_l; lra). split.
  - apply le_sq; [lra|]. rewrite E. lra.
  - apply le_sq; [lra|]. rewrite E. lra.
Qed.
Definition rel (d x X : R) : Prop := Rabs (x - X) <= d * X.
Lemma rel_bd d x X : rel d x X <-> X * (1 - d) <= x <= X * (1 + d).
Proof. unfold rel. unfold Rabs. destruct (Rcase_abs _); split; intros H; nra. Qed.
Lemma fin z Z d : box 1000 Z -> 0 <= d <= 1 / 100 -> rel d z Z -> Rabs z <= M /\ rel (d + 1.1 * u) (rnd z) Z.
Proof.
  intros B D R0. pose proof (box_pos _ _ B) as P. destruct B as [L H]. pose proof u_pos as U. pose proof (eta_le 1000 Z (le_n _) L) as T.
  assert (A : Rabs z <= 1.01 * Z). { unfold rel in R0. pose proof (Rabs_triang (z - Z) Z) as Q. replace (z - Z + Z) with z in Q by ring. rewrite (Rabs_pos_eq Z) in Q by lra. nra. }
  split.
  - apply Rle_trans with (2 ^ 1010); [|apply M_big]. apply Rle_trans with (2 ^ 1001); [|apply Rle_pow; [lra|lia]]. change (2 ^ 1001) with (2 * 2 ^ 1000). set (p := 2 ^ 1000) in *. clearbody p. lra.
  - unfold rel in *. pose proof (rnd_ae z) as E. pose proof (Rabs_triang (rnd z - z) (z - Z)) as Q. replace (rnd z - z + (z - Z)) with (rnd z - Z) in Q by ring.
    assert (u * Rabs z <= u * (1.01 * Z)) by (apply Rmult_le_compat_l; lra). nra.
Qed.
Lemma rel_mul d e x X y Y : 0 < X -> 0 < Y -> 0 <= d <= 1 / 1000 -> 0 <= e <= 1 / 1000 -> rel d x X -> rel e y Y -> rel (1.002 * (d + e)) (x * y) (X * Y).
Proof.
  intros PX PY D E RX RY. unfold rel in *. replace (x * y - X * Y) with ((x - X) * Y + x * (y - Y)) by ring. eapply Rle_trans; [apply Rabs_triang|]. rewrite !Rabs_mult, (Rabs_pos_eq Y) by lra.
  assert (A : Rabs x <= 1.001 * X). { pose proof (Rabs_triang (x - X) X) as Q. replace (x - X + X) with x in Q by ring. rewrite (Rabs_pos_eq X) in Q by lra. nra. }
  assert (Rabs (x - X) * Y <= d * X * Y) by (apply Rmult_le_compat_r; lra). assert (Rabs x * Rabs (y - Y) <= 1.001 * X * (e * Y)) by (apply Rmult_le_compat; try apply Rabs_pos; assumption).
  assert (0 < X * Y) by (apply Rmult_lt_0_compat; assumption). assert (0 <= d * (X * Y)) by (apply Rmult_le_pos; lra). assert (0 <= e * (X * Y)) by (apply Rmult_le_pos; lra). nra.
Qed.
Lemma rel_inv e y Y : 0 < Y -> 0 <= e <= 1 / 2000 -> rel e y Y -> 0 < y /\ rel (1.001 * e) (/ y) (/ Y).
Proof.
  intros PY E RY. apply rel_bd in RY. assert (Py : 0.999 * Y <= y) by nra. assert (P : 0 < y) by nra. split; [exact P|]. unfold rel. replace (/ y - / Y) with ((Y - y) * (/ y * / Y)) by (field; lra).
  assert (I : 0 < / y) by (apply Rinv_0_lt_compat; lra). assert (J : 0 < / Y) by (apply Rinv_0_lt_compat; lra). rewrite Rabs_mult, (Rabs_pos_eq (/ y * / Y)) by (apply Rlt_le, Rmult_lt_0_compat; assumption).
  assert (A : Rabs (Y - y) <= e * Y) by (apply Rabs_le; nra). assert (B : e * Y * / y <= 1.001 * e). { apply Rmult_le_reg_r with y; [exact P|]. rewrite Rmult_assoc, Rinv_l by lra. assert (Y * (1 - e) <= y) by apply RY. nra. }
  apply Rle_trans with (e * Y * (/ y * / Y)); [apply Rmult_le_compat_r; [apply Rlt_le, Rmult_lt_0_compat; assumption|exact A]|]. rewrite <- Rmult_assoc. apply Rmult_le_compat_r; lra.
Qed.
Lemma op_mul (x y : double) X Y d e : is_finite x = true -> is_finite y = true -> 0 < X -> 0 < Y -> 0 <= d <= 1 / 1000 -> 0 <= e <= 1 / 1000 -> rel d (B2R x) X -> rel e (B2R y) Y -> box 1000 (X * Y) ->
  is_finite (dmul x y) = true /\ rel (1.002 * (d + e) + 1.1 * u) (B2R (dmul x y)) (X * Y).
Proof.
  intros Fx Fy PX PY D E RX RY B. pose proof (rel_mul _ _ _ _ _ _ PX PY D E RX RY) as Q. destruct (fin _ _ (1.002 * (d + e)) B ltac:(lra) Q) as [L R0]. destruct (dmul_ok x y Fx Fy L) as [F V0]. split; [exact F|]. rewrite V0. exact R0.
Qed.
Lemma op_div (x y : double) X Y d e : is_finite x = true -> 0 < X -> 0 < Y -> 0 <= d <= 1 / 1000 -> 0 <= e <= 1 / 2000 -> rel d (B2R x) X -> rel e (B2R y) Y -> box 1000 (X / Y) ->
  is_finite (ddiv x y) = true /\ rel (1.01 * (d + e) + 1.1 * u) (B2R (ddiv x y)) (X / Y).
Proof.
  intros Fx PX PY D E RX RY B. destruct (rel_inv _ _ _ PY E RY) as [Py RI]. assert (J : 0 < / Y) by (apply Rinv_0_lt_compat; lra).
  pose proof (rel_mul d (1.001 * e) _ _ _ _ PX J D ltac:(lra) RX RI) as Q. change (B2R x * / B2R y) with (B2R x / B2R y) in Q. change (X * / Y) with (X / Y) in Q. assert (Q' : rel (1.01 * (d + e)) (B2R x / B2R y) (X / Y)). { unfold rel in *. eapply Rle_trans; [exact Q|]. apply Rmult_le_compat_r; [apply Rlt_le, Rmult_lt_0_compat; assumption|lra]. }
  destruct (fin _ _ (1.01 * (d + e)) B ltac:(lra) Q') as [L R0]. destruct (ddiv_ok x y Fx ltac:(lra) L) as [F V0]. split; [exact F|]. rewrite V0. exact R0.
Qed.
Lemma op_sqrt (x : double) X d : is_finite x = true -> 0 < X -> 0 <= d <= 1 / 100 -> rel d (B2R x) X -> box 1000 (sqrt X) -> is_finite (dsqrt x) = true /\ rel (d + 1.1 * u) (B2R (dsqrt x)) (sqrt X).
Proof.
  intros Fx PX D RX B. assert (P : 0 < B2R x) by (apply rel_bd in RX; nra). destruct (dsqrt_ok x Fx P) as [F V0]. split; [exact F|]. rewrite V0. apply fin; [exact B|exact D|].
  pose proof (sqrt_lt_R0 _ PX) as S1. pose proof (sqrt_lt_R0 _ P) as S2. pose proof (sqrt_sqrt X ltac:(lra)) as E1. pose proof (sqrt_sqrt (B2R x) ltac:(lra)) as E2. set (s := sqrt X) in *. set (t := sqrt (B2R x)) in *. unfold rel in *.
  rewrite <- E1, <- E2 in RX. replace (t * t - s * s) with ((t - s) * (t + s)) in RX by ring. rewrite Rabs_mult, (Rabs_pos_eq (t + s)) in RX by lra. clearbody s t. pose proof (Rabs_pos (t - s)). apply Rmult_le_reg_r with s; [exact S1|]. nra.
Qed.
Lemma rel_weak d e x X : 0 < X -> d <= e -> rel d x X -> rel e x X.
Proof. intros P L H. unfold rel in *. eapply Rle_trans; [exact H|]. apply Rmult_le_compat_r; lra. Qed.
Lemma rel_refl x : 0 < x -> rel 0 x x. Proof. intros P. unfold rel. rewrite Rminus_diag_eq, Rabs_R0 by reflexivity. lra. Qed.
Lemma two_r : is_finite (d_of_Z 2) = true /\ B2R (d_of_Z 2) = 2. Proof. exact (d_of_Z_exact 2 ltac:(lia)). Qed.

(** ** the period *)
Section Period.
Variables (tp mu : double) (r v : dvec) (k : R).
Hypothesis Ftp : is_finite tp = true.
Hypothesis Btp : 1 <= B2R tp <= 8.
Hypothesis Fmu : is_finite mu = true.
Hypothesis Bmu : box 70 (B2R mu).
Hypothesis Fr : finite3 r.
Hypothesis Br : box 70 (norm (rvec r)).
Hypothesis Fv : finite3 v.
Hypothesis Bv : box 70 (norm (rvec v)).
Hypothesis Hk : 0 < k <= 2 ^ 20.
Hypothesis WB : well_bound k (B2R mu) (rvec r) (rvec v).
Notation m := (B2R mu).
Notation K := (kinetic (rvec v)).
Notation U := (potential m (rvec r)).
Lemma b70 x : box 70 x -> / 2 ^ 500 <= x /\ x <= 2 ^ 500.
Proof. intros B. apply (box_weak 70 500 x) in B; [exact B|lia]. Qed.
Lemma KU : box 140 U /\ 0 < K /\ box 141 K.
Proof.
  assert (B1 : box 140 U) by exact (box_div 70 70 _ _ Bmu Br). split; [exact B1|]. assert (B2 : box 141 K). { apply (box_div 140 1); [exact (box_mul 70 70 _ _ Bv Bv)|]. split; cbn; lra. }
  split; [exact (box_pos _ _ B2)|exact B2].
Qed.
Notation G := (U - K).
Lemma GB : K < U /\ K + U <= k * G /\ 1 <= k /\ box 162 G.
Proof.
  destruct KU as [BU [PK BK]]. pose proof (box_pos _ _ BU) as PU. pose proof WB as W. unfold well_bound in W. assert (PG : 0 < G) by nra. assert (K1 : 1 <= k) by nra. split; [lra|]. split; [exact W|]. split; [exact K1|]. split.
  - assert (L : U <= 2 ^ 20 * G). { apply Rle_trans with (k * G); [lra|]. apply Rmult_le_compat_r; lra. } assert (Q : / 2 ^ 140 <= 2 ^ 20 * G) by (eapply Rle_trans; [apply BU|exact L]).
    apply Rle_trans with (/ 2 ^ 160); [apply inv_le; lia|]. apply Rmult_le_reg_l with (2 ^ 20); [apply pow_lt; lra|]. eapply Rle_trans; [|exact Q]. right. replace (2 ^ 160) with (2 ^ 20 * 2 ^ 140) by (rewrite <- pow_add; reflexivity). rewrite Rinv_mult, <- Rmult_assoc, Rinv_r, Rmult_1_l; [reflexivity|]. apply pow_nonzero. lra.
  - apply Rle_trans with (2 ^ 140); [|apply Rle_pow; [lra|lia]]. destruct BU. lra.
Qed.
Notation dl := (10 * (k * u)).
Lemma small : 10 * u <= dl <= 1 / 10 ^ 8.
Proof. destruct GB as [_ [_ [K1 _]]]. pose proof u_pos as P. split; [nra|]. rewrite u_num. replace (2 ^ 20) with 1048576 in Hk by (cbn; lra). lra. Qed.
Definition en : double := dsub (ddiv (ddot v v) (d_of_Z 2)) (ddiv mu (dsqrt (ddot r r))).
Lemma en_err : is_finite en = true /\ rel dl (- B2R en) G.
Proof.
  destruct KU as [BU [PK BK]]. pose proof (box_pos _ _ BU) as PU. destruct GB as [LT [W [K1 BG]]]. pose proof (box_pos _ _ BG) as PG. pose proof u_pos as UP.
  assert (Mr : moderate r) by (apply norm_moderate; [exact Fr|apply b70; exact Br]). assert (Mv : moderate v) by (apply norm_moderate; [exact Fv|apply b70; exact Bv]).
  destruct (sq_err v Mv (proj1 (b70 _ Bv))) as [F1 E1]. destruct (norm_err r Mr (proj1 (b70 _ Br))) as [F2 E2]. destruct two_r as [T1 T2].
  pose proof (box_pos _ _ Bv) as PV. pose proof (box_pos _ _ Br) as PR. pose proof (box_pos _ _ Bmu) as PM.
  assert (R1 : rel (5 * u) (B2R (ddot v v)) (norm (rvec v) * norm (rvec v))) by (apply rel_bd; lra). assert (R2 : rel (7 * u) (B2R (dsqrt (ddot r r))) (norm (rvec r))) by (apply rel_bd; lra).
  destruct (op_div (ddot v v) (d_of_Z 2) (norm (rvec v) * norm (rvec v)) 2 (5 * u) 0 F1 ltac:(apply Rmult_lt_0_compat; assumption) ltac:(lra) ltac:(lra) ltac:(lra) R1 ltac:(rewrite T2; apply rel_refl; lra) (box_weak 141 1000 _ ltac:(lia) BK)) as [FA RA].
  destruct (op_div mu (dsqrt (ddot r r)) m (norm (rvec r)) 0 (7 * u) Fmu PM PR ltac:(lra) ltac:(lra) (rel_refl _ PM) R2 (box_weak 140 1000 _ ltac:(lia) BU)) as [FB RB].
  fold K in RA. fold U in RB. set (A := B2R (ddiv (ddot v v) (d_of_Z 2))) in *. set (B := B2R (ddiv mu (dsqrt (ddot r r)))) in *.
  assert (Q : rel (8.2 * (k * u)) (- (A - B)) G).
  { unfold rel in *. replace (- (A - B) - G) with (- (A - K) + (B - U)) by ring. eapply Rle_trans; [apply Rabs_triang|]. rewrite Rabs_Ropp.
    change (norm (rvec v) * norm (rvec v) / 2) with K in RA. change (m / norm (rvec r)) with U in RB. apply Rle_trans with (8.2 * u * (K + U)); [nra|]. replace (8.2 * (k * u) * G) with (8.2 * u * (k * G)) by ring. apply Rmult_le_compat_l; lra. }
  pose proof small as SM. destruct (fin _ _ (8.2 * (k * u)) (box_weak 162 1000 _ ltac:(lia) BG) ltac:(lra) Q) as [L R0]. rewrite Rabs_Ropp in L. destruct (dsub_ok _ _ FA FB L) as [F V0]. split; [exact F|].
  unfold en. rewrite V0. fold A B. assert (O : rnd (- (A - B)) = - rnd (A - B)) by apply round_NE_opp. rewrite O in R0. apply (rel_weak (8.2 * (k * u) + 1.1 * u)); [exact PG|nra|exact R0].
Qed.
Theorem period_err : is_finite (period_from_energy tp r v mu) = true /\ Rabs (B2R (period_from_energy tp r v mu) - third_law (B2R tp) m (rvec r) (rvec v)) <= 50 * k * u * third_law (B2R tp) m (rvec r) (rvec v).
Proof.
  destruct en_err as [FE RE]. destruct GB as [LT [W [K1 BG]]]. pose proof (box_pos _ _ BG) as PG. pose proof u_pos as UP. pose proof small as SM. pose proof (box_pos _ _ Bmu) as PM. destruct two_r as [T1 T2].
  assert (X : period_from_energy tp r v mu = if dgtb en dzero then dnan else let a := ddiv (ddiv (Bopp mu) (d_of_Z 2)) en in dmul tp (dsqrt (ddiv (dmul (dmul a a) a) mu))) by (unfold en; destruct r as [[? ?] ?], v as [[? ?] ?]; reflexivity).
  rewrite X. assert (NG : B2R en < 0). { apply rel_bd in RE. assert (0 < G * (1 - dl)) by (apply Rmult_lt_0_compat; lra). lra. }
  replace (dgtb en dzero) with false. 2:{ symmetry. unfold dgtb. destruct (dltb dzero en) eqn:Q; [|reflexivity]. apply dltb_R in Q; [|reflexivity|exact FE]. cbn in Q. lra. }
  cbv zeta. set (a := ddiv (ddiv (Bopp mu) (d_of_Z 2)) en).
  assert (B2' : box 71 (m / 2)) by (apply (box_div 70 1); [exact Bmu|split; cbn; lra]). pose proof (box_pos _ _ B2') as P2.
  assert (BA : box 233 (axis m (rvec r) (rvec v))) by exact (box_div 71 162 _ _ B2' BG). set (A := axis m (rvec r) (rvec v)) in *. pose proof (box_pos _ _ BA) as PA.
  (* minus mu over two *)
  assert (H2 : is_finite (ddiv (Bopp mu) (d_of_Z 2)) = true /\ rel (1.1 * u) (- B2R (ddiv (Bopp mu) (d_of_Z 2))) (m / 2)).
  { assert (Fo : is_finite (Bopp mu) = true) by (rewrite is_finite_Bopp; exact Fmu). assert (Q : rel 0 (m / 2) (m / 2)) by (apply rel_refl; exact P2). destruct (fin _ _ 0 (box_weak 71 1000 _ ltac:(lia) B2') ltac:(lra) Q) as [L R0].
    assert (EQ : B2R (Bopp mu) / B2R (d_of_Z 2) = - (m / 2)) by (rewrite T2, B2R_Bopp; field). destruct (ddiv_ok (Bopp mu) (d_of_Z 2) Fo ltac:(rewrite T2; lra) ltac:(rewrite EQ, Rabs_Ropp; exact L)) as [F V0]. split; [exact F|]. rewrite V0, EQ.
    assert (O : rnd (- (m / 2)) = - rnd (m / 2)) by apply round_NE_opp. rewrite O, Ropp_involutive. apply (rel_weak (0 + 1.1 * u)); [exact P2|lra|exact R0]. }
  destruct H2 as [FH RH]. set (h := ddiv (Bopp mu) (d_of_Z 2)) in *.
  assert (RA : is_finite a = true /\ rel (1.3 * dl) (B2R a) A).
  { destruct (rel_inv dl _ _ PG ltac:(lra) RE) as [_ RI]. assert (J : 0 < / G) by (apply Rinv_0_lt_compat; exact PG). pose proof (rel_mul (1.1 * u) (1.001 * dl) _ _ _ _ P2 J ltac:(lra) ltac:(lra) RH RI) as Q. change (m / 2 * / G) with A in Q.
    replace (- B2R h * / - B2R en) with (B2R h / B2R en) in Q by (field; lra). destruct (fin _ _ (1.002 * (1.1 * u + 1.001 * dl)) (box_weak 233 1000 _ ltac:(lia) BA) ltac:(lra) Q) as [L R0]. destruct (ddiv_ok h en FH ltac:(lra) L) as [F V0]. split; [exact F|]. unfold a. rewrite V0. apply (rel_weak (1.002 * (1.1 * u + 1.001 * dl) + 1.1 * u)); [exact PA|lra|exact R0]. }
  destruct RA as [Fa Ra].
  destruct (op_mul a a A A (1.3 * dl) (1.3 * dl) Fa Fa PA PA ltac:(lra) ltac:(lra) Ra Ra (box_weak 466 1000 _ ltac:(lia) (box_mul 233 233 _ _ BA BA))) as [F3 R3].
  apply (rel_weak _ (2.73 * dl)) in R3; [|apply Rmult_lt_0_compat; exact PA|lra].
  destruct (op_mul (dmul a a) a (A * A) A (2.73 * dl) (1.3 * dl) F3 Fa ltac:(apply Rmult_lt_0_compat; exact PA) PA ltac:(lra) ltac:(lra) R3 Ra (box_weak 699 1000 _ ltac:(lia) (box_mul 466 233 _ _ (box_mul 233 233 _ _ BA BA) BA))) as [F4 R4].
  apply (rel_weak _ (4.16 * dl)) in R4; [|exact (box_pos 699 _ (box_mul 466 233 _ _ (box_mul 233 233 _ _ BA BA) BA))|lra].
  assert (B5 : box 769 (A * A * A / m)) by exact (box_div 699 70 _ _ (box_mul 466 233 _ _ (box_mul 233 233 _ _ BA BA) BA) Bmu).
  destruct (op_div (dmul (dmul a a) a) mu (A * A * A) m (4.16 * dl) 0 F4 (box_pos 699 _ (box_mul 466 233 _ _ (box_mul 233 233 _ _ BA BA) BA)) PM ltac:(lra) ltac:(lra) R4 (rel_refl _ PM) (box_weak 769 1000 _ ltac:(lia) B5)) as [F5 R5].
  apply (rel_weak _ (4.4 * dl)) in R5; [|exact (box_pos _ _ B5)|lra].
  assert (B6 : box 769 (sqrt (A * A * A / m))) by (apply box_sqrt; exact B5).
  destruct (op_sqrt _ _ (4.4 * dl) F5 (box_pos _ _ B5) ltac:(lra) R5 (box_weak 769 1000 _ ltac:(lia) B6)) as [F6 R6].
  apply (rel_weak _ (4.6 * dl)) in R6; [|exact (box_pos _ _ B6)|lra].
  assert (Bt : box 3 (B2R tp)) by (unfold box; replace (2 ^ 3) with 8 by ring; lra).
  destruct (op_mul tp _ (B2R tp) _ 0 (4.6 * dl) Ftp F6 ltac:(lra) (box_pos _ _ B6) ltac:(lra) ltac:(lra) (rel_refl (B2R tp) ltac:(lra)) R6 (box_weak 772 1000 _ ltac:(lia) (box_mul 3 769 _ _ Bt B6))) as [F7 R7].
  split; [exact F7|]. change (third_law (B2R tp) m (rvec r) (rvec v)) with (B2R tp * sqrt (A * A * A / m)). eapply (rel_weak _ (50 * k * u)) in R7; [exact R7| |].
  - apply Rmult_lt_0_compat; [lra|exact (box_pos _ _ B6)].
  - replace (50 * k * u) with (5 * dl) by ring. lra.
Qed.
End Period.

(** ** as a method of a planet *)
Theorem planet_period_err dem tp (p : udpla) t r v mu k : u_period p = None -> u_eph p t = Ret (r, v) -> u_mu p = Some (Ret mu) ->
  is_finite tp = true -> 1 <= B2R tp <= 8 -> is_finite mu = true -> / 2 ^ 70 <= B2R mu <= 2 ^ 70 -> finite3 r -> / 2 ^ 70 <= norm (rvec r) <= 2 ^ 70 -> finite3 v -> / 2 ^ 70 <= norm (rvec v) <= 2 ^ 70 ->
  0 < k <= 2 ^ 20 -> well_bound k (B2R mu) (rvec r) (rvec v) ->
  exists T, period dem tp p t = Ret T /\ is_finite T = true /\ Rabs (B2R T - third_law (B2R tp) (B2R mu) (rvec r) (rvec v)) <= 50 * k * u * third_law (B2R tp) (B2R mu) (rvec r) (rvec v).
Proof.
  intros N E Q H1 H2 H3 H4 H5 H6 H7 H8 H9 H10. exists (period_from_energy tp r v mu). split; [|apply period_err; assumption].
  unfold period, get_mu_central_body, get_or, eph. rewrite N, Q, E. reflexivity.
Qed.
Theorem element_types (ic2par : posvel -> double -> list double) f2m par2eq pv mu et :
  (forall l, elements_from_posvel ic2par f2m par2eq pv mu et = Ret l -> let par := ic2par pv mu in
     match et with
     | JplModel.KEP_F => l = par | JplModel.MEQ => l = par2eq par false | JplModel.MEQ_R => l = par2eq par true | JplModel.POSVEL => False
     | JplModel.KEP_M => List.length par = 6%nat -> List.length l = 6%nat /\ (forall i, (i < 5)%nat -> nth i l dzero = nth i par dzero) /\ nth 5 l dzero = f2m (nth 5 par dzero) (nth 1 par dzero)
     end) /\
  forall e, elements_from_posvel ic2par f2m par2eq pv mu et = Throw e <-> e = LogicError /\ (et = JplModel.POSVEL \/ et = JplModel.KEP_M /\ dltb (nth 0 (ic2par pv mu) dzero) done = true).
Proof.
  unfold elements_from_posvel. cbv zeta. split.
  - intros l. destruct et; try (intros Q; injection Q as <-; reflexivity); [| discriminate].
    destruct (dltb _ _); [discriminate|]. intros Q. assert (Q' : l = (firstn 5 (ic2par pv mu) ++ (f2m (nth 5 (ic2par pv mu) dzero) (nth 1 (ic2par pv mu) dzero) :: nil))%list) by congruence. subst l. intros L. destruct (ic2par pv mu) as [|a0 [|a1 [|a2 [|a3 [|a4 [|a5 [|]]]]]]]; try discriminate L. split; [reflexivity|]. split; [|reflexivity].
    intros i Hi. do 5 (destruct i as [|i]; [reflexivity|]). lia.
  - intros e. destruct et; try (split; [discriminate|intros [_ [Q | [Q _]]]; discriminate Q]).
    + destruct (dltb _ _); [|split; [discriminate|intros [_ [Q | [_ Q]]]; discriminate Q]]. split; [intros Q; injection Q as <-; split; [reflexivity|right; split; reflexivity]|intros [-> _]; reflexivity].
    + split; [intros Q; injection Q as <-; split; [reflexivity|left; reflexivity]|intros [-> _]; reflexivity].
Qed.
Lemma period_case :
  deqb (period_from_energy done (d_of_Z 4, dzero, dzero) (dzero, ddiv done (d_of_Z 2), dzero) done) (d_of_Z 8) = true /\
  well_bound 3 1 (V 4 0 0) (V 0 (1 / 2) 0) /\ third_law 1 1 (V 4 0 0) (V 0 (1 / 2) 0) = 8.
Proof.
  split; [vm_compute; reflexivity|]. assert (N1 : norm (V 4 0 0) = 4) by (apply norm_unique; [lra|unfold dot; cbn [vx vy vz]; ring]). assert (N2 : norm (V 0 (1 / 2) 0) = 1 / 2) by (apply norm_unique; [lra|unfold dot; cbn [vx vy vz]; field]).
  unfold well_bound, third_law, axis, kinetic, potential. rewrite N1, N2. split; [lra|]. replace (1 / 2 / (1 / 4 - 1 / 2 * (1 / 2) / 2)) with 4 by field. replace (4 * 4 * 4 / 1) with (8 * 8) by field. rewrite sqrt_square by lra. ring.
Qed.

(** ** escape *)
Theorem planet_escape dem tp (p : udpla) t r v mu : u_period p = None -> u_eph p t = Ret (r, v) -> u_mu p = Some (Ret mu) ->
  is_finite mu = true -> / 2 ^ 70 <= B2R mu <= 2 ^ 70 -> finite3 r -> / 2 ^ 70 <= norm (rvec r) <= 2 ^ 70 -> finite3 v -> / 2 ^ 70 <= norm (rvec v) <= 2 ^ 70 ->
  escapes (10 * u) (B2R mu) (rvec r) (rvec v) -> exists T, period dem tp p t = Ret T /\ is_nan T = true.
Proof.
  intros N E0 Q0 Fmu Bmu Fr Br Fv Bv ES. exists (period_from_energy tp r v mu). split; [unfold period, get_mu_central_body, get_or, eph; rewrite N, Q0, E0; reflexivity|].
  destruct (KU mu r v Bmu Br Bv) as [BU [PK BK]]. pose proof (box_pos _ _ BU) as PU. pose proof u_pos as UP. unfold escapes in ES. set (K := kinetic (rvec v)) in *. set (U := potential (B2R mu) (rvec r)) in *.
  assert (Mr : moderate r) by (apply norm_moderate; [exact Fr|apply b70; exact Br]). assert (Mv : moderate v) by (apply norm_moderate; [exact Fv|apply b70; exact Bv]).
  destruct (sq_err v Mv (proj1 (b70 _ Bv))) as [F1 E1]. destruct (norm_err r Mr (proj1 (b70 _ Br))) as [F2 E2]. destruct two_r as [T1 T2].
  pose proof (box_pos 70 _ Bv) as PV. pose proof (box_pos 70 _ Br) as PR. pose proof (box_pos 70 _ Bmu) as PM.
  assert (R1 : rel (5 * u) (B2R (ddot v v)) (norm (rvec v) * norm (rvec v))) by (apply rel_bd; lra). assert (R2 : rel (7 * u) (B2R (dsqrt (ddot r r))) (norm (rvec r))) by (apply rel_bd; lra).
  destruct (op_div (ddot v v) (d_of_Z 2) (norm (rvec v) * norm (rvec v)) 2 (5 * u) 0 F1 ltac:(apply Rmult_lt_0_compat; assumption) ltac:(lra) ltac:(lra) ltac:(lra) R1 ltac:(rewrite T2; apply rel_refl; lra) (box_weak 141 1000 _ ltac:(lia) BK)) as [FA RA].
  destruct (op_div mu (dsqrt (ddot r r)) (B2R mu) (norm (rvec r)) 0 (7 * u) Fmu PM PR ltac:(lra) ltac:(lra) (rel_refl _ PM) R2 (box_weak 140 1000 _ ltac:(lia) BU)) as [FB RB].
  change (norm (rvec v) * norm (rvec v) / 2) with K in RA. change (B2R mu / norm (rvec r)) with U in RB. apply rel_bd in RA. apply rel_bd in RB.
  set (a := ddiv (ddot v v) (d_of_Z 2)) in *. set (b := ddiv mu (dsqrt (ddot r r))) in *.
  assert (LO : 1.5 * (u * (K + U)) <= B2R a - B2R b) by nra. assert (HI : B2R a - B2R b <= 2 * K) by nra.
  assert (PD : 0 < B2R a - B2R b). { eapply Rlt_le_trans; [|exact LO]. apply Rmult_lt_0_compat; [lra|]. apply Rmult_lt_0_compat; lra. }
  assert (L : Rabs (B2R a - B2R b) <= M). { rewrite Rabs_pos_eq by lra. apply Rle_trans with (2 ^ 1010); [|apply M_big]. apply Rle_trans with (2 ^ 142); [|apply Rle_pow; [lra|lia]]. change (2 ^ 142) with (2 * 2 ^ 141). destruct BK. lra. }
  destruct (dsub_ok a b FA FB L) as [F V0]. assert (EN : B2R (dsub a b) > 0).
  { rewrite V0. pose proof (rnd_ae (B2R a - B2R b)) as AE. rewrite (Rabs_pos_eq (B2R a - B2R b)) in AE by lra. pose proof (eta_le 1000 (K + U) ltac:(lia)) as T.
    assert (KB : / 2 ^ 1000 <= K + U) by (destruct (box_weak 141 1000 _ ltac:(lia) BK); lra). specialize (T KB). unfold Rabs in AE. destruct (Rcase_abs _) in AE; nra. }
  assert (X : period_from_energy tp r v mu = if dgtb (dsub a b) dzero then dnan else let c := ddiv (ddiv (Bopp mu) (d_of_Z 2)) (dsub a b) in dmul tp (dsqrt (ddiv (dmul (dmul c c) c) mu))) by (unfold a, b; destruct r as [[? ?] ?], v as [[? ?] ?]; reflexivity).
  rewrite X. replace (dgtb (dsub a b) dzero) with true; [reflexivity|]. symmetry. unfold dgtb. apply dltb_R; [reflexivity|exact F|]. cbn [B2R dzero]. exact EN.
Qed.
