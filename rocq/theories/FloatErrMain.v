(** * Rounding errors: norms, unit vectors, angles, cross products, throttle constraints *)
From Coq Require Import ZArith Reals List Lra Lia Psatz.
From Flocq Require Import Core.Core IEEE754.BinarySingleNaN.
From Verif Require Import Outcome Float64 Float64Facts Vec3 FlybyFloatModel FloatVecModel FloatErrSpec FloatErr HfSpec.
Import ListNotations.
Open Scope R_scope.

Lemma le_sq x y : 0 <= y -> x * x <= y * y -> x <= y. Proof. intros P H. destruct (Rle_lt_dec x y) as [L|L]; [exact L|]. nra. Qed.
Lemma abs_self x : Rabs x * Rabs x = x * x. Proof. unfold Rabs. destruct (Rcase_abs x); ring. Qed.
Lemma sum_norms (a b : vec) : Rabs (vx a * vx b) + Rabs (vy a * vy b) + Rabs (vz a * vz b) <= norm a * norm b.
Proof.
  pose proof (abs_dot (V (Rabs (vx a)) (Rabs (vy a)) (Rabs (vz a))) (V (Rabs (vx b)) (Rabs (vy b)) (Rabs (vz b)))) as H.
  assert (N : forall c, norm (V (Rabs (vx c)) (Rabs (vy c)) (Rabs (vz c))) = norm c). { intros c. unfold norm. f_equal. unfold dot. cbn [vx vy vz]. rewrite !abs_self. ring. }
  rewrite !N in H. eapply Rle_trans; [|exact H]. rewrite !Rabs_mult. unfold dot. cbn [vx vy vz]. apply Rle_abs.
Qed.
Lemma comp_norm (a : vec) : Rabs (vx a) <= norm a /\ Rabs (vy a) <= norm a /\ Rabs (vz a) <= norm a.
Proof. pose proof (norm_nonneg a) as P. pose proof (norm_sq a) as Q. unfold dot in Q. repeat split; apply le_sq; try exact P; rewrite abs_self; nra. Qed.
Lemma u_pos : 0 < u <= / 10 ^ 15. Proof. rewrite u_num. split; lra. Qed.
(** the smallest roundings are small compared with moderate numbers *)
Lemma eta_le k x : (k <= 1000)%nat -> / 2 ^ k <= x -> eta <= u * x / 1000.
Proof.
  intros K H. assert (E : eta <= u * / 2 ^ k / 1000).
  { apply Rle_trans with (bpow radix2 (-53) * bpow radix2 (- Z.of_nat k) * bpow radix2 (-10)).
    - unfold eta. rewrite <- !bpow_plus. apply bpow_le. lia.
    - rewrite u_bpow, bpn. unfold Rdiv. apply Rmult_le_compat_l; [|change (bpow radix2 (-10)) with (/ IZR 1024); lra]. apply Rmult_le_pos; [pose proof u_pos; lra|]. apply Rlt_le, Rinv_0_lt_compat, pow_lt. lra. }
  pose proof u_pos. assert (u * / 2 ^ k <= u * x) by (apply Rmult_le_compat_l; lra). lra.
Qed.
Lemma inv_mul k l x y : / 2 ^ k <= x -> / 2 ^ l <= y -> / 2 ^ (k + l) <= x * y.
Proof. intros A B. rewrite pow_add, Rinv_mult. assert (0 < / 2 ^ k) by (apply Rinv_0_lt_compat, pow_lt; lra). assert (0 < / 2 ^ l) by (apply Rinv_0_lt_compat, pow_lt; lra). apply Rmult_le_compat; lra. Qed.

(** ** squared norms and norms *)
Section One.
Variable v : dvec.
Hypothesis Hv : moderate v.
Notation n := (norm (rvec v)).
Hypothesis Hn : / 2 ^ 500 <= n.
Lemma n_pos : 0 < n. Proof. assert (0 < / 2 ^ 500) by (apply Rinv_0_lt_compat, pow_lt; lra). lra. Qed.
Lemma sq_err : is_finite (ddot v v) = true /\ n * n * (1 - 5 * u) <= B2R (ddot v v) <= n * n * (1 + 5 * u).
Proof.
  destruct v as [[a b] c]. destruct (ddot_err a b c a b c Hv Hv) as [F [E _]]. split; [exact F|]. pose proof (sum_norms (rvec (a, b, c)) (rvec (a, b, c))) as S. cbn [rvec vx vy vz] in S. rewrite <- norm_sq in E.
  pose proof (eta_le (500 + 500) _ ltac:(lia) (inv_mul 500 500 _ _ Hn Hn)) as T. cbn [rvec] in *. set (m := norm (V (B2R a) (B2R b) (B2R c))) in *. pose proof u_pos.
  set (s := Rabs _ + Rabs _ + Rabs _) in *. assert (4 * u * s <= 4 * u * (m * m)) by (apply Rmult_le_compat_l; lra). set (d := B2R (ddot _ _)) in *. clearbody d s m. unfold Rabs in E. destruct (Rcase_abs _) in E; split; nra.
Qed.
Lemma norm_err : is_finite (dsqrt (ddot v v)) = true /\ n * (1 - 7 * u) <= B2R (dsqrt (ddot v v)) <= n * (1 + 7 * u).
Proof.
  destruct sq_err as [F [L H]]. pose proof n_pos as P. pose proof u_pos as U. assert (D : 0 < B2R (ddot v v)) by (eapply Rlt_le_trans; [|exact L]; apply Rmult_lt_0_compat; nra).
  destruct (dsqrt_ok _ F D) as [G E]. split; [exact G|]. rewrite E. set (d := B2R (ddot v v)) in *. clearbody d.
  assert (S1 : n * (1 - 5 * u) <= sqrt d). { apply le_sq; [apply sqrt_pos|]. rewrite sqrt_sqrt by lra. eapply Rle_trans; [|exact L]. nra. }
  assert (S2 : sqrt d <= n * (1 + 5 * u)). { apply le_sq; [nra|]. rewrite sqrt_sqrt by lra. eapply Rle_trans; [exact H|]. nra. }
  pose proof (eta_le 500 n ltac:(lia) Hn) as T. assert (A : Rabs (sqrt d) <= n * (1 + 5 * u)) by (rewrite Rabs_pos_eq by apply sqrt_pos; exact S2). pose proof (rnd_bd _ _ A) as B. set (r := rnd (sqrt d)) in *. set (q := sqrt d) in *. clearbody r q.
  assert (u * (n * (1 + 5 * u)) <= 1.1 * (u * n)). { replace (u * (n * (1 + 5 * u))) with ((1 + 5 * u) * (u * n)) by ring. apply Rmult_le_compat_r; nra. } split; nra.
Qed.
End One.
(** ** unit vectors *)
Lemma quot_err a n N : 0 < n -> Rabs a <= n -> n * (1 - 7 * u) <= N <= n * (1 + 7 * u) -> Rabs (a / N - a / n) <= 8 * u /\ Rabs (a / N) <= 2.
Proof.
  intros P A B. pose proof u_pos as U. assert (NP : 0 < N) by (eapply Rlt_le_trans; [|apply B]; apply Rmult_lt_0_compat; lra).
  assert (E : Rabs (a / N - a / n) <= 8 * u).
  { replace (a / N - a / n) with (a * (n - N) / (N * n)) by (field; lra). unfold Rdiv. rewrite !Rabs_mult, (Rabs_pos_eq (/ _)) by (apply Rlt_le, Rinv_0_lt_compat; nra).
    apply Rmult_le_reg_r with (N * n); [nra|]. rewrite Rmult_assoc, Rinv_l by nra. rewrite Rmult_1_r. assert (Q : Rabs (n - N) <= 7 * u * n) by (apply Rabs_le; lra).
    apply Rle_trans with (n * (7 * u * n)); [apply Rmult_le_compat; try apply Rabs_pos; assumption|]. assert (n * (1 - 7 * u) * n <= N * n) by (apply Rmult_le_compat_r; lra). assert (0 < u * (n * n)) by (apply Rmult_lt_0_compat; nra). nra. }
  split; [exact E|]. assert (Rabs (a / n) <= 1). { unfold Rdiv. rewrite Rabs_mult, (Rabs_pos_eq (/ n)) by (apply Rlt_le, Rinv_0_lt_compat, P). apply Rmult_le_reg_r with n; [exact P|]. rewrite Rmult_assoc, Rinv_l by lra. lra. }
  pose proof (Rabs_triang (a / N - a / n) (a / n)) as T. replace (a / N - a / n + a / n) with (a / N) in T by ring. lra.
Qed.
Lemma div_err (x N : double) n : is_finite x = true -> 0 < n -> Rabs (B2R x) <= n -> n * (1 - 7 * u) <= B2R N <= n * (1 + 7 * u) ->
  is_finite (ddiv x N) = true /\ Rabs (B2R (ddiv x N) - B2R x / n) <= 10 * u.
Proof.
  intros F P A B. destruct (quot_err _ _ _ P A B) as [Q1 Q2]. pose proof u_pos as U. assert (NP : 0 < B2R N) by (eapply Rlt_le_trans; [|apply B]; apply Rmult_lt_0_compat; lra).
  destruct (ddiv_ok x N F ltac:(lra)) as [G E]. { eapply Rle_trans; [exact Q2|]. change 2 with (bpow radix2 1). apply bpow_le. lia. }
  split; [exact G|]. rewrite E. assert (X : Rabs (B2R x / n) <= 1). { unfold Rdiv. rewrite Rabs_mult, (Rabs_pos_eq (/ n)) by (apply Rlt_le, Rinv_0_lt_compat, P). apply Rmult_le_reg_r with n; [exact P|]. rewrite Rmult_assoc, Rinv_l by lra. lra. }
  assert (Y : Rabs (B2R x / B2R N) <= 1 + 8 * u). { pose proof (Rabs_triang (B2R x / B2R N - B2R x / n) (B2R x / n)) as T. replace (B2R x / B2R N - B2R x / n + B2R x / n) with (B2R x / B2R N) in T by ring. lra. }
  pose proof (rnd_bd _ _ Y) as R. pose proof (eta_le 0 1 ltac:(lia) ltac:(cbn; lra)) as T. apply Rabs_le. unfold Rabs in Q1. rewrite u_num in *. destruct (Rcase_abs _) in Q1; lra.
Qed.
Lemma unit_norm v : 0 < norm v -> norm (unit_of v) = 1.
Proof. intros P. apply norm_unique; [lra|]. unfold unit_of, dot. cbn [vx vy vz]. pose proof (norm_sq v) as Q. unfold dot in Q. transitivity ((vx v * vx v + vy v * vy v + vz v * vz v) * (/ norm v * / norm v)); [rewrite <- Q; field; lra|unfold Rdiv; ring]. Qed.
Lemma within_norm d p q : 0 <= d -> within d p q -> norm (vsub p q) * norm (vsub p q) <= 3 * (d * d).
Proof. intros D [W0 [W1 W2]]. rewrite norm_sq. unfold dot, vsub. cbn [vx vy vz]. assert (S : forall x, Rabs x <= d -> x * x <= d * d). { intros x X. rewrite <- abs_self. pose proof (Rabs_pos x). nra. } pose proof (S _ W0). pose proof (S _ W1). pose proof (S _ W2). lra. Qed.
Lemma scaled_err v N : moderate v -> 0 < norm (rvec v) -> norm (rvec v) * (1 - 7 * u) <= B2R N <= norm (rvec v) * (1 + 7 * u) ->
  finite3 (dscaled v N) /\ within (10 * u) (rvec (dscaled v N)) (unit_of (rvec v)) /\ norm (vsub (rvec (dscaled v N)) (unit_of (rvec v))) <= 18 * u /\ Rabs (norm (rvec (dscaled v N)) - 1) <= 18 * u.
Proof.
  intros Hv P NE. destruct (comp_norm (rvec v)) as [C0 [C1 C2]]. destruct v as [[a b] c]. destruct Hv as [F0 [F1 [F2 _]]]. cbn [rvec vx vy vz] in C0, C1, C2.
  destruct (div_err a _ _ F0 P C0 NE) as [G0 E0]. destruct (div_err b _ _ F1 P C1 NE) as [G1 E1]. destruct (div_err c _ _ F2 P C2 NE) as [G2 E2]. unfold dscaled. split; [exact (conj G0 (conj G1 G2))|].
  assert (W : within (10 * u) (rvec (ddiv a N, ddiv b N, ddiv c N)) (unit_of (rvec (a, b, c)))) by exact (conj E0 (conj E1 E2)).
  split; [exact W|]. pose proof u_pos as U. assert (X : norm (vsub (rvec (ddiv a N, ddiv b N, ddiv c N)) (unit_of (rvec (a, b, c)))) <= 18 * u).
  { apply le_sq; [lra|]. eapply Rle_trans; [apply (within_norm (10 * u)); [lra|exact W]|]. nra. }
  split; [exact X|]. rewrite <- (unit_norm (rvec (a, b, c)) P). eapply Rle_trans; [apply norm_rev_triangle|exact X].
Qed.
Lemma plain_accurate : accurate_norm dnorm. Proof. intros v Hv Hn. exact (norm_err v Hv Hn). Qed.
Theorem normalize_err v : moderate v -> / 2 ^ 500 <= norm (rvec v) -> finite3 (dnormalize v) /\ within (10 * u) (rvec (dnormalize v)) (unit_of (rvec v)) /\ Rabs (norm (rvec (dnormalize v)) - 1) <= 18 * u.
Proof. intros Hv Hn. destruct (scaled_err v _ Hv (n_pos v Hn) (proj2 (norm_err v Hv Hn))) as [A [B [_ C]]]. destruct v as [[a b] c]. exact (conj A (conj B C)). Qed.

(** ** moderate vectors *)
Lemma norm_moderate v : finite3 v -> norm (rvec v) <= 2 ^ 500 -> moderate v.
Proof. intros F N. destruct (comp_norm (rvec v)) as [C0 [C1 C2]]. destruct v as [[a b] c]. destruct F as [F0 [F1 F2]]. cbn [rvec vx vy vz] in C0, C1, C2. cbn [rvec] in N. repeat split; try assumption; lra. Qed.
Lemma inv_le k l : (k <= l)%nat -> / 2 ^ l <= / 2 ^ k. Proof. intros H. apply Rinv_le_contravar; [apply pow_lt; lra|apply Rle_pow; [lra|exact H]]. Qed.
Lemma ordinary_mod v : ordinary v -> moderate v /\ / 2 ^ 500 <= norm (rvec v).
Proof. intros [F [L H]]. split; [apply norm_moderate; [exact F|]; eapply Rle_trans; [exact H|apply Rle_pow; [lra|lia]]|]. eapply Rle_trans; [apply (inv_le 200 500); lia|exact L]. Qed.

(** ** the cosine of the angle between two velocities *)
Lemma step_prod n m p q : 0 < n -> 0 < m -> n * n * (1 - 5 * u) <= p <= n * n * (1 + 5 * u) -> m * m * (1 - 5 * u) <= q <= m * m * (1 + 5 * u) ->
  n * m * (n * m) * (1 - 11 * u) <= p * q <= n * m * (n * m) * (1 + 11 * u).
Proof.
  intros Hn Hm P Q. pose proof u_pos as U. replace (n * m * (n * m)) with (n * n * (m * m)) by ring. assert (0 < n * n) by nra. assert (0 < m * m) by nra. set (N := n * n) in *. set (K := m * m) in *. clearbody N K. clear n m Hn Hm.
  assert (A : 0 <= N * (1 - 5 * u)) by (apply Rmult_le_pos; lra). assert (B : 0 <= K * (1 - 5 * u)) by (apply Rmult_le_pos; lra). assert (NK : 0 < N * K) by (apply Rmult_lt_0_compat; assumption). split.
  - apply Rle_trans with (N * (1 - 5 * u) * (K * (1 - 5 * u))); [|apply Rmult_le_compat; lra]. replace (N * (1 - 5 * u) * (K * (1 - 5 * u))) with (N * K * ((1 - 5 * u) * (1 - 5 * u))) by ring. apply Rmult_le_compat_l; [lra|]. nra.
  - apply Rle_trans with (N * (1 + 5 * u) * (K * (1 + 5 * u))); [apply Rmult_le_compat; lra|]. replace (N * (1 + 5 * u) * (K * (1 + 5 * u))) with (N * K * ((1 + 5 * u) * (1 + 5 * u))) by ring. apply Rmult_le_compat_l; [lra|]. nra.
Qed.
Lemma step_rnd K a x r e : 0 < K -> 0 <= a <= 1000 -> e <= u * K / 1000 -> K * (1 - a * u) <= x <= K * (1 + a * u) -> x - (u * (K * (1 + a * u)) + e) <= r <= x + (u * (K * (1 + a * u)) + e) -> K * (1 - (a + 2) * u) <= r <= K * (1 + (a + 2) * u).
Proof.
  intros P A E X R. pose proof u_pos as U. assert (UK : 0 < u * K) by (apply Rmult_lt_0_compat; lra). assert (A1 : a * u <= / 2) by (apply Rle_trans with (1000 * u); [apply Rmult_le_compat_r; lra|rewrite u_num; lra]).
  assert (u * (K * (1 + a * u)) <= 1.5 * (u * K)). { replace (u * (K * (1 + a * u))) with ((1 + a * u) * (u * K)) by ring. apply Rmult_le_compat_r; lra. }
  split; nra.
Qed.
Lemma step_sqrt k r : 0 < k -> k * k * (1 - 13 * u) <= r <= k * k * (1 + 13 * u) -> k * (1 - 7 * u) <= sqrt r <= k * (1 + 7 * u).
Proof.
  intros P R. pose proof u_pos as U. assert (KP : 0 < k * k) by nra. assert (RP : 0 <= r) by (eapply Rle_trans; [|apply R]; apply Rmult_le_pos; lra). split; apply le_sq.
  - apply sqrt_pos.
  - rewrite sqrt_sqrt by exact RP. eapply Rle_trans; [|apply R]. replace (k * (1 - 7 * u) * (k * (1 - 7 * u))) with (k * k * ((1 - 7 * u) * (1 - 7 * u))) by ring. apply Rmult_le_compat_l; [lra|]. clear - U. rewrite u_num. lra.
  - apply Rmult_le_pos; lra.
  - rewrite sqrt_sqrt by exact RP. eapply Rle_trans; [apply R|]. replace (k * (1 + 7 * u) * (k * (1 + 7 * u))) with (k * k * ((1 + 7 * u) * (1 + 7 * u))) by ring. apply Rmult_le_compat_l; [lra|]. clear - U. rewrite u_num. lra.
Qed.
Lemma step_quot c d e k : 0 < k -> Rabs c <= k -> Rabs (d - c) <= 5 * u * k -> k * (1 - 9 * u) <= e <= k * (1 + 9 * u) -> e <> 0 /\ Rabs (d / e - c / k) <= 14.5 * u /\ Rabs (d / e) <= 1 + 15 * u.
Proof.
  intros K C D EE. pose proof u_pos as U. assert (EP : 0 < e) by (eapply Rlt_le_trans; [|apply EE]; apply Rmult_lt_0_compat; lra). split; [lra|].
  set (g := c / k). assert (CG : c = g * k) by (unfold g; field; lra). assert (G1 : Rabs g <= 1). { unfold g, Rdiv. rewrite Rabs_mult, (Rabs_pos_eq (/ k)) by (apply Rlt_le, Rinv_0_lt_compat, K). apply Rmult_le_reg_r with k; [exact K|]. rewrite Rmult_assoc, Rinv_l by lra. lra. }
  clearbody g. assert (QE : Rabs (d / e - g) <= 14.5 * u).
  { replace (d / e - g) with ((d - c + g * (k - e)) * / e) by (rewrite CG; field; lra). rewrite Rabs_mult, (Rabs_pos_eq (/ e)) by (apply Rlt_le, Rinv_0_lt_compat, EP). apply Rmult_le_reg_r with e; [exact EP|]. rewrite Rmult_assoc, Rinv_l by lra. rewrite Rmult_1_r.
    eapply Rle_trans; [apply Rabs_triang|]. rewrite (Rabs_mult g). assert (Rabs (k - e) <= 9 * u * k) by (apply Rabs_le; lra). assert (Rabs g * Rabs (k - e) <= 1 * (9 * u * k)) by (apply Rmult_le_compat; try apply Rabs_pos; assumption).
    assert (14.5 * u * (k * (1 - 9 * u)) <= 14.5 * u * e) by (apply Rmult_le_compat_l; lra). assert (0 < u * k) by (apply Rmult_lt_0_compat; lra). assert (u * (u * k) <= / 10 ^ 15 * (u * k)) by (apply Rmult_le_compat_r; lra). lra. }
  split; [exact QE|]. pose proof (Rabs_triang (d / e - g) g) as T. replace (d / e - g + g) with (d / e) in T by ring. lra.
Qed.
Theorem cos_arg_err v w : ordinary v -> ordinary w -> is_finite (cos_arg v w) = true /\ Rabs (B2R (cos_arg v w) - cos_between (rvec v) (rvec w)) <= 16 * u.
Proof.
  intros Ov Ow. destruct (ordinary_mod v Ov) as [Mv Nv]. destruct (ordinary_mod w Ow) as [Mw Nw]. destruct Ov as [_ [Lv Hv]]. destruct Ow as [_ [Lw Hw]].
  destruct (sq_err v Mv Nv) as [Fp P]. destruct (sq_err w Mw Nw) as [Fq Q]. pose proof (n_pos v Nv) as Pv. pose proof (n_pos w Nw) as Pw. pose proof u_pos as U.
  assert (D : is_finite (ddot v w) = true /\ Rabs (B2R (ddot v w) - dot (rvec v) (rvec w)) <= 5 * u * (norm (rvec v) * norm (rvec w))).
  { pose proof (eta_le (200 + 200) _ ltac:(lia) (inv_mul 200 200 _ _ Lv Lw)) as T. pose proof (sum_norms (rvec v) (rvec w)) as S. destruct v as [[a0 a1] a2]. destruct w as [[b0 b1] b2]. destruct (ddot_err _ _ _ _ _ _ Mv Mw) as [F [E _]]. split; [exact F|]. cbn [rvec vx vy vz] in *. eapply Rle_trans; [exact E|]. set (s := Rabs _ + _ + _) in *. clear P Q. set (k := norm _ * norm _) in *. assert (0 <= u * k) by (apply Rmult_le_pos; [lra|unfold k; apply Rmult_le_pos; apply norm_nonneg]). clearbody s k. assert (4 * u * s <= 4 * u * k) by (apply Rmult_le_compat_l; lra). lra. }
  destruct D as [Fd D]. pose proof (abs_dot (rvec v) (rvec w)) as AD. pose proof (inv_mul 200 200 _ _ Lv Lw) as LL. assert (HH : norm (rvec v) * norm (rvec w) <= 2 ^ 400) by (replace 400%nat with (200 + 200)%nat by reflexivity; rewrite pow_add; apply Rmult_le_compat; lra).
  assert (HB : 2 * (norm (rvec v) * norm (rvec w) * (norm (rvec v) * norm (rvec w))) <= M).
  { apply Rle_trans with (2 ^ 801); [|rewrite <- bp; apply bpow_le; lia]. replace 801%nat with (1 + (400 + 400))%nat by reflexivity. rewrite (pow_add _ 1), (pow_add _ 400), pow_1. apply Rmult_le_compat_l; [lra|]. apply Rmult_le_compat; try exact HH; apply Rmult_le_pos; apply norm_nonneg. }
  pose proof (eta_le (200 + 200) _ ltac:(lia) LL) as T2. pose proof (eta_le (400 + 400) _ ltac:(lia) (inv_mul 400 400 _ _ LL LL)) as T1. clear HH LL Lv Hv Lw Hw Nv Nw Mv Mw.
  unfold cos_arg, cos_between. set (n := norm (rvec v)) in *. set (m := norm (rvec w)) in *. set (c := dot (rvec v) (rvec w)) in *. set (p := ddot v v) in *. set (q := ddot w w) in *. set (d := ddot v w) in *. clearbody n m c p q d.
  pose proof (step_prod n m _ _ Pv Pw P Q) as PQ. set (k := n * m) in *. assert (K : 0 < k) by (apply Rmult_lt_0_compat; assumption). clearbody k. assert (KP : 0 < k * k) by (apply Rmult_lt_0_compat; assumption).
  assert (AP : Rabs (B2R p * B2R q) <= k * k * (1 + 11 * u)) by (rewrite Rabs_pos_eq; [lra|]; eapply Rle_trans; [|apply PQ]; apply Rmult_le_pos; lra).
  destruct (dmul_ok p q Fp Fq) as [Fm Em]. { eapply Rle_trans; [exact AP|]. eapply Rle_trans; [|exact HB]. rewrite (Rmult_comm 2). apply Rmult_le_compat_l; lra. }
  pose proof (rnd_bd _ _ AP) as RM. rewrite <- Em in RM. pose proof (step_rnd _ 11 _ _ _ KP ltac:(lra) T1 PQ RM) as MM. replace (11 + 2) with 13 in MM by lra. pose proof (step_sqrt _ _ K MM) as SS.
  destruct (dsqrt_ok _ Fm) as [Fs Es]. { eapply Rlt_le_trans; [|apply MM]. apply Rmult_lt_0_compat; lra. }
  assert (AS : Rabs (sqrt (B2R (dmul p q))) <= k * (1 + 7 * u)) by (rewrite Rabs_pos_eq by apply sqrt_pos; apply SS). pose proof (rnd_bd _ _ AS) as RS. rewrite <- Es in RS. pose proof (step_rnd _ 7 _ _ _ K ltac:(lra) T2 SS RS) as EE. replace (7 + 2) with 9 in EE by lra.
  destruct (step_quot c (B2R d) (B2R (dsqrt (dmul p q))) k K AD D EE) as [E0 [QE QA]].
  destruct (ddiv_ok d (dsqrt (dmul p q)) Fd E0) as [Fz Ez]. { eapply Rle_trans; [exact QA|]. apply Rle_trans with 2; [lra|]. change 2 with (bpow radix2 1). apply bpow_le. lia. }
  split; [exact Fz|]. rewrite Ez. pose proof (rnd_bd _ _ QA) as RQ. pose proof (eta_le 0 1 ltac:(lia) ltac:(cbn; lra)) as T3. clear - QE RQ T3. set (z := rnd _) in *. clearbody z. apply Rabs_le. unfold Rabs in QE. rewrite u_num in *. destruct (Rcase_abs _) in QE; lra.
Qed.

(** ** throttle constraints *)
Theorem throttle_err x y z : moderate (x, y, z) -> let n := norm (rvec (x, y, z)) in
  is_finite (throttle_residual [x; y; z]) = true /\ Rabs (B2R (throttle_residual [x; y; z]) - (n * n - 1)) <= 6 * u * (n * n) + 2 * u.
Proof.
  intros Hv n. destruct (ddot_err x y z x y z Hv Hv) as [F [E B]]. pose proof (sum_norms (rvec (x, y, z)) (rvec (x, y, z))) as S. cbn [rvec vx vy vz] in S. rewrite <- norm_sq in E. fold n in E. change (norm _) with n in S.
  change (throttle_residual [x; y; z]) with (dsub (ddot (x, y, z) (x, y, z)) done). destruct done_r as [F1 E1]. set (d := ddot _ _) in *. clearbody d. clearbody n. set (s := Rabs _ + _ + _) in *. clearbody s. pose proof u_pos as U.
  destruct (dsub_ok d done F F1) as [G R]. { rewrite E1. pose proof M_big as [MB _]. assert (2 ^ 1010 = 32 * 2 ^ 1005) by (replace 1010%nat with (5 + 1005)%nat by reflexivity; rewrite pow_add; lra). assert (1 <= 2 ^ 1005) by (apply pow_R1_Rle; lra). apply Rabs_le. unfold Rabs in B. destruct (Rcase_abs _) in B; lra. }
  split; [exact G|]. rewrite R, E1. pose proof (eta_le 0 1 ltac:(lia) ltac:(cbn; lra)) as T. assert (S4 : 4 * u * s <= 4 * u * (n * n)) by (apply Rmult_le_compat_l; lra). assert (NN : 0 <= n * n) by nra.
  assert (A : Rabs (B2R d - 1) <= (1 + 4 * u) * (n * n) + 8 * eta + 1). { apply Rabs_le. unfold Rabs in E. destruct (Rcase_abs _) in E; split; nra. }
  pose proof (rnd_bd _ _ A) as Q. apply Rabs_le. set (N := n * n) in *. clearbody N. rewrite u_num in *. unfold Rabs in E. destruct (Rcase_abs _) in E; lra.
Qed.
Theorem throttle_near x y z : moderate (x, y, z) -> let n := norm (rvec (x, y, z)) in let c := B2R (throttle_residual [x; y; z]) in (c <= 0 -> n * n <= 1 + 9 * u) /\ (n * n <= 1 - 9 * u -> c <= 0).
Proof. intros Hv n c. destruct (throttle_err x y z Hv) as [_ E]. fold n c in E. pose proof (norm_nonneg (rvec (x, y, z))). fold n in H. assert (NN : 0 <= n * n) by nra. set (N := n * n) in *. clearbody N c. clear n H. rewrite u_num in *. unfold Rabs in E. destruct (Rcase_abs _) in E; split; intros; lra. Qed.

(** ** cross products *)
Lemma pair_norms a1 a2 b1 b2 n m : 0 <= n -> 0 <= m -> a1 * a1 + a2 * a2 <= n * n -> b1 * b1 + b2 * b2 <= m * m -> Rabs (a1 * b2) + Rabs (b1 * a2) <= n * m.
Proof.
  intros N K A B. assert (0 <= n * m) by (apply Rmult_le_pos; assumption). apply le_sq; [assumption|]. rewrite !Rabs_mult. pose proof (abs_self a1). pose proof (abs_self a2). pose proof (abs_self b1). pose proof (abs_self b2).
  apply Rle_trans with ((Rabs a1 * Rabs a1 + Rabs a2 * Rabs a2) * (Rabs b1 * Rabs b1 + Rabs b2 * Rabs b2)); [|replace (n * m * (n * m)) with (n * n * (m * m)) by ring; apply Rmult_le_compat; nra].
  set (x := Rabs a1) in *. set (y := Rabs a2) in *. set (z := Rabs b1) in *. set (w := Rabs b2) in *. clearbody x y z w. pose proof (Rle_0_sqr (x * z - y * w)) as Q. unfold Rsqr in Q. nra.
Qed.
Lemma diff2_err p q : Rabs p <= 2 ^ 1001 -> Rabs q <= 2 ^ 1001 ->
  Rabs p <= M /\ Rabs q <= M /\ Rabs (rnd p - rnd q) <= M /\ Rabs (rnd (rnd p - rnd q) - (p - q)) <= 2.1 * u * (Rabs p + Rabs q) + 4 * eta.
Proof.
  intros Hp Hq. pose proof M_big as [MB [E0 E1]]. assert (B10 : 2 ^ 1010 = 512 * 2 ^ 1001) by (replace 1010%nat with (9 + 1001)%nat by reflexivity; rewrite pow_add; lra). assert (X1 : 1 <= 2 ^ 1001) by (apply pow_R1_Rle; lra). assert (EB : eta <= 1). { pose proof (eta_le 0 1 ltac:(lia) ltac:(cbn; lra)). rewrite u_num in *. lra. }
  clear E1. set (X := 2 ^ 1001) in *. clearbody X. pose proof (rnd_bd p _ (Rle_refl _)) as P. pose proof (rnd_bd q _ (Rle_refl _)) as Q. set (p' := rnd p) in *. set (q' := rnd q) in *. clearbody p' q'. rewrite u_num in *. pose proof (Rabs_pos p). pose proof (Rabs_pos q).
  assert (AP : - Rabs p <= p <= Rabs p) by (split_abs; lra). assert (AQ : - Rabs q <= q <= Rabs q) by (split_abs; lra). set (ap := Rabs p) in *. set (aq := Rabs q) in *. clearbody ap aq.
  assert (S1 : Rabs (p' - q') <= (1 + / 9007199254740992) * (ap + aq) + 2 * eta) by (apply Rabs_le; lra). pose proof (rnd_bd (p' - q') _ S1) as S2. rewrite u_num in S2. set (t := rnd (p' - q')) in *. clearbody t.
  split; [lra|]. split; [lra|]. split; [lra|]. apply Rabs_le. lra.
Qed.
Definition tiny : R := / 2 ^ 1000.
Lemma tiny_eta : 4 * eta <= tiny. Proof. unfold tiny. rewrite <- bpn. unfold eta. change 4 with (bpow radix2 2). rewrite <- bpow_plus. apply bpow_le. lia. Qed.
Section Cross.
Variables (a0 a1 a2 b0 b1 b2 : double).
Notation v := (a0, a1, a2). Notation w := (b0, b1, b2).
Hypothesis Hv : moderate v. Hypothesis Hw : moderate w.
Lemma comp_err (x y z t : double) : is_finite x = true -> is_finite y = true -> is_finite z = true -> is_finite t = true -> Rabs (B2R x) <= 2 ^ 500 -> Rabs (B2R y) <= 2 ^ 500 -> Rabs (B2R z) <= 2 ^ 500 -> Rabs (B2R t) <= 2 ^ 500 ->
  is_finite (dsub (dmul x y) (dmul z t)) = true /\ B2R (dsub (dmul x y) (dmul z t)) = rnd (rnd (B2R x * B2R y) - rnd (B2R z * B2R t)) /\
  Rabs (B2R (dsub (dmul x y) (dmul z t)) - (B2R x * B2R y - B2R z * B2R t)) <= 2.1 * u * (Rabs (B2R x * B2R y) + Rabs (B2R z * B2R t)) + 4 * eta.
Proof.
  intros F0 F1 F2 F3 A0 A1 A2 A3. destruct (diff2_err _ _ (prod_bd _ _ A0 A1) (prod_bd _ _ A2 A3)) as [E1 [E2 [E3 E4]]]. destruct (dmul_ok _ _ F0 F1 E1) as [P0 Q0]. destruct (dmul_ok _ _ F2 F3 E2) as [P1 Q1].
  rewrite <- Q0, <- Q1 in E3. destruct (dsub_ok _ _ P0 P1 E3) as [P2 Q2]. split; [exact P2|]. rewrite Q2, Q0, Q1. split; [reflexivity|exact E4].
Qed.
Theorem cross_err : finite3 (dcross v w) /\ within (3 * u * (norm (rvec v) * norm (rvec w)) + tiny) (rvec (dcross v w)) (cross (rvec v) (rvec w)).
Proof.
  pose proof (norm_nonneg (rvec v)) as N. pose proof (norm_nonneg (rvec w)) as K. pose proof (norm_sq (rvec v)) as NS. pose proof (norm_sq (rvec w)) as KS. unfold dot in NS, KS. cbn [rvec vx vy vz] in *.
  destruct Hv as [F0 [F1 [F2 [A0 [A1 A2]]]]]. destruct Hw as [G0 [G1 [G2 [B0 [B1 B2]]]]]. pose proof tiny_eta as T. pose proof u_pos as U.
  destruct (comp_err a1 b2 b1 a2 F1 G2 G1 F2 A1 B2 B1 A2) as [P0 [_ Q0]]. destruct (comp_err b0 a2 a0 b2 G0 F2 F0 G2 B0 A2 A0 B2) as [P1 [_ Q1]]. destruct (comp_err a0 b1 b0 a1 F0 G1 G0 F1 A0 B1 B0 A1) as [P2 [_ Q2]].
  unfold dcross. split; [exact (conj P0 (conj P1 P2))|]. cbn [rvec]. set (n := norm (V (B2R a0) _ _)) in *. set (m := norm (V (B2R b0) _ _)) in *. clearbody n m.
  assert (W : forall s, s <= n * m -> 2.1 * u * s + 4 * eta <= 3 * u * (n * m) + tiny). { intros s S. assert (2.1 * u * s <= 2.1 * u * (n * m)) by (apply Rmult_le_compat_l; lra). assert (0 <= u * (n * m)) by (apply Rmult_le_pos; [lra|apply Rmult_le_pos; assumption]). lra. }
  unfold cross, within. cbn [vx vy vz]. split; [|split].
  - eapply Rle_trans; [exact Q0|]. apply W, (pair_norms _ _ _ _ _ _ N K); nra.
  - eapply Rle_trans; [exact Q1|]. apply W. rewrite Rplus_comm. apply (pair_norms _ _ _ _ _ _ N K); nra.
  - eapply Rle_trans; [exact Q2|]. apply W, (pair_norms _ _ _ _ _ _ N K); nra.
Qed.
(** exactly parallel vectors give exactly zero *)
Theorem cross_parallel : cross (rvec v) (rvec w) = vzero -> rvec (dcross v w) = vzero.
Proof.
  intros C. assert (C0 := f_equal vx C). assert (C1 := f_equal vy C). assert (C2 := f_equal vz C). cbn in C0, C1, C2. destruct Hv as [F0 [F1 [F2 [A0 [A1 A2]]]]]. destruct Hw as [G0 [G1 [G2 [B0 [B1 B2]]]]].
  destruct (comp_err a1 b2 b1 a2 F1 G2 G1 F2 A1 B2 B1 A2) as [_ [Q0 _]]. destruct (comp_err b0 a2 a0 b2 G0 F2 F0 G2 B0 A2 A0 B2) as [_ [Q1 _]]. destruct (comp_err a0 b1 b0 a1 F0 G1 G0 F1 A0 B1 B0 A1) as [_ [Q2 _]].
  unfold dcross, vzero. cbn [rvec]. assert (Z : forall p q, p - q = 0 -> rnd (rnd p - rnd q) = 0). { intros p q H. replace p with q by lra. unfold Rminus. rewrite Rplus_opp_r. apply round_0. apply valid_rnd_N. }
  apply vec_eq; cbn [vx vy vz]; [rewrite Q0|rewrite Q1|rewrite Q2]; apply Z; assumption.
Qed.
(** swapping the arguments changes the sign, with no rounding error *)
Theorem cross_anti : rvec (dcross w v) = vneg (rvec (dcross v w)).
Proof.
  destruct Hv as [F0 [F1 [F2 [A0 [A1 A2]]]]]. destruct Hw as [G0 [G1 [G2 [B0 [B1 B2]]]]].
  destruct (comp_err a1 b2 b1 a2 F1 G2 G1 F2 A1 B2 B1 A2) as [_ [Q0 _]]. destruct (comp_err b0 a2 a0 b2 G0 F2 F0 G2 B0 A2 A0 B2) as [_ [Q1 _]]. destruct (comp_err a0 b1 b0 a1 F0 G1 G0 F1 A0 B1 B0 A1) as [_ [Q2 _]].
  destruct (comp_err b1 a2 a1 b2 G1 F2 F1 G2 B1 A2 A1 B2) as [_ [R0 _]]. destruct (comp_err a0 b2 b0 a2 F0 G2 G0 F2 A0 B2 B0 A2) as [_ [R1 _]]. destruct (comp_err b0 a1 a0 b1 G0 F1 F0 G1 B0 A1 A0 B1) as [_ [R2 _]].
  assert (Z : forall p q, rnd (rnd q - rnd p) = - rnd (rnd p - rnd q)). { intros p q. replace (rnd q - rnd p) with (- (rnd p - rnd q)) by ring. apply round_NE_opp. }
  unfold dcross, vneg. cbn [rvec]. apply vec_eq; cbn [vx vy vz]; [rewrite R0, Q0|rewrite R1, Q1|rewrite R2, Q2]; apply Z.
Qed.
End Cross.

(** ** the transfer plane *)
Lemma norm_cross_le a b : norm (cross a b) <= norm a * norm b.
Proof.
  apply le_sq; [apply Rmult_le_pos; apply norm_nonneg|]. rewrite norm_sq, lagrange_identity. replace (norm a * norm b * (norm a * norm b)) with (norm a * norm a * (norm b * norm b)) by ring. rewrite !norm_sq. pose proof (Rle_0_sqr (dot a b)) as Q. unfold Rsqr in Q. lra.
Qed.
Lemma unit_diff c C d : 0 < norm C -> 0 < norm c -> norm (vsub c C) <= d -> norm (vsub (unit_of c) (unit_of C)) <= 2 * d / norm C.
Proof.
  intros P p D. pose proof (norm_rev_triangle c C) as T.
  assert (E : vsub (unit_of c) (unit_of C) = vadd (vscal (/ norm C) (vsub c C)) (vscal ((norm C - norm c) / (norm c * norm C)) c)).
  { unfold unit_of, vsub, vadd, vscal. cbn [vx vy vz]. f_equal; field; lra. }
  rewrite E. eapply Rle_trans; [apply norm_triangle|]. rewrite !norm_vscal. rewrite (Rabs_pos_eq (/ norm C)) by (apply Rlt_le, Rinv_0_lt_compat, P). unfold Rdiv. rewrite Rabs_mult, (Rabs_pos_eq (/ (_ * _))) by (apply Rlt_le, Rinv_0_lt_compat, Rmult_lt_0_compat; assumption).
  replace (Rabs (norm C - norm c) * / (norm c * norm C) * norm c) with (Rabs (norm C - norm c) * / norm C) by (field; lra). rewrite (Rabs_minus_sym (norm C)). pose proof (Rinv_0_lt_compat _ P) as IP. set (i := / norm C) in *. nra.
Qed.
Lemma within_comp d p q : norm (vsub p q) <= d -> within d p q.
Proof. intros H. destruct (comp_norm (vsub p q)) as [A [B C]]. exact (conj (Rle_trans _ _ _ A H) (conj (Rle_trans _ _ _ B H) (Rle_trans _ _ _ C H))). Qed.
Theorem plane_err nrm r0 r1 : accurate_norm nrm -> moderate r0 -> moderate r1 -> / 2 ^ 500 <= norm (rvec r0) -> / 2 ^ 500 <= norm (rvec r1) ->
  let s := sin_between (rvec r0) (rvec r1) in 100 * u <= s ->
  finite3 (dplane nrm r0 r1) /\ within (100 * u / s) (rvec (dplane nrm r0 r1)) (unit_of (cross (rvec r0) (rvec r1))).
Proof.
  intros An M0 M1 N0 N1 s Hs. pose proof u_pos as U. pose proof (n_pos r0 N0) as P0. pose proof (n_pos r1 N1) as P1.
  destruct (scaled_err r0 _ M0 P0 (proj2 (An r0 M0 N0))) as [Fp [_ [Ep Lp]]]. destruct (scaled_err r1 _ M1 P1 (proj2 (An r1 M1 N1))) as [Fq [_ [Eq Lq]]].
  pose proof (unit_norm _ P0) as UP. pose proof (unit_norm _ P1) as UQ. unfold dplane. set (p := dscaled r0 (nrm r0)) in *. set (q := dscaled r1 (nrm r1)) in *.
  assert (Lp1 : norm (rvec p) <= 1 + 18 * u) by (unfold Rabs in Lp; destruct (Rcase_abs _) in Lp; lra). assert (Lq1 : norm (rvec q) <= 1 + 18 * u) by (unfold Rabs in Lq; destruct (Rcase_abs _) in Lq; lra).
  assert (Big : 2 <= 2 ^ 500) by (rewrite <- (pow_1 2) at 1; apply Rle_pow; [lra|lia]).
  assert (Mp : moderate p) by (apply norm_moderate; [exact Fp|lra]). assert (Mq : moderate q) by (apply norm_moderate; [exact Fq|lra]).
  assert (CE : finite3 (dcross p q) /\ within (3 * u * (norm (rvec p) * norm (rvec q)) + tiny) (rvec (dcross p q)) (cross (rvec p) (rvec q))). { destruct p as [[p0 p1] p2]. destruct q as [[q0 q1] q2]. exact (cross_err _ _ _ _ _ _ Mp Mq). }
  destruct CE as [Fc CE]. pose proof (norm_nonneg (rvec p)) as Np. pose proof (norm_nonneg (rvec q)) as Nq.
  assert (PQ : norm (rvec p) * norm (rvec q) <= 1.01) by (apply Rle_trans with (1.001 * 1.001); [apply Rmult_le_compat; try assumption; rewrite u_num in *; lra|lra]).
  assert (TN : tiny <= u / 100). { unfold tiny. rewrite <- bpn. apply Rle_trans with (bpow radix2 (-53) * bpow radix2 (-10)); [rewrite <- bpow_plus; apply bpow_le; lia|]. rewrite u_bpow. change (bpow radix2 (-10)) with (/ IZR 1024). lra. }
  assert (D1 : norm (vsub (rvec (dcross p q)) (cross (rvec p) (rvec q))) <= 5.5 * u).
  { apply le_sq; [lra|]. assert (DD : 3 * u * (norm (rvec p) * norm (rvec q)) + tiny <= 3.1 * u) by (assert (3 * u * (norm (rvec p) * norm (rvec q)) <= 3 * u * 1.01) by (apply Rmult_le_compat_l; lra); lra).
    assert (D0 : 0 <= 3 * u * (norm (rvec p) * norm (rvec q)) + tiny). { apply Rplus_le_le_0_compat; [apply Rmult_le_pos; [lra|apply Rmult_le_pos; assumption]|]. apply Rlt_le, Rinv_0_lt_compat, pow_lt. lra. }
    eapply Rle_trans; [apply (within_norm _ _ _ D0 CE)|]. set (x := 3 * u * _ + tiny) in *. clearbody x. assert (x * x <= 3.1 * u * (3.1 * u)) by (apply Rmult_le_compat; assumption). nra. }
  set (P := unit_of (rvec r0)) in *. set (Q := unit_of (rvec r1)) in *.
  assert (D2 : norm (vsub (cross (rvec p) (rvec q)) (cross P Q)) <= 36.5 * u).
  { replace (vsub (cross (rvec p) (rvec q)) (cross P Q)) with (vadd (cross (vsub (rvec p) P) (rvec q)) (cross P (vsub (rvec q) Q))) by (unfold vadd, vsub, cross; cbn [vx vy vz]; f_equal; ring).
    eapply Rle_trans; [apply norm_triangle|]. eapply Rle_trans; [apply Rplus_le_compat; apply norm_cross_le|]. rewrite UP. assert (norm (vsub (rvec p) P) * norm (rvec q) <= 18 * u * 1.001) by (apply Rmult_le_compat; try assumption; try apply norm_nonneg; rewrite u_num in *; lra). lra. }
  assert (D3 : norm (vsub (rvec (dcross p q)) (cross P Q)) <= 42 * u).
  { replace (vsub (rvec (dcross p q)) (cross P Q)) with (vadd (vsub (rvec (dcross p q)) (cross (rvec p) (rvec q))) (vsub (cross (rvec p) (rvec q)) (cross P Q))) by (unfold vadd, vsub; cbn [vx vy vz]; f_equal; ring).
    eapply Rle_trans; [apply norm_triangle|]. lra. }
  change (sin_between (rvec r0) (rvec r1)) with (norm (cross P Q)) in s. assert (SP : 0 < s) by lra. assert (S1 : s <= 1) by (unfold s; eapply Rle_trans; [apply norm_cross_le|]; rewrite UP, UQ; lra).
  pose proof (norm_rev_triangle (rvec (dcross p q)) (cross P Q)) as RT. fold s in RT. assert (CL : 58 * u <= norm (rvec (dcross p q)) <= 2) by (unfold Rabs in RT; destruct (Rcase_abs _) in RT; split; rewrite u_num in *; lra).
  set (c := dcross p q) in *. assert (Mc : moderate c) by (apply norm_moderate; [exact Fc|lra]).
  assert (Nc : / 2 ^ 500 <= norm (rvec c)). { apply Rle_trans with (58 * u); [|apply CL]. apply Rle_trans with u; [|lra]. unfold u. apply inv_le. lia. }
  destruct (scaled_err c _ Mc (n_pos c Nc) (proj2 (An c Mc Nc))) as [Fh [Wh [_ _]]]. split; [exact Fh|].
  pose proof (unit_diff (rvec c) (cross P Q) _ SP (n_pos c Nc) D3) as UD. fold s in UD.
  assert (UE : unit_of (cross P Q) = unit_of (cross (rvec r0) (rvec r1))).
  { assert (X : cross P Q = vscal (/ (norm (rvec r0) * norm (rvec r1))) (cross (rvec r0) (rvec r1))). { unfold P, Q, unit_of, cross, vscal. cbn [vx vy vz]. f_equal; field; lra. }
    set (k := / (norm (rvec r0) * norm (rvec r1))) in *. assert (KP : 0 < k) by (apply Rinv_0_lt_compat, Rmult_lt_0_compat; assumption). assert (SX : s = k * norm (cross (rvec r0) (rvec r1))) by (unfold s; rewrite X, norm_vscal, Rabs_pos_eq by lra; reflexivity).
    unfold unit_of. fold s. rewrite SX, X. cbn [vscal vx vy vz]. assert (norm (cross (rvec r0) (rvec r1)) <> 0) by (intro Z; rewrite Z, Rmult_0_r in SX; lra). f_equal; field; split; lra. }
  rewrite UE in UD. apply within_comp in UD. destruct UD as [U0 [U1 U2]]. destruct Wh as [W0 [W1 W2]].
  assert (FB : 10 * u + 2 * (42 * u) / s <= 100 * u / s). { apply Rmult_le_reg_r with s; [exact SP|]. replace ((10 * u + 2 * (42 * u) / s) * s) with (10 * u * s + 84 * u) by (field; lra). replace (100 * u / s * s) with (100 * u) by (field; lra). nra. }
  assert (TRI : forall x y z d1 d2, Rabs (x - y) <= d1 -> Rabs (y - z) <= d2 -> d1 + d2 <= 100 * u / s -> Rabs (x - z) <= 100 * u / s). { intros x y z d1 d2 X Y Z. replace (x - z) with ((x - y) + (y - z)) by ring. eapply Rle_trans; [apply Rabs_triang|]. lra. }
  split; [|split]; eapply TRI; eassumption.
Qed.
(** so the test that decides between the short and the long way is right unless the plane is nearly vertical *)
Theorem plane_side nrm r0 r1 : accurate_norm nrm -> moderate r0 -> moderate r1 -> / 2 ^ 500 <= norm (rvec r0) -> / 2 ^ 500 <= norm (rvec r1) ->
  let s := sin_between (rvec r0) (rvec r1) in 100 * u <= s -> let h := unit_of (cross (rvec r0) (rvec r1)) in
  100 * u / s < Rabs (vz h) -> (vz (rvec (dplane nrm r0 r1)) < 0 <-> vz h < 0) /\ vz (rvec (dplane nrm r0 r1)) <> 0.
Proof.
  intros An M0 M1 N0 N1 s Hs h Hz. destruct (plane_err nrm r0 r1 An M0 M1 N0 N1 Hs) as [_ [_ [_ W]]]. fold s h in W. set (z := vz (rvec _)) in *. set (y := vz h) in *. clearbody z y. assert (0 < 100 * u / s) by (apply Rdiv_lt_0_compat; pose proof u_pos; lra). set (e := 100 * u / s) in *. clearbody e. unfold Rabs in *. repeat destruct (Rcase_abs _) in *; split; try split; lra.
Qed.
