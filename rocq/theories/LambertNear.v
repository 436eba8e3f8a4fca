(** * What the convergence of the iterations means for lambert_problem *)
From Coq Require Import Reals ZArith List Bool Lra Lia Psatz.
From Coquelicot Require Import Coquelicot.
From Verif Require Import Outcome PartialReal RealLib Vec3 TwoBodySpec ElemProofs LambertModel LambertReal LambertProofs LambertSpec LambertTime LambertSeries LambertVec LambertTof LambertDer LambertMono LambertMain LambertRevs LambertConv.
Import ListNotations.
Open Scope R_scope.

Lemma tiny_pow k : (0 < k)%nat -> (1 / 2) ^ (4 ^ (k + 3)) <= 1 / 1000000000000000000000000000000000.
Proof.
  intros Hk. assert (H : (110 <= 4 ^ (k + 3))%nat). { apply Nat.le_trans with (4 ^ 4)%nat; [vm_compute; lia|]. apply Nat.pow_le_mono_r; lia. }
  replace (4 ^ (k + 3))%nat with (110 + (4 ^ (k + 3) - 110))%nat by lia. rewrite pow_add. rewrite <- (Rmult_1_r (1 / 1000000000000000000000000000000000)).
  apply Rmult_le_compat; [apply pow_le; lra|apply pow_le; lra| |].
  - replace ((1 / 2) ^ 110) with (1 / IZR (2 ^ 110)). 2:{ replace (1 / 2) with (/ 2) by lra. rewrite pow_inv. replace 110%nat with (Z.to_nat 110) by reflexivity. rewrite pow_IZR, Z2Nat.id by lia. unfold Rdiv. rewrite Rmult_1_l. reflexivity. }
    apply Rmult_le_compat_l; [lra|]. apply Rinv_le_contravar; [lra|]. apply IZR_le. vm_compute. discriminate.
  - apply Rle_trans with (1 ^ (4 ^ (k + 3) - 110)); [apply pow_incr; lra|rewrite pow1; lra].
Qed.
(** the end of a run that starts near a solution *)
Lemma run_end K u v eps k : 1 <= K -> 1 / 100000000 <= eps -> 0 <= u <= / (2 * K) -> 0 <= v -> (1 <= k <= 15)%nat -> K * v <= (K * u) ^ (4 ^ k) -> k = 15%nat \/ v <= K * (2 * eps) ^ 4 -> v <= K * (2 * eps) ^ 4.
Proof.
  intros K1 He [U0 U1] V0 Hk H1 [->|H]; [|exact H].
  assert (KU : K * u <= 1 / 2). { apply (Rmult_le_compat_l K) in U1; [|lra]. replace (K * / (2 * K)) with (1 / 2) in U1 by (field; lra). exact U1. }
  assert (P : (K * u) ^ (4 ^ 15) <= (1 / 2) ^ (4 ^ 15)) by (apply pow_incr; split; [apply Rmult_le_pos; lra|exact KU]). pose proof (tiny_pow 12 ltac:(lia)) as T. change (12 + 3)%nat with 15%nat in T.
  assert (V : v <= 1 / 1000000000000000000000000000000000) by nra. eapply Rle_trans; [exact V|]. replace ((2 * eps) ^ 4) with (2 * eps * (2 * eps) * (2 * eps) * (2 * eps)) by ring.
  assert (E2 : 4 / 10000000000000000 <= 2 * eps * (2 * eps)) by nra. assert (E4 : 4 / 10000000000000000 * (4 / 10000000000000000) <= 2 * eps * (2 * eps) * (2 * eps) * (2 * eps)) by nra. nra.
Qed.
(** ** the values the constructor starts from, over the reals (lambert_problem.cpp 142-148, 155-156, 159-160) *)
Definition start (lam T : R) (i : nat) : R :=
  let N := IZR ((Z.of_nat i + 1) / 2) in
  if Nat.eqb i 0 then
    let T0 := acos lam + lam * sqrt (1 - lam * lam) in
    let T1 := 2 / 3 * (1 - lam * lam * lam) in
    if Rle_dec T0 T then - (T - T0) / (T - T0 + 4)
    else if Rle_dec T T1 then T1 * (T1 - T) / (2 / 5 * (1 - lam * lam * lam * lam * lam) * T) + 1
    else Rpower (T / T0) (6243314768165359 / 9007199254740992 / ln (T1 / T0)) - 1
  else
    let p := if Nat.odd i then Rpower ((N * PI + PI) / (8 * T)) (2 / 3) else Rpower (8 * T / (N * PI)) (2 / 3) in
    (p - 1) / (p + 1).
(** the change of x at which the iteration of entry i stops (150, 157, 161) *)
Definition stop_at (i : nat) : R := if Nat.eqb i 0 then 1 / 100000 else 1 / 100000000.
Lemma pow5 lam : lam * lam < 1 -> lam * lam * lam < 1 /\ lam * lam * lam * lam * lam < 1.
Proof. intros L. pose proof (lam_bd lam L) as B. assert (P : 0 <= lam * lam) by nra. assert (Q : lam * lam * lam < 1) by nra. split; [exact Q|]. nra. Qed.
Lemma guess0_start lam T : lam * lam < 1 -> 0 < T -> guess0 RA (Some lam) (Some T) (Some (lam * lam)) = Some (start lam T 0).
Proof.
  intros L TP. pose proof (lam_bd lam L) as LB. destruct (pow5 lam L) as [L3 L5]. pose proof (tau_decr0 lam L 0 1 ltac:(lra) ltac:(lra)) as DC. rewrite tau_at0, (tau_par lam 1 0 eq_refl) in DC.
  unfold start, guess0. cbn [Nat.eqb]. cbv zeta. rewrite !nat_r. ev. rewrite acos_r, (sqrt_r (1 - lam * lam)) by lra. ev. rewrite !(div_r 2 3), !(div_r 2 5) by lra. ev. rewrite !le_r.
  replace (2 / 3 * (1 - lam * (lam * lam))) with (2 / 3 * (1 - lam * lam * lam)) by ring. set (T0 := acos lam + lam * sqrt (1 - lam * lam)) in *. set (T1 := 2 / 3 * (1 - lam * lam * lam)) in *.
  assert (T1P : 0 < T1) by (unfold T1; lra). destruct (Rle_dec T0 T) as [C|C].
  - rewrite div_r by lra. reflexivity.
  - destruct (Rle_dec T T1) as [C'|C'].
    + replace (2 / 5 * (1 - lam * lam * (lam * (lam * lam))) * T) with (2 / 5 * (1 - lam * lam * lam * lam * lam) * T) by ring.
      rewrite div_r. 2:{ apply Rgt_not_eq. repeat apply Rmult_lt_0_compat; lra. } ev. reflexivity.
    + change (f_lit RA 6243314768165359 9007199254740992) with (Some (6243314768165359 / 9007199254740992)). rewrite !div_r by lra. assert (B : T1 / T0 < 1) by (apply Rlt_div_l; lra). assert (P : 0 < T1 / T0) by (apply Rdiv_lt_0_compat; lra).
      rewrite log_r by exact P. assert (NL : ln (T1 / T0) < 0) by (rewrite <- ln_1; apply ln_increasing; assumption). rewrite div_r by lra. rewrite pow_r by (apply Rdiv_lt_0_compat; lra). ev. reflexivity.
Qed.
Lemma rpower_pos a b : 0 < Rpower a b.
Proof. unfold Rpower. apply exp_pos. Qed.
Lemma entry_start lam T N (right : bool) : (1 <= N)%Z -> 0 < T -> let i := if right then Z.to_nat (2 * N) else Z.to_nat (2 * N - 1) in
  entry RA (Some lam) (Some T) N right = householder RA (Some lam) (Some T) (Some (start lam T i)) N (Some (stop_at i)) 15.
Proof.
  intros HN TP i. assert (NP : 0 < IZR N) by (apply IZR_lt; lia). pose proof PI_RGT_0 as PP. assert (I0 : Nat.eqb i 0 = false) by (apply Nat.eqb_neq; unfold i; destruct right; lia).
  assert (I1 : ((Z.of_nat i + 1) / 2)%Z = N). { unfold i. destruct right; rewrite Z2Nat.id by lia; [replace (2 * N + 1)%Z with (1 + N * 2)%Z by ring; rewrite Z.div_add by lia; reflexivity|replace (2 * N - 1 + 1)%Z with (N * 2)%Z by ring; apply Z.div_mul; lia]. }
  assert (I2 : Nat.odd i = negb right). { unfold i. destruct right; cbn [negb]; [replace (Z.to_nat (2 * N)) with (2 * Z.to_nat N)%nat by lia; rewrite Nat.odd_mul; reflexivity|replace (Z.to_nat (2 * N - 1)) with (S (2 * (Z.to_nat N - 1)))%nat by lia; rewrite Nat.odd_succ, Nat.even_mul; reflexivity]. }
  unfold entry, start, stop_at. cbv zeta. rewrite I0, I1, I2. change (f_lit RA 1 100000000) with (Some (1 / 100000000)). rewrite !nat_r. change (f_pi RA) with (Some PI). ev. rewrite (div_r 2 3) by lra. destruct right; cbn [negb].
  - rewrite div_r by nra. rewrite pow_r by (apply Rdiv_lt_0_compat; nra). set (p := Rpower _ _). assert (0 < p) by apply rpower_pos. ev. rewrite div_r by lra. reflexivity.
  - rewrite div_r by nra. rewrite pow_r by (apply Rdiv_lt_0_compat; nra). set (p := Rpower _ _). assert (0 < p) by apply rpower_pos. ev. rewrite div_r by lra. reflexivity.
Qed.
Lemma half_index N j : (0 <= N)%Z -> (2 * N - 1 <= j <= 2 * N)%Z -> ((j + 1) / 2)%Z = N.
Proof. intros HN J. symmetry. apply Z.div_unique with (j + 1 - 2 * N)%Z; lia. Qed.
(** what the constructor stores in entry i is what the iteration returns from [start] *)
Lemma lambert_started r0 r1 tof mu cw mr L i : vz (cross r0 r1) <> 0 -> (0 <= mr < u32)%Z -> lambert_r r0 r1 tof mu cw mr = Ret L -> (i < length (l_x L))%nat -> (l_nmax L + 1 < u32)%Z \/ i = 0%nat ->
  let lam := transfer_lambda r0 r1 cw in let T := tof / time_unit r0 r1 mu in
  exists x k, householder RA (Some lam) (Some T) (Some (start lam T i)) ((Z.of_nat i + 1) / 2) (Some (stop_at i)) 15 = Ret (x, k) /\ nth_error (l_x L) i = Some x /\ nth_error (l_iters L) i = Some k.
Proof.
  intros Hc M H HI HW lam T. destruct (lambert_pos _ _ _ _ _ _ _ H) as [Ht Hm]. pose proof (time_unit_pos _ _ _ (lambert_nd _ _ Hc) Hm) as UP. destruct (tl_sq r0 r1 cw Hc) as [_ [LP LL]]. fold lam in LP, LL. assert (TP : 0 < T) by (apply Rdiv_lt_0_compat; assumption).
  rewrite lambert_r_eq in H by assumption. fold T in H. destruct (r_u32 _) as [q| |] eqn:EU; cbn [bind] in H; try discriminate. pose proof (r_u32_ok (Some _) q EU) as Q.
  unfold solved in H. fold lam T in H. destruct (solve RA _ _ _ q mr) as [[[xs its] n]| |] eqn:SV; cbn [bind fst snd] in H; try discriminate. injection H as <-. cbn [l_x l_iters l_nmax] in *.
  destruct (solve_cases RA (Some lam) (Some (lam * lam)) (Some T) q mr Q M) as [[xs0 [its0 [n0 [S0 [SB [_ [_ [SL [SI _]]]]]]]]]|[S0 _]]; [|rewrite S0 in SV; discriminate]. rewrite SV in S0. assert (EX : xs0 = xs /\ its0 = its /\ n0 = n) by (injection S0; intros; repeat split; congruence). destruct EX as [-> [-> ->]].
  destruct (solve_entries RA _ _ _ _ _ _ _ _ None 0%Z Q M SV) as [H0 [H1 _]]. exists (nth i xs None), (nth i its 0%Z). split; [|split; apply nth_error_nth'; lia].
  destruct i as [|i].
  - rewrite (guess0_start lam T LL TP) in H0. exact H0.
  - destruct HW as [HW|HW]; [|discriminate]. set (N := ((Z.of_nat (S i) + 1) / 2)%Z). assert (NB : (2 * N - 1 <= Z.of_nat (S i) <= 2 * N)%Z). { unfold N. pose proof (Z.div_mod (Z.of_nat (S i) + 1) 2 ltac:(lia)). pose proof (Z.mod_pos_bound (Z.of_nat (S i) + 1) 2 ltac:(lia)). lia. }
    destruct (H1 HW N ltac:(lia)) as [E1 E2]. destruct (Z.eq_dec (Z.of_nat (S i)) (2 * N)) as [C|C].
    + rewrite (entry_start lam T N true ltac:(lia) TP) in E2. cbv iota zeta in E2. replace (Z.to_nat (2 * N)) with (S i) in E2 by lia. exact E2.
    + rewrite (entry_start lam T N false ltac:(lia) TP) in E1. cbv iota zeta in E1. replace (Z.to_nat (2 * N - 1)) with (S i) in E1 by lia. exact E1.
Qed.
Lemma pow_shrink a n : 0 <= a <= 1 -> (1 <= n)%nat -> a ^ n <= a.
Proof. intros A N. replace n with (1 + (n - 1))%nat by lia. rewrite pow_add, pow_1. assert (0 <= a ^ (n - 1) <= 1). { split; [apply pow_le; lra|]. apply Rle_trans with (1 ^ (n - 1)); [apply pow_incr; lra|rewrite pow1; lra]. } nra. Qed.
Lemma near_from r0 r1 mu cw N xs K0 c M K : vz (cross r0 r1) <> 0 -> let lam := transfer_lambda r0 r1 cw in 0 < c -> -1 < xs - c -> (xs + c < 1 \/ 1 < xs - c /\ N = 0%Z) -> (forall t, xs - c <= t <= xs + c -> Rabs (f1 lam N t) <= M) ->
  (1 <= K0) -> (forall x eps n, Rabs (x - xs) <= / (2 * K0) -> 0 <= eps < 1 -> (0 < n)%nat ->
    exists x' k, householder RA (Some lam) (Some (tau lam N xs)) (Some x) N (Some eps) n = Ret (Some x', Z.of_nat k) /\ (1 <= k <= n)%nat /\ K0 * Rabs (x' - xs) <= (K0 * Rabs (x - xs)) ^ (4 ^ k) /\ (k = n \/ Rabs (x' - xs) <= K0 * (2 * eps) ^ 4)) ->
  K0 <= K -> M <= K -> / (2 * c) <= K ->
  forall tof mr L i, tof = tau lam N xs * time_unit r0 r1 mu -> (0 <= mr < u32)%Z -> lambert_r r0 r1 tof mu cw mr = Ret L -> (i < length (l_x L))%nat -> (l_nmax L + 1 < u32)%Z \/ i = 0%nat -> N = ((Z.of_nat i + 1) / 2)%Z ->
  Rabs (start lam (tof / time_unit r0 r1 mu) i - xs) <= / (2 * K) ->
  exists x v0 v1 t, nth_error (l_x L) i = Some (Some x) /\ Rabs (x - xs) <= K * (2 * stop_at i) ^ 4 /\
    nth_error (l_v0 L) i = Some (sv v0) /\ nth_error (l_v1 L) i = Some (sv v1) /\ flow_at mu (r0, v0) t (r1, v1) /\ Rabs (t - tof) <= K * K * (2 * stop_at i) ^ 4 * time_unit r0 r1 mu.
Proof.
  intros Hc lam C0 C1 C2 BM K1 H KK MK CK tof mr L i Et MR HL HI HW HN HS. destruct (lambert_pos _ _ _ _ _ _ _ HL) as [Ht Hm]. pose proof (time_unit_pos _ _ _ (lambert_nd _ _ Hc) Hm) as UP. destruct (tl_sq r0 r1 cw Hc) as [_ [LP LL]]. fold lam in LP, LL.
  destruct (lambert_started r0 r1 tof mu cw mr L i Hc MR HL HI HW) as [x0 [k0 [E [EX _]]]]. fold lam in E. assert (TT : tof / time_unit r0 r1 mu = tau lam N xs) by (rewrite Et; field; lra). rewrite TT in *. rewrite <- HN in E.
  assert (KI : / (2 * K) <= / (2 * K0)) by (apply Rinv_le_contravar; lra). assert (SA : 0 <= stop_at i < 1 /\ 1 / 100000000 <= stop_at i) by (unfold stop_at; destruct (Nat.eqb i 0); lra). destruct SA as [SA SB].
  set (g := start lam (tau lam N xs) i) in *. destruct (H g (stop_at i) 15%nat ltac:(lra) SA ltac:(lia)) as [x [k [E' [Hk [HP HE]]]]]. rewrite E' in E. assert (X0 : x0 = Some x) by (injection E; intros; congruence). subst x0. clear E E'.
  pose proof (Rabs_pos (g - xs)) as G0. pose proof (Rabs_pos (x - xs)) as X0.
  assert (XE : Rabs (x - xs) <= K0 * (2 * stop_at i) ^ 4) by (apply (run_end K0 (Rabs (g - xs)) _ _ k); try assumption; lra).
  assert (XC : Rabs (x - xs) <= c).
  { assert (KG : 0 <= K0 * Rabs (g - xs) <= 1). { split; [apply Rmult_le_pos; lra|]. apply Rle_trans with (K0 * / (2 * K0)); [apply Rmult_le_compat_l; lra|]. replace (K0 * / (2 * K0)) with (1 / 2) by (field; lra). lra. }
    pose proof (pow_shrink _ (4 ^ k) KG ltac:(pose proof (Nat.pow_nonzero 4 k); lia)) as P. assert (XG : Rabs (x - xs) <= Rabs (g - xs)) by nra.
    assert (KC : / (2 * K) <= c). { assert (0 < / (2 * c)) by (apply Rinv_0_lt_compat; lra). apply Rinv_le_contravar in CK; [|assumption]. rewrite Rinv_inv in CK. rewrite Rinv_mult. lra. } lra. }
  assert (P4 : 0 <= (2 * stop_at i) ^ 4) by (apply pow_le; lra).
  assert (XE' : Rabs (x - xs) <= K * (2 * stop_at i) ^ 4) by nra.
  apply Rabs_le_between in XC. assert (X1 : -1 < x) by lra. assert (X2 : 1 <= x -> N = 0%Z) by (intros; destruct C2 as [C2|C2]; [lra|tauto]).
  destruct (lambert_flow _ _ _ _ _ _ _ _ _ Hc HL EX X1 ltac:(rewrite <- HN; exact X2)) as [v0 [v1 [A [B F]]]]. fold lam in F. rewrite <- HN in F. exists x, v0, v1, (tau lam N x * time_unit r0 r1 mu). repeat (split; [assumption|]).
  rewrite Et. rewrite <- Rmult_minus_distr_r. rewrite Rabs_mult, (Rabs_right (time_unit r0 r1 mu)) by lra. apply Rmult_le_compat_r; [lra|].
  assert (D : Rabs (tau lam N x - tau lam N xs) <= M * Rabs (x - xs)). { apply (mean_bound (tau lam N) (f1 lam N) (xs - c) (xs + c)); try lra; [intros t Tt; apply (tau_ders lam LL N t); [lra|lra]|exact BM]. }
  assert (M0 : 0 <= M). { eapply Rle_trans; [apply Rabs_pos|apply (BM xs); lra]. } eapply Rle_trans; [exact D|]. apply Rle_trans with (K * (K * (2 * stop_at i) ^ 4)); [apply Rmult_le_compat; lra|right; ring].
Qed.
Theorem lambert_near r0 r1 mu cw N xs (d : R) : vz (cross r0 r1) <> 0 -> let lam := transfer_lambda r0 r1 cw in -1 < xs -> 1 / 100 < Rabs (xs - 1) -> (1 < xs -> N = 0%Z) -> is_derive (tau lam N) xs d -> d <> 0 ->
  exists K, 1 <= K /\ forall tof mr L i, tof = tau lam N xs * time_unit r0 r1 mu -> (0 <= mr < u32)%Z -> lambert_r r0 r1 tof mu cw mr = Ret L -> (i < length (l_x L))%nat -> (l_nmax L + 1 < u32)%Z \/ i = 0%nat -> N = ((Z.of_nat i + 1) / 2)%Z ->
  Rabs (start lam (tof / time_unit r0 r1 mu) i - xs) <= / (2 * K) ->
  exists x v0 v1 t, nth_error (l_x L) i = Some (Some x) /\ Rabs (x - xs) <= K * (2 * stop_at i) ^ 4 /\
    nth_error (l_v0 L) i = Some (sv v0) /\ nth_error (l_v1 L) i = Some (sv v1) /\ flow_at mu (r0, v0) t (r1, v1) /\ Rabs (t - tof) <= K * K * (2 * stop_at i) ^ 4 * time_unit r0 r1 mu.
Proof.
  intros Hc lam X1 X2 X3 D Dn. destruct (tl_sq r0 r1 cw Hc) as [_ [LP LL]]. fold lam in LP, LL. assert (X4 : xs <> 1) by (intros ->; rewrite Rminus_eq_0, Rabs_R0 in X2; lra).
  assert (FE : f1 lam N xs = d). { destruct (tau_ders lam LL N xs X1 X4) as [D' _]. rewrite <- (is_derive_unique _ _ _ D), <- (is_derive_unique _ _ _ D'). reflexivity. }
  destruct (householder_at lam LL N xs X1 X2 X3 ltac:(rewrite FE; exact Dn)) as [K0 [K1 H]].
  set (c := Rmin ((xs + 1) / 2) (Rabs (xs - 1) / 2)). assert (C0 : 0 < c) by (apply Rmin_pos; lra). assert (C1 : c <= (xs + 1) / 2) by apply Rmin_l. assert (C2 : c <= Rabs (xs - 1) / 2) by apply Rmin_r.
  assert (C3 : xs + c < 1 \/ 1 < xs - c /\ N = 0%Z). { unfold Rabs in C2. destruct (Rcase_abs (xs - 1)); [left; lra|right; split; [lra|apply X3; lra]]. }
  destruct (ders_bound lam LL N (xs - c) (xs + c) ltac:(lra) ltac:(lra) ltac:(destruct C3 as [C3|[C3 _]]; [left|right]; exact C3)) as [M BM].
  exists (Rmax K0 (Rmax M (/ (2 * c)))). pose proof (Rmax_l K0 (Rmax M (/ (2 * c)))). pose proof (Rmax_r K0 (Rmax M (/ (2 * c)))). pose proof (Rmax_l M (/ (2 * c))). pose proof (Rmax_r M (/ (2 * c))).
  split; [lra|]. apply (near_from r0 r1 mu cw N xs K0 c M); try assumption; try lra. intros t Tt. apply (BM t Tt).
Qed.
Theorem lambert_direct_near r0 r1 mu cw a b : vz (cross r0 r1) <> 0 -> let lam := transfer_lambda r0 r1 cw in -1 < a -> a <= b -> b < 99 / 100 \/ 101 / 100 < a ->
  exists K, 1 <= K /\ forall tof xs mr L, a <= xs <= b -> tof = tau lam 0 xs * time_unit r0 r1 mu -> (0 <= mr < u32)%Z -> lambert_r r0 r1 tof mu cw mr = Ret L ->
  Rabs (start lam (tof / time_unit r0 r1 mu) 0 - xs) <= / (2 * K) ->
  exists x v0 v1 t, nth_error (l_x L) 0 = Some (Some x) /\ Rabs (x - xs) <= K * (2 * stop_at 0) ^ 4 /\
    nth_error (l_v0 L) 0 = Some (sv v0) /\ nth_error (l_v1 L) 0 = Some (sv v1) /\ flow_at mu (r0, v0) t (r1, v1) /\ Rabs (t - tof) <= K * K * (2 * stop_at 0) ^ 4 * time_unit r0 r1 mu.
Proof.
  intros Hc lam A AB W. destruct (tl_sq r0 r1 cw Hc) as [_ [LP LL]]. fold lam in LP, LL. destruct (householder_direct lam LL a b A AB W) as [K0 [K1 H]].
  set (c := Rmin ((a + 1) / 2) (1 / 200)). assert (C0 : 0 < c) by (apply Rmin_pos; lra). assert (C1 : c <= (a + 1) / 2) by apply Rmin_l. assert (C2 : c <= 1 / 200) by apply Rmin_r.
  destruct (ders_bound lam LL 0 (a - c) (b + c) ltac:(lra) ltac:(lra) ltac:(destruct W; [left|right]; lra)) as [M BM].
  exists (Rmax K0 (Rmax M (/ (2 * c)))). pose proof (Rmax_l K0 (Rmax M (/ (2 * c)))). pose proof (Rmax_r K0 (Rmax M (/ (2 * c)))). pose proof (Rmax_l M (/ (2 * c))). pose proof (Rmax_r M (/ (2 * c))).
  split; [lra|]. intros tof xs mr L XS Et MR HL HS.
  assert (HI : (0 < length (l_x L))%nat). { destruct (lambert_pos _ _ _ _ _ _ _ HL) as [Ht Hm]. pose proof HL as G. rewrite lambert_r_eq in G by assumption. destruct (r_u32 _) as [q| |] eqn:EU; cbn [bind] in G; try discriminate. pose proof (r_u32_ok (Some _) q EU) as Q. unfold solved in G.
    match type of G with context [solve RA ?l ?l2 ?T q mr] => destruct (solve_cases RA l l2 T q mr Q MR) as [[xs0 [its0 [n0 [S0 [SB [_ [_ [SL _]]]]]]]]|[S0 _]] end; rewrite S0 in G; cbn [bind fst snd] in G; [|discriminate]. injection G as <-. cbn [l_x]. lia. }
  apply (near_from r0 r1 mu cw 0 xs K0 c M (Rmax K0 (Rmax M (/ (2 * c)))) Hc) with (mr := mr); try assumption; try lra; try reflexivity.
  - destruct W; [left; lra|right; split; [lra|reflexivity]].
  - intros t Tt. apply (BM t). lra.
  - intros x eps n Hx He Hn. exact (H (tau lam 0 xs) xs x eps n XS eq_refl Hx He Hn).
  - right. reflexivity.
Qed.
(** ** near the transfer of least energy the constructor needs no assumption about its start *)
Lemma start_cont lam eps : lam * lam < 1 -> 0 < eps -> exists d, 0 < d /\ forall T, Rabs (T - tau lam 0 0) < d -> Rabs (start lam T 0) < eps.
Proof.
  intros L E. pose proof (lam_bd lam L) as LB. destruct (pow5 lam L) as [L3 L5]. pose proof (tau_decr0 lam L 0 1 ltac:(lra) ltac:(lra)) as DC. pose proof (tau_par lam 1 0 eq_refl) as T1E. set (T1 := 2 / 3 * (1 - lam * lam * lam)) in *. assert (T1P : 0 < T1) by (unfold T1; lra).
  set (T0 := tau lam 0 0) in *. rewrite T1E in DC. set (e := 6243314768165359 / 9007199254740992 / ln (T1 / T0)).
  assert (C : continuity_pt (fun T => Rpower (T / T0) e - 1) T0). { apply derivable_continuous_pt. eexists. apply is_derive_Reals. unfold Rpower. auto_derive; [|reflexivity]. apply Rdiv_lt_0_compat; lra. }
  destruct (C eps E) as [d1 [D1 H1]]. cbn in H1. unfold R_dist in H1. assert (Z : Rpower (T0 / T0) e = 1) by (replace (T0 / T0) with 1 by (field; lra); unfold Rpower; rewrite ln_1, Rmult_0_r, exp_0; reflexivity). rewrite Z in H1.
  exists (Rmin d1 (Rmin (T0 - T1) eps)). split; [repeat apply Rmin_pos; lra|]. intros T HT. assert (B1 := Rmin_l d1 (Rmin (T0 - T1) eps)). assert (B2 := Rmin_r d1 (Rmin (T0 - T1) eps)). assert (B3 := Rmin_l (T0 - T1) eps). assert (B4 := Rmin_r (T0 - T1) eps).
  unfold start. cbn [Nat.eqb]. cbv zeta. rewrite <- tau_at0. fold T0 T1. fold e. apply Rabs_def2 in HT. destruct (Rle_dec T0 T) as [H|H].
  - rewrite Rabs_left1. 2:{ apply Rmult_le_0_r; [lra|left; apply Rinv_0_lt_compat; lra]. } replace (- (- (T - T0) / (T - T0 + 4))) with ((T - T0) / (T - T0 + 4)) by (field; lra). apply Rlt_div_l; [lra|]. nra.
  - destruct (Rle_dec T T1) as [H'|H']; [lra|]. replace (Rpower (T / T0) e - 1) with (Rpower (T / T0) e - 1 - (1 - 1)) by ring. apply H1. split; [split; [exact I|lra]|]. apply Rabs_def1; lra.
Qed.
Theorem lambert_min_energy_near r0 r1 mu cw : vz (cross r0 r1) <> 0 -> 0 < mu -> let lam := transfer_lambda r0 r1 cw in
  exists K d, 1 <= K /\ 0 < d /\ forall tof mr, Rabs (tof - tau lam 0 0 * time_unit r0 r1 mu) < d -> (0 <= mr < u32)%Z ->
  exists L x v0 v1 t, lambert_r r0 r1 tof mu cw mr = Ret L /\ nth_error (l_x L) 0 = Some (Some x) /\
    nth_error (l_v0 L) 0 = Some (sv v0) /\ nth_error (l_v1 L) 0 = Some (sv v1) /\ flow_at mu (r0, v0) t (r1, v1) /\ Rabs (t - tof) <= K * K * (2 * stop_at 0) ^ 4 * time_unit r0 r1 mu.
Proof.
  intros Hc Hm lam. pose proof (time_unit_pos _ _ _ (lambert_nd _ _ Hc) Hm) as UP. destruct (tl_sq r0 r1 cw Hc) as [_ [LP LL]]. fold lam in LP, LL. pose proof PI_RGT_0 as PP.
  destruct (lambert_direct_near r0 r1 mu cw (-1/2) (1/2) Hc ltac:(lra) ltac:(lra) ltac:(lra)) as [K [K1 H]]. fold lam in H. set (tu := time_unit r0 r1 mu) in *.
  assert (I0 : 0 < / (2 * K) <= 1 / 2). { split; [apply Rinv_0_lt_compat; lra|]. replace (1 / 2) with (/ (2 * 1)) by lra. apply Rinv_le_contravar; lra. } set (h := / (2 * K) / 2) in *. assert (h0 : 0 < h <= 1 / 4) by (unfold h; lra).
  destruct (start_cont lam h LL ltac:(lra)) as [d1 [D1 HS]]. pose proof (tau_decr0 lam LL 0 h ltac:(lra) ltac:(lra)) as U1. pose proof (tau_decr0 lam LL (- h) 0 ltac:(lra) ltac:(lra)) as U2.
  pose proof (tau_revs lam LL 0 0 ltac:(lra)) as TR. cbv zeta in TR. replace (1 - 0 * 0) with 1 in TR by ring. rewrite sqrt_1 in TR. set (T0 := tau lam 0 0) in *. assert (TP : 0 < T0 < PI) by lra.
  set (dd := Rmin (Rmin d1 (Rmin (T0 - tau lam 0 h) (tau lam 0 (- h) - T0))) (Rmin T0 (PI - T0))). assert (DD : 0 < dd) by (unfold dd; repeat apply Rmin_pos; lra).
  assert (Q : dd <= d1 /\ dd <= T0 - tau lam 0 h /\ dd <= tau lam 0 (- h) - T0 /\ dd <= T0 /\ dd <= PI - T0).
  { unfold dd. pose proof (Rmin_l (Rmin d1 (Rmin (T0 - tau lam 0 h) (tau lam 0 (- h) - T0))) (Rmin T0 (PI - T0))). pose proof (Rmin_r (Rmin d1 (Rmin (T0 - tau lam 0 h) (tau lam 0 (- h) - T0))) (Rmin T0 (PI - T0))).
    pose proof (Rmin_l d1 (Rmin (T0 - tau lam 0 h) (tau lam 0 (- h) - T0))). pose proof (Rmin_r d1 (Rmin (T0 - tau lam 0 h) (tau lam 0 (- h) - T0))). pose proof (Rmin_l (T0 - tau lam 0 h) (tau lam 0 (- h) - T0)). pose proof (Rmin_r (T0 - tau lam 0 h) (tau lam 0 (- h) - T0)). pose proof (Rmin_l T0 (PI - T0)). pose proof (Rmin_r T0 (PI - T0)). repeat split; lra. }
  exists K, (dd * tu). split; [exact K1|]. split; [apply Rmult_lt_0_compat; assumption|]. intros tof mr HT MR.
  assert (HT' : Rabs (tof / tu - T0) < dd). { replace (tof / tu - T0) with ((tof - T0 * tu) / tu) by (field; lra). unfold Rdiv. rewrite Rabs_mult, (Rabs_right (/ tu)) by (left; apply Rinv_0_lt_compat; lra). apply Rlt_div_l; lra. }
  set (T := tof / tu) in *. pose proof HT' as HB. apply Rabs_def2 in HB. assert (T0' : 0 < T) by lra. assert (ET : tof = T * tu) by (unfold T; field; lra). assert (Ht : 0 < tof) by (rewrite ET; apply Rmult_lt_0_compat; lra).
  destruct (proj1 (lambert_run r0 r1 tof mu cw mr Hc Ht Hm MR)) as [L HL]. { fold tu T. apply Rlt_div_l; [lra|]. assert (1 <= IZR u32) by (apply IZR_le; unfold u32; lia). nra. }
  destruct (tau_solution0 lam LL T T0') as [xs [[XS EX] _]].
  assert (X1 : xs < h). { destruct (Rlt_le_dec xs h) as [G|[G|G]]; [exact G| |]; exfalso; [pose proof (tau_decr0 lam LL h xs ltac:(lra) G); lra|rewrite <- G in EX; lra]. }
  assert (X2 : - h < xs). { destruct (Rlt_le_dec (- h) xs) as [G|[G|G]]; [exact G| |]; exfalso; [pose proof (tau_decr0 lam LL xs (- h) XS G); lra|rewrite G in EX; lra]. }
  destruct (H tof xs mr L) as [x [v0 [v1 [t [A [_ [B [C [D E]]]]]]]]]; try assumption; [lra|rewrite EX; exact ET| |].
  - fold T. specialize (HS T ltac:(lra)). apply Rabs_def2 in HS. apply Rabs_le_between. replace (/ (2 * K)) with (2 * h) by (unfold h; field; lra). lra.
  - exists L, x, v0, v1, t. repeat (split; [assumption|]). assumption.
Qed.
