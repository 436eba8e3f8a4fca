(** * The number of revolutions that lambert_problem reports *)
From Coq Require Import Reals ZArith List Bool Lra Lia Psatz Machin.
From Coquelicot Require Import Coquelicot.
From Verif Require Import Outcome PartialReal RealLib Vec3 TwoBodySpec ElemProofs LambertModel LambertReal LambertProofs LambertSpec LambertTime LambertVec LambertTof LambertDer LambertMono LambertMain LambertRevsSpec LambertComplete LambertRevs PiBounds.
Import ListNotations.
Open Scope R_scope.

Lemma lambert_nmax r0 r1 tof mu cw mr L : vz (cross r0 r1) <> 0 -> (0 <= mr < u32)%Z -> lambert_r r0 r1 tof mu cw mr = Ret L ->
  let lam := transfer_lambda r0 r1 cw in let T := tof / time_unit r0 r1 mu in let q := Int_part (T / PI) in
  (0 <= q < u32)%Z /\ IZR q * PI <= T < (IZR q + 1) * PI /\ count RA (Some lam) (Some T) (Some (lam * lam)) q mr = Ret (l_nmax L).
Proof.
  intros Hc M H lam T q. destruct (lambert_pos _ _ _ _ _ _ _ H) as [Ht Hm]. pose proof (time_unit_pos _ _ _ (lambert_nd _ _ Hc) Hm) as UP. pose proof PI_RGT_0 as PP.
  assert (TP : 0 <= T / PI) by (apply Rlt_le; repeat apply Rdiv_lt_0_compat; assumption). rewrite lambert_r_eq in H by assumption. fold T in H.
  destruct (r_u32 (T / PI)) as [q0| |] eqn:U; cbn [bind] in H; try discriminate. pose proof (r_u32_ok (Some _) q0 U) as QB.
  unfold r_u32 in U. destruct (Rle_dec 0 (T / PI)) as [_|C]; [|contradiction]. destruct (Rlt_dec (T / PI) (IZR u32)) as [_|]; [|discriminate]. assert (E : q = q0) by (injection U as U; exact U). subst q0. split; [exact QB|].
  destruct (base_Int_part (T / PI)) as [A B]. fold q in A, B. assert (TT : T / PI * PI = T) by (field; lra). split; [split; [rewrite <- TT; apply Rmult_le_compat_r; lra|]; rewrite <- TT; apply Rmult_lt_compat_r; lra|].
  unfold solved in H. fold lam T in H. unfold solve in H. destruct (count RA _ _ _ q mr) as [n| |]; cbn [bind] in H; try discriminate.
  destruct (householder RA (Some lam) (Some T) _ 0 _ 15) as [h| |]; cbn [bind] in H; try discriminate. destruct (upd _ 0 (fst h)) as [xs| |]; cbn [bind] in H; try discriminate. destruct (upd _ 0 (snd h)) as [its| |]; cbn [bind] in H; try discriminate. destruct (multi _ _ _ _ _ _ _) as [m| |]; cbn [bind] in H; try discriminate. injection H as <-. reflexivity.
Qed.
Section Count.
Variable lam : R.
Hypothesis L : lam * lam < 1.
Lemma count_form T q mr : let N := Z.min mr q in (0 < N)%Z ->
  count RA (Some lam) (Some T) (Some (lam * lam)) q mr =
  if Rlt_dec T (tau lam N 0) then bind (halley RA (Some lam) 14 N 0 (Some 0) (Some 0) (Some (tau lam N 0))) (fun h => bind (if f_lt RA (Some T) (fst h) then Ret ((N - 1) mod u32)%Z else Ret N) (fun n => Ret (Z.min mr n))) else Ret N.
Proof.
  intros N HN. unfold count. cbv zeta. fold N. replace (Z.ltb 0 N) with true by lia. pose proof (lam_bd lam L) as LB. rewrite !nat_r. ev. rewrite acos_r, (sqrt_r (1 - lam * lam)) by lra. ev. change (f_pi RA) with (Some PI). ev. rewrite lt_r, (tau_at0N lam).
  destruct (Rlt_dec T (tau lam N 0)) as [C|C].
  - destruct (halley _ _ _ _ _ _ _ _) as [h| |]; reflexivity.
  - cbn [bind]. f_equal. lia.
Qed.
Lemma count_plain T q mr : (0 <= mr)%Z -> (0 <= q)%Z -> tau lam (Z.min mr q) 0 <= T -> count RA (Some lam) (Some T) (Some (lam * lam)) q mr = Ret (Z.min mr q).
Proof.
  intros M Q HT. destruct (Z.eq_dec (Z.min mr q) 0) as [E|E].
  - unfold count. cbv zeta. rewrite E. reflexivity.
  - rewrite count_form by lia. destruct (Rlt_dec T _) as [C|C]; [lra|reflexivity].
Qed.
Lemma tau0_lt N : tau lam N 0 < (IZR N + 1) * PI.
Proof. destruct (tau_revs lam L N 0 ltac:(lra)) as [_ U]. replace (1 - 0 * 0) with 1 in U by ring. rewrite sqrt_1 in U. lra. Qed.
Definition feasible (T : R) (N : Z) : Prop := N = 0%Z \/ exists x, -1 < x < 1 /\ tau lam N x = T.
Lemma feasible_below T q N : IZR q * PI <= T -> (0 <= N < q)%Z -> feasible T N.
Proof.
  intros HT HN. destruct (Z.eq_dec N 0) as [|NZ]; [left; assumption|right]. assert (B : IZR N + 1 <= IZR q) by (rewrite <- plus_IZR; apply IZR_le; lia). pose proof PI_RGT_0.
  destruct (revs_feasible lam N T L ltac:(lia) ltac:(nra)) as [a [b [A [B' [EA _]]]]]. exists a. split; [lra|exact EA].
Qed.
Lemma infeasible_above T q N : T < (IZR q + 1) * PI -> (0 <= q < N)%Z -> ~ feasible T N.
Proof.
  intros HT HN [E|[x [X E]]]; [lia|]. revert E. apply revs_infeasible; [exact L|lia| |exact X]. assert (B : IZR q + 1 <= IZR N) by (rewrite <- plus_IZR; apply IZR_le; lia). pose proof PI_RGT_0. nra.
Qed.
Lemma feasible_at0 T N : (1 <= N)%Z -> tau lam N 0 <= T -> feasible T N.
Proof.
  intros HN HT. right. destruct (tau_branches lam L N HN) as [xm [XM [_ [_ [S M]]]]]. pose proof (M 0 ltac:(lra)) as M0. destruct (Req_dec T (tau lam N xm)) as [E|E]; [exists xm; split; [lra|symmetry; exact E]|].
  destruct (S T ltac:(lra)) as [a [b [A [B [EA _]]]]]. exists a. split; [lra|exact EA].
Qed.
(** away from floor (T / pi) the count is right *)
Lemma count_off T q mr n N : (0 <= mr)%Z -> (0 <= q < u32)%Z -> IZR q * PI <= T < (IZR q + 1) * PI -> count RA (Some lam) (Some T) (Some (lam * lam)) q mr = Ret n -> (0 <= N <= mr)%Z -> N <> q -> (feasible T N <-> (N <= n)%Z).
Proof.
  intros M Q [TA TB] C HN NQ. destruct (count_cases RA (Some lam) (Some T) (Some (lam * lam)) q mr Q M) as [[n' [C' B]]|[C' _]]; rewrite C in C'; [|discriminate]. assert (n' = n) by congruence. subst n'.
  destruct (Z.lt_ge_cases N q) as [H|H].
  - split; [intros _|intros _; apply (feasible_below T q N); [exact TA|lia]]. destruct (Z.le_gt_cases q mr) as [G|G]; [lia|]. assert (E : count RA (Some lam) (Some T) (Some (lam * lam)) q mr = Ret (Z.min mr q)).
    { apply count_plain; [exact M|lia|]. replace (Z.min mr q) with mr by lia. pose proof (tau0_lt mr). assert (B' : IZR mr + 1 <= IZR q) by (rewrite <- plus_IZR; apply IZR_le; lia). pose proof PI_RGT_0. nra. }
    assert (n = Z.min mr q) by congruence. lia.
  - split; [intros F; exfalso; revert F; apply (infeasible_above T q); [exact TB|lia]|lia].
Qed.
Lemma count_at T q mr n N : (0 <= mr)%Z -> (0 <= q < u32)%Z -> IZR q * PI <= T < (IZR q + 1) * PI -> count RA (Some lam) (Some T) (Some (lam * lam)) q mr = Ret n -> tau lam q 0 <= T -> (0 <= N <= mr)%Z -> (feasible T N <-> (N <= n)%Z).
Proof.
  intros M Q TB C HT HN. destruct (Z.eq_dec N q) as [->|NQ]; [|exact (count_off T q mr n N M Q TB C HN NQ)].
  assert (E : count RA (Some lam) (Some T) (Some (lam * lam)) q mr = Ret (Z.min mr q)) by (apply count_plain; [exact M|lia|]; replace (Z.min mr q) with q by lia; exact HT).
  assert (n = Z.min mr q) by congruence. split; [lia|intros _]. destruct (Z.eq_dec q 0) as [->|QN]; [left; reflexivity|apply feasible_at0; [lia|exact HT]].
Qed.
(** below: the answer is as good as Halley's iteration *)
Lemma count_halley T q mr n t it : (q <= mr)%Z -> (1 <= q < u32)%Z -> T < tau lam q 0 -> count RA (Some lam) (Some T) (Some (lam * lam)) q mr = Ret n ->
  halley RA (Some lam) 14 q 0 (Some 0) (Some 0) (Some (tau lam q 0)) = Ret (Some t, it) -> ((q <= n)%Z <-> t <= T).
Proof.
  intros M Q HT C H. rewrite count_form in C by lia. replace (Z.min mr q) with q in C by lia. destruct (Rlt_dec T _) as [_|G]; [|lra]. rewrite H in C. cbn [bind fst] in C. rewrite lt_r in C. destruct (Rlt_dec T t) as [F|F]; cbn [bind] in C.
  - rewrite Z.mod_small in C by lia. assert (n = Z.min mr (q - 1)) by congruence. split; [lia|lra].
  - assert (n = Z.min mr q) by congruence. split; [lra|lia].
Qed.
(** the curve has one stationary point, and it is the minimum *)
Lemma stationary_min N x x' : (1 <= N)%Z -> -1 < x < 1 -> D1 lam (tau lam N x) x = 0 -> -1 < x' < 1 -> tau lam N x <= tau lam N x'.
Proof.
  intros HN X Z X'. assert (XP : 0 < x). { destruct (Rlt_le_dec 0 x) as [|G]; [assumption|]. pose proof (D1_neg lam L N x ltac:(lia) ltac:(lra)). lra. }
  assert (SG : forall t, 0 < t < 1 -> exists k, 0 < k /\ D1 lam (tau lam N t) t = k * Ee lam N t).
  { intros t Ht. rewrite D1_Ee by (assumption || lra). eexists. split; [|reflexivity]. destruct (w_sq t ltac:(lra)) as [WP W]. set (w := sqrt (1 - t * t)) in *. apply Rdiv_lt_0_compat; [lra|]. rewrite <- W. repeat apply Rmult_lt_0_compat; exact WP. }
  assert (EZ : Ee lam N x = 0). { destruct (SG x ltac:(lra)) as [k [K E]]. rewrite E in Z. apply Rmult_integral in Z. destruct Z; [lra|assumption]. }
  assert (DN : forall t, -1 < t < 1 -> is_derive (tau lam N) t (D1 lam (tau lam N t) t)) by (intros t Ht; apply tau_derive; lra).
  destruct (Rtotal_order x x') as [G|[->|G]]; [|lra|].
  - destruct (MVT_cor2 (tau lam N) (fun t => D1 lam (tau lam N t) t) x x' G) as [c [E Hc]]; [intros c Hc; apply is_derive_Reals, DN; lra|]. destruct (SG c ltac:(lra)) as [k [K EK]]. pose proof (Ee_incr lam L N x c XP ltac:(lra) ltac:(lra)) as I. rewrite EK in E. assert (0 <= k * Ee lam N c * (x' - x)) by (apply Rmult_le_pos; [apply Rmult_le_pos|]; lra). lra.
  - destruct (MVT_cor2 (tau lam N) (fun t => D1 lam (tau lam N t) t) x' x G) as [c [E Hc]]; [intros c Hc; apply is_derive_Reals, DN; lra|]. assert (NG : D1 lam (tau lam N c) c <= 0). { destruct (Rle_lt_dec c 0) as [H|H]; [left; apply D1_neg; [exact L|lia|lra]|]. destruct (SG c ltac:(lra)) as [k [K EK]]. pose proof (Ee_incr lam L N c x H ltac:(lra) ltac:(lra)) as I. rewrite EK. nra. } nra.
Qed.
End Count.
(** ** the constructor *)
Theorem revolutions_off r0 r1 tof mu cw mr L : vz (cross r0 r1) <> 0 -> (0 <= mr < u32)%Z -> lambert_r r0 r1 tof mu cw mr = Ret L ->
  forall N, (0 <= N <= mr)%Z -> N <> Int_part (tof / time_unit r0 r1 mu / PI) -> ((exists v, transfer mu r0 r1 tof cw N v) <-> (N <= l_nmax L)%Z).
Proof.
  intros Hc M H N HN NQ. destruct (lambert_pos _ _ _ _ _ _ _ H) as [Ht Hm]. destruct (lambert_nmax _ _ _ _ _ _ _ Hc M H) as [Q [TB C]]. rewrite (transfer_feasible mu r0 r1 cw Hc Hm tof N Ht ltac:(lia)).
  apply (count_off _ ltac:(apply (tl_sq r0 r1 cw Hc)) _ _ _ _ N (proj1 M) Q TB C HN NQ).
Qed.
Theorem revolutions_at r0 r1 tof mu cw mr L : vz (cross r0 r1) <> 0 -> (0 <= mr < u32)%Z -> lambert_r r0 r1 tof mu cw mr = Ret L ->
  let q := Int_part (tof / time_unit r0 r1 mu / PI) in let lam := transfer_lambda r0 r1 cw in (mr < q)%Z \/ (acos lam + lam * sqrt (1 - lam * lam) + IZR q * PI) * time_unit r0 r1 mu <= tof ->
  forall N, (0 <= N <= mr)%Z -> ((exists v, transfer mu r0 r1 tof cw N v) <-> (N <= l_nmax L)%Z).
Proof.
  intros Hc M H q lam HT N HN. destruct (lambert_pos _ _ _ _ _ _ _ H) as [Ht Hm]. destruct HT as [HT|HT]; [apply (revolutions_off r0 r1 tof mu cw mr L Hc M H N HN); fold q; lia|].
  destruct (lambert_nmax _ _ _ _ _ _ _ Hc M H) as [Q [TB C]]. rewrite (transfer_feasible mu r0 r1 cw Hc Hm tof N Ht ltac:(lia)). pose proof (time_unit_pos _ _ _ (lambert_nd _ _ Hc) Hm) as UP.
  apply (count_at _ ltac:(apply (tl_sq r0 r1 cw Hc)) _ _ _ _ N (proj1 M) Q TB C); [|exact HN]. fold q lam. rewrite <- (tau_at0N lam). apply Rle_div_r; assumption.
Qed.
(** what the Halley iteration would have to return *)
Theorem revolutions_halley r0 r1 tof mu cw mr L x it : vz (cross r0 r1) <> 0 -> (0 <= mr < u32)%Z -> lambert_r r0 r1 tof mu cw mr = Ret L ->
  let q := Int_part (tof / time_unit r0 r1 mu / PI) in let lam := transfer_lambda r0 r1 cw in (1 <= q <= mr)%Z -> tof < (acos lam + lam * sqrt (1 - lam * lam) + IZR q * PI) * time_unit r0 r1 mu ->
  halley RA (Some lam) 14 q 0 (Some 0) (Some 0) (Some (tau lam q 0)) = Ret (Some (tau lam q x), it) ->
  ((q <= l_nmax L)%Z <-> tau lam q x * time_unit r0 r1 mu <= tof) /\
  (-1 < x < 1 -> (q <= l_nmax L)%Z -> exists v, transfer mu r0 r1 tof cw q v) /\
  (-1 < x < 1 -> D1 lam (tau lam q x) x = 0 -> forall N, (0 <= N <= mr)%Z -> ((exists v, transfer mu r0 r1 tof cw N v) <-> (N <= l_nmax L)%Z)).
Proof.
  intros Hc M H q lam HQ HT HH. destruct (lambert_pos _ _ _ _ _ _ _ H) as [Ht Hm]. destruct (lambert_nmax _ _ _ _ _ _ _ Hc M H) as [Q [TB C]]. fold q lam in Q, TB, C. pose proof (time_unit_pos _ _ _ (lambert_nd _ _ Hc) Hm) as UP. set (tu := time_unit r0 r1 mu) in *.
  assert (LL : lam * lam < 1) by (apply (tl_sq r0 r1 cw Hc)). rewrite (tau_at0N lam) in HT.
  assert (HC : (q <= l_nmax L)%Z <-> tau lam q x <= tof / tu) by (apply (count_halley lam LL (tof / tu) q mr _ (tau lam q x) it ltac:(lia) ltac:(lia)); [apply Rlt_div_l; assumption|exact C|exact HH]).
  assert (FE : -1 < x < 1 -> (q <= l_nmax L)%Z -> exists v, transfer mu r0 r1 tof cw q v).
  { intros X G. apply (transfer_feasible mu r0 r1 cw Hc Hm tof q Ht ltac:(lia)). right. fold lam tu. apply HC in G. destruct (tau_branches lam LL q ltac:(lia)) as [xm [XM [_ [_ [S Mi]]]]]. pose proof (Mi x X). destruct (Req_dec (tof / tu) (tau lam q xm)) as [E|E]; [exists xm; split; [lra|symmetry; exact E]|]. destruct (S (tof / tu) ltac:(lra)) as [a [b [A [B [EA _]]]]]. exists a. split; [lra|exact EA]. }
  split; [rewrite HC; symmetry; apply Rle_div_r; exact UP|]. split; [exact FE|].
  intros X Z N HN. destruct (Z.eq_dec N q) as [->|NQ]; [|exact (revolutions_off r0 r1 tof mu cw mr L Hc M H N HN NQ)]. split; [|exact (FE X)]. intros [v HV]. apply HC.
  assert (F : q = 0%Z \/ exists x0, -1 < x0 < 1 /\ tau lam q x0 = tof / tu) by (apply (transfer_feasible mu r0 r1 cw Hc Hm tof q Ht ltac:(lia)); exists v; exact HV). destruct F as [F|[x0 [X0 E0]]]; [lia|]. rewrite <- E0. apply (stationary_min lam LL q x); try assumption. lia.
Qed.
(** ** the entries: solved exactly, they are the transfers and all of them *)
Lemma entry_v r0 r1 tof mu cw mr L i x : vz (cross r0 r1) <> 0 -> lambert_r r0 r1 tof mu cw mr = Ret L -> nth_error (l_x L) i = Some (Some x) ->
  nth_error (l_v0 L) i = Some (sv (lv0 r0 r1 cw mu x)).
Proof.
  intros Hc H HX. destruct (lambert_pos _ _ _ _ _ _ _ H) as [Ht Hm]. exact (proj1 (lambert_entry r0 r1 tof mu cw mr L i x Hc Ht Hm H HX)).
Qed.
Theorem entry_transfer r0 r1 tof mu cw mr L i x N : vz (cross r0 r1) <> 0 -> lambert_r r0 r1 tof mu cw mr = Ret L -> nth_error (l_x L) i = Some (Some x) ->
  (0 <= N)%Z -> -1 < x -> (1 <= x -> N = 0%Z) -> tau (transfer_lambda r0 r1 cw) N x * time_unit r0 r1 mu = tof ->
  exists v, nth_error (l_v0 L) i = Some (sv v) /\ transfer mu r0 r1 tof cw N v.
Proof.
  intros Hc H HX HN X XN E. destruct (lambert_pos _ _ _ _ _ _ _ H) as [Ht Hm]. exists (lv0 r0 r1 cw mu x). split; [exact (entry_v _ _ _ _ _ _ _ _ _ Hc H HX)|]. apply transfer_iff; try assumption. exists x. repeat split; assumption.
Qed.
Theorem entry_direct r0 r1 tof mu cw mr L x : vz (cross r0 r1) <> 0 -> lambert_r r0 r1 tof mu cw mr = Ret L -> nth_error (l_x L) 0 = Some (Some x) ->
  -1 < x -> tau (transfer_lambda r0 r1 cw) 0 x * time_unit r0 r1 mu = tof ->
  exists v, nth_error (l_v0 L) 0 = Some (sv v) /\ forall v', transfer mu r0 r1 tof cw 0 v' <-> v' = v.
Proof.
  intros Hc H HX X E. destruct (lambert_pos _ _ _ _ _ _ _ H) as [Ht Hm]. destruct (entry_transfer r0 r1 tof mu cw mr L 0 x 0 Hc H HX ltac:(lia) X ltac:(reflexivity) E) as [v [V1 V2]]. exists v. split; [exact V1|]. destruct (direct_transfer mu r0 r1 cw Hc Hm tof Ht) as [u [_ U]].
  intros v'. split; [intros T'; rewrite (U _ T'), (U _ V2); reflexivity|intros ->; exact V2].
Qed.
Theorem entry_pair r0 r1 tof mu cw mr L N xa xb : vz (cross r0 r1) <> 0 -> lambert_r r0 r1 tof mu cw mr = Ret L -> (1 <= N)%Z -> nth_error (l_x L) (Z.to_nat (2 * N - 1)) = Some (Some xa) -> nth_error (l_x L) (Z.to_nat (2 * N)) = Some (Some xb) ->
  -1 < xa < 1 -> -1 < xb < 1 -> xa <> xb -> tau (transfer_lambda r0 r1 cw) N xa * time_unit r0 r1 mu = tof -> tau (transfer_lambda r0 r1 cw) N xb * time_unit r0 r1 mu = tof ->
  exists va vb, nth_error (l_v0 L) (Z.to_nat (2 * N - 1)) = Some (sv va) /\ nth_error (l_v0 L) (Z.to_nat (2 * N)) = Some (sv vb) /\ va <> vb /\ forall v, transfer mu r0 r1 tof cw N v <-> v = va \/ v = vb.
Proof.
  intros Hc H HN HA HB XA XB NE EA EB. destruct (lambert_pos _ _ _ _ _ _ _ H) as [Ht Hm].
  assert (TA : transfer mu r0 r1 tof cw N (lv0 r0 r1 cw mu xa)) by (apply transfer_iff; [assumption|assumption|assumption|lia|]; exists xa; repeat split; lra).
  assert (TB : transfer mu r0 r1 tof cw N (lv0 r0 r1 cw mu xb)) by (apply transfer_iff; [assumption|assumption|assumption|lia|]; exists xb; repeat split; lra).
  assert (ND : lv0 r0 r1 cw mu xa <> lv0 r0 r1 cw mu xb) by (intros E; apply NE; apply (lv0_inj mu r0 r1 cw Hc Hm); [lra|lra|exact E]).
  exists (lv0 r0 r1 cw mu xa), (lv0 r0 r1 cw mu xb). split; [exact (entry_v _ _ _ _ _ _ _ _ _ Hc H HA)|]. split; [exact (entry_v _ _ _ _ _ _ _ _ _ Hc H HB)|]. split; [exact ND|].
  intros v. split; [|intros [->| ->]; assumption]. intros TV. destruct (revolution_transfers mu r0 r1 cw Hc Hm N HN) as [tm [_ R]]. destruct (R tof Ht) as [R1 [R2 R3]]. destruct (Rtotal_order tof tm) as [G|[G|G]].
  - exfalso. exact (R1 G _ TV).
  - destruct (R2 G) as [u [_ U]]. exfalso. apply ND. rewrite (U _ TA), (U _ TB). reflexivity.
  - destruct (R3 G) as [a [b [AB [_ [_ U]]]]]. destruct (U _ TA) as [Ea|Ea], (U _ TB) as [Eb|Eb], (U _ TV) as [Ev|Ev]; rewrite Ea, Eb, Ev in *; try (left; reflexivity); try (right; reflexivity); exfalso; apply ND; reflexivity.
Qed.
(** ** the constructor can report a revolution too many *)
Definition far_r0 : vec := V 25411056 (-252050) 0.
Definition far_r1 : vec := V 25411056 252050 0.
Definition far_mu : R := 25664356 * 25664356 * 25664356 / 2.
Lemma far_s : norm (vsub far_r1 far_r0) = 504100 /\ semiperimeter far_r0 far_r1 = 25664356.
Proof.
  assert (A : norm (vsub far_r1 far_r0) = 504100) by (apply norm_unique; [lra|unfold dot; cbn; ring]). split; [exact A|]. unfold semiperimeter. rewrite A.
  assert (B : norm far_r0 = 25412306) by (apply norm_unique; [lra|unfold dot; cbn; ring]). assert (C : norm far_r1 = 25412306) by (apply norm_unique; [lra|unfold dot; cbn; ring]). rewrite B, C. field.
Qed.
Lemma far_unit : time_unit far_r0 far_r1 far_mu = 1.
Proof. unfold time_unit, far_mu. destruct far_s as [_ ->]. replace (_ / _) with 1 by field. apply sqrt_1. Qed.
Lemma far_cross : vz (cross far_r0 far_r1) = 25411056 * 504100. Proof. cbn. ring. Qed.
Lemma far_lambda : transfer_lambda far_r0 far_r1 true = - (2508 / 2533).
Proof.
  unfold transfer_lambda. destruct far_s as [-> ->]. rewrite far_cross. cbv zeta. replace (1 - 504100 / 25664356) with ((2508 / 2533) * (2508 / 2533)) by field. rewrite sqrt_square by lra. destruct (Rlt_dec 0 _) as [H|H]; lra.
Qed.
Lemma far_start : 4 < start (- (2508 / 2533)) 1 <= 17 / 4.
Proof.
  unfold start. rewrite <- tau_at0N. replace (1 - - (2508 / 2533) * - (2508 / 2533)) with ((355 / 2533) * (355 / 2533)) by field. rewrite sqrt_square by lra. rewrite acos_opp.
  assert (E : acos (2508 / 2533) = 2 * atan (5 / 71)). { replace (2508 / 2533) with (cos (2 * atan (5 / 71))) by (rewrite cos_2atan; field). assert (0 < atan (5 / 71)) by (rewrite <- atan_0; apply atan_increasing; lra). pose proof (atan_bound (5 / 71)). apply acos_cos. lra. }
  assert (UB : atan (5 / 71) <= 5 / 71). { destruct (MVT_cor2 atan (fun c => / (1 + c ^ 2)) 0 (5 / 71) ltac:(lra)) as [c [EQ C]]; [intros c _; apply derivable_pt_lim_atan|]. rewrite atan_0 in EQ. assert (/ (1 + c ^ 2) <= 1) by (rewrite <- Rinv_1; apply Rinv_le_contravar; [lra|]; pose proof (pow2_ge_0 c); lra). lra. }
  assert (LB : 355 / 2533 <= 2 * atan (5 / 71)). { assert (0 < atan (5 / 71)) by (rewrite <- atan_0; apply atan_increasing; lra). pose proof (sin_lt_x (2 * atan (5 / 71)) ltac:(lra)) as S. rewrite sin_2atan in S. lra. }
  rewrite E. pose proof pi_bounds as PB. lra.
Qed.
Theorem revolutions_refuted : exists r0 r1 tof mu L, vz (cross r0 r1) <> 0 /\ lambert_r r0 r1 tof mu true 1 = Ret L /\ l_nmax L = 1%Z /\
  forall v, ~ transfer mu r0 r1 tof true 1 v.
Proof.
  assert (Hc : vz (cross far_r0 far_r1) <> 0) by (rewrite far_cross; lra). assert (Hm : 0 < far_mu) by (unfold far_mu; lra). assert (MR : (0 <= 1 < u32)%Z) by (unfold u32; lia). pose proof pi_bounds as PB.
  assert (Q : Int_part (7 / 2 / 1 / PI) = 1%Z). { symmetry. apply int_part_spec. split; [apply Rplus_lt_reg_r with 1; replace (7 / 2 / 1 / PI - 1 + 1) with (7 / 2 / PI) by (field; lra); apply Rlt_div_l; lra|]. replace (7 / 2 / 1 / PI) with (7 / 2 / PI) by (field; lra). apply Rle_div_r; lra. }
  destruct (lambert_run far_r0 far_r1 (7 / 2) far_mu true 1 Hc ltac:(lra) Hm MR) as [RN _]. rewrite far_unit in RN. destruct RN as [L H]; [apply Rlt_div_l; unfold u32; cbv [Z.pow Z.pow_pos Pos.iter Z.mul Pos.mul]; lra|].
  exists far_r0, far_r1, (7 / 2), far_mu, L. split; [exact Hc|]. split; [exact H|]. destruct (lambert_nmax _ _ _ _ _ _ _ Hc MR H) as [_ [_ C]]. rewrite far_unit, far_lambda, Q in C. rewrite (escape_count (- (2508 / 2533)) ltac:(lra) ltac:(lra) 1 (7 / 2 / 1) 1 ltac:(lia) ltac:(lia) far_start ltac:(lra)) in C. split; [congruence|].
  intros v HV. assert (F : 1%Z = 0%Z \/ exists x, -1 < x < 1 /\ tau (transfer_lambda far_r0 far_r1 true) 1 x = 7 / 2 / time_unit far_r0 far_r1 far_mu) by (apply (transfer_feasible far_mu far_r0 far_r1 true Hc Hm (7 / 2) 1 ltac:(lra) ltac:(lia)); exists v; exact HV).
  destruct F as [F|[x [X E]]]; [discriminate|]. rewrite far_lambda, far_unit in E. pose proof (tau_low (- (2508 / 2533)) ltac:(lra) 1 x ltac:(lra) ltac:(lia) X). lra.
Qed.
Lemma ex_revolutions : exists L, lambert_r ex_r0 ex_r1 21 32000 false 10 = Ret L /\ l_nmax L = 6%Z /\ forall N, (0 <= N <= 10)%Z -> ((exists v, transfer 32000 ex_r0 ex_r1 21 false N v) <-> (N <= 6)%Z).
Proof.
  assert (Hc : vz (cross ex_r0 ex_r1) <> 0) by (rewrite ex_cross; lra). assert (MR : (0 <= 10 < u32)%Z) by (unfold u32; lia). pose proof pi_bounds as PB.
  assert (Q : Int_part (21 / 1 / PI) = 6%Z). { symmetry. apply int_part_spec. split; [apply Rplus_lt_reg_r with 1; replace (21 / 1 / PI - 1 + 1) with (21 / PI) by (field; lra); apply Rlt_div_l; lra|]. replace (21 / 1 / PI) with (21 / PI) by (field; lra). apply (Rle_div_r 6 21 PI); lra. }
  destruct (lambert_run ex_r0 ex_r1 21 32000 false 10 Hc ltac:(lra) ltac:(lra) MR) as [RN _]. rewrite ex_unit in RN. destruct RN as [L H]; [apply Rlt_div_l; unfold u32; cbv [Z.pow Z.pow_pos Pos.iter Z.mul Pos.mul]; lra|].
  assert (E1 : acos (1 / 2) = PI / 3) by (rewrite <- cos_PI3; apply acos_cos; lra). assert (S : sqrt (1 - 1 / 2 * (1 / 2)) <= 1) by (apply Rle_trans with (sqrt 1); [apply sqrt_le_1_alt; lra|rewrite sqrt_1; lra]).
  assert (HT : tau (1 / 2) 6 0 <= 21) by (rewrite <- tau_at0N, E1; lra).
  destruct (lambert_nmax _ _ _ _ _ _ _ Hc MR H) as [QB [TB C]]. rewrite ex_unit, ex_lambda, Q in *. cbn match in C.
  assert (NM : l_nmax L = 6%Z). { pose proof (count_plain (1 / 2) ltac:(lra) (21 / 1) 6 10 ltac:(lia) ltac:(lia)) as CP. change (Z.min 10 6) with 6%Z in CP. rewrite CP in C by lra. congruence. }
  exists L. split; [exact H|]. split; [exact NM|]. intros N HN. rewrite <- NM. apply (revolutions_at ex_r0 ex_r1 21 32000 false 10 L Hc MR H); [|exact HN]. right. rewrite ex_unit, Q, ex_lambda, tau_at0N. lra.
Qed.
