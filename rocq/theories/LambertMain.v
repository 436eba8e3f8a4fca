(** * Lambert's problem: the constructor over the real numbers *)
From Coq Require Import Reals ZArith Lra Lia Bool List.
From Coquelicot Require Import Coquelicot.
From Verif Require Import Outcome PartialReal RealLib Vec3 TwoBodySpec ElemProofs LambertModel LambertReal LambertProofs LambertSpec LambertTime LambertVec LambertTof LambertDer LambertMono.
Import ListNotations.
Open Scope R_scope.

Lemma norm_vzero : norm vzero = 0.
Proof. apply norm_unique; [lra|unfold dot, vzero; cbn [vx vy vz]; ring]. Qed.
Lemma int_part_spec x n : x - 1 < IZR n <= x -> n = Int_part x.
Proof. intros H. destruct (base_Int_part x) as [A B]. assert (IZR n < IZR (Int_part x) + 1) by lra. assert (IZR (Int_part x) < IZR n + 1) by lra. rewrite <- succ_IZR in *. apply lt_IZR in H0. apply lt_IZR in H1. lia. Qed.
Lemma r_u32_ok : u32_ok RA.
Proof.
  intros [x|] n H; [|discriminate H]. change (r_u32 x = Ret n) in H. unfold r_u32 in H. destruct (Rle_dec 0 x) as [A|A].
  - destruct (Rlt_dec x (IZR u32)) as [B|B]; [|discriminate H]. injection H as <-. destruct (base_Int_part x) as [C D]. split.
    + apply Z.lt_succ_r. apply lt_IZR. rewrite succ_IZR. lra.
    + apply lt_IZR. lra.
  - destruct (Rlt_dec (-1) x); [|discriminate H]. injection H as <-. unfold u32. lia.
Qed.
Lemma r_u32_throw x e : f_u32 RA x <> Throw e.
Proof. destruct x as [x|]; cbn; [|discriminate]. unfold r_u32. destruct (Rle_dec 0 x); [destruct (Rlt_dec x (IZR u32)); discriminate|destruct (Rlt_dec (-1) x); discriminate]. Qed.
Lemma time_unit_pos r0 r1 mu : 0 < semiperimeter r0 r1 -> 0 < mu -> 0 < time_unit r0 r1 mu.
Proof. intros S M. unfold time_unit. generalize dependent (semiperimeter r0 r1). intros s S. apply sqrt_lt_R0, Rdiv_lt_0_compat; [repeat apply Rmult_lt_0_compat; exact S|lra]. Qed.
Lemma nd_time_r r0 r1 mu tof : 0 < semiperimeter r0 r1 -> 0 < mu -> nd_time RA (Some (semiperimeter r0 r1)) (Some mu) (Some tof) = Some (tof / time_unit r0 r1 mu).
Proof.
  intros S M. unfold nd_time. rewrite nat_r, mul_r, !div_r by lra. set (s := semiperimeter r0 r1) in *. assert (P : 0 < 2 * mu / s / s / s) by (repeat (apply Rdiv_lt_0_compat; [|exact S]); lra).
  rewrite sqrt_r, mul_r by lra. f_equal. unfold time_unit. fold s. unfold Rdiv at 4. rewrite Rmult_comm. f_equal. rewrite <- sqrt_inv. f_equal. field. lra.
Qed.
Lemma lambert_nd r0 r1 : vz (cross r0 r1) <> 0 -> 0 < semiperimeter r0 r1. Proof. exact (s_pos r0 r1). Qed.
Lemma tl_sq r0 r1 cw : vz (cross r0 r1) <> 0 -> transfer_lambda r0 r1 cw * transfer_lambda r0 r1 cw = 1 - norm (vsub r1 r0) / semiperimeter r0 r1 /\ 0 < transfer_lambda r0 r1 cw * transfer_lambda r0 r1 cw < 1.
Proof. intros H. rewrite <- (lam_eq r0 r1 cw H). rewrite (lam_sq r0 r1 cw H). split; [reflexivity|exact (l2_pos r0 r1 H)]. Qed.
Definition solved (r0 r1 : vec) (tof mu : R) (cw : bool) (q mr : Z) : outcome (list (option R) * list Z * Z) :=
  solve RA (Some (transfer_lambda r0 r1 cw)) (Some (transfer_lambda r0 r1 cw * transfer_lambda r0 r1 cw)) (Some (tof / time_unit r0 r1 mu)) q mr.
Lemma lambert_r_eq r0 r1 tof mu cw mr : vz (cross r0 r1) <> 0 -> 0 < tof -> 0 < mu ->
  lambert_r r0 r1 tof mu cw mr = bind (r_u32 (tof / time_unit r0 r1 mu / PI)) (fun q => bind (solved r0 r1 tof mu cw q mr) (fun m =>
    Ret (mk_lambert (map (fun x => fst (vels RA (sv r0) (sv r1) (Some mu) cw x)) (fst (fst m))) (map (fun x => snd (vels RA (sv r0) (sv r1) (Some mu) cw x)) (fst (fst m)))
      (fst (fst m)) (snd (fst m)) (snd m) (Some (semiperimeter r0 r1)) (Some (norm (vsub r1 r0))) (Some (transfer_lambda r0 r1 cw))))).
Proof.
  intros Hc Ht Hm. unfold lambert_r. rewrite lambert_eq. rewrite (semi_r r0 r1), (lam2_r r0 r1 Hc), (plane_r r0 r1 Hc), (frame_r r0 r1 cw Hc), (lam_eq r0 r1 cw Hc), v3sub_r, norm_r, v3z_r, nat_r, !le_r, eq_r.
  change ((norm (vsub r1 r0) + norm r0 + norm r1) / 2) with (semiperimeter r0 r1). rewrite <- (proj1 (tl_sq r0 r1 cw Hc)).
  destruct (Rle_dec tof 0) as [|_]; [lra|]. destruct (Rle_dec mu 0) as [|_]; [lra|]. destruct (Req_EM_T _ 0) as [E|_]; [exfalso; exact (ih_z_nz r0 r1 Hc E)|].
  rewrite (nd_time_r r0 r1 mu tof (lambert_nd _ _ Hc) Hm). change (f_pi RA) with (Some PI). rewrite div_r by (pose proof PI_RGT_0; lra). reflexivity.
Qed.
(** every entry is the pair of terminal velocities of its x *)
Lemma lambert_entry r0 r1 tof mu cw mr L i x : vz (cross r0 r1) <> 0 -> 0 < tof -> 0 < mu -> lambert_r r0 r1 tof mu cw mr = Ret L -> nth_error (l_x L) i = Some (Some x) ->
  nth_error (l_v0 L) i = Some (sv (lv0 r0 r1 cw mu x)) /\ nth_error (l_v1 L) i = Some (sv (lv1 r0 r1 cw mu x)).
Proof.
  intros Hc Ht Hm H HX. rewrite lambert_r_eq in H by assumption. destruct (r_u32 _) as [q| |]; cbn [bind] in H; try discriminate. destruct (solved _ _ _ _ _ _ _) as [m| |]; cbn [bind] in H; try discriminate. injection H as <-. cbn [l_x l_v0 l_v1] in *.
  split; erewrite map_nth_error by exact HX; rewrite (vels_r r0 r1 cw Hc mu x Hm); reflexivity.
Qed.
Lemma lambert_pos r0 r1 tof mu cw mr L : lambert_r r0 r1 tof mu cw mr = Ret L -> 0 < tof /\ 0 < mu.
Proof. unfold lambert_r. rewrite lambert_eq, nat_r, !le_r. destruct (Rle_dec tof 0); [discriminate|]. destruct (Rle_dec mu 0); [discriminate|]. intros _. lra. Qed.
Theorem lambert_conic r0 r1 tof mu cw mr L i x : vz (cross r0 r1) <> 0 -> lambert_r r0 r1 tof mu cw mr = Ret L -> nth_error (l_x L) i = Some (Some x) ->
  exists v0 v1, nth_error (l_v0 L) i = Some (sv v0) /\ nth_error (l_v1 L) i = Some (sv v1) /\ same_integrals mu (r0, v0) (r1, v1) /\
    energy mu (r0, v0) = - mu * (1 - x * x) / semiperimeter r0 r1 /\ 0 < (if cw then -1 else 1) * vz (ang_mom (r0, v0)).
Proof.
  intros Hc H HX. destruct (lambert_pos _ _ _ _ _ _ _ H) as [Ht Hm]. destruct (lambert_entry _ _ _ _ _ _ _ _ _ Hc Ht Hm H HX) as [A B]. exists (lv0 r0 r1 cw mu x), (lv1 r0 r1 cw mu x). split; [exact A|]. split; [exact B|].
  split; [exact (same_conic r0 r1 cw Hc mu x Hm)|]. split; [exact (en0 r0 r1 cw Hc mu x Hm)|exact (h_dir r0 r1 cw Hc mu x Hm)].
Qed.
Theorem lambert_flow r0 r1 tof mu cw mr L i x : vz (cross r0 r1) <> 0 -> lambert_r r0 r1 tof mu cw mr = Ret L -> nth_error (l_x L) i = Some (Some x) ->
  let N := ((Z.of_nat i + 1) / 2)%Z in -1 < x -> (1 <= x -> N = 0%Z) ->
  exists v0 v1, nth_error (l_v0 L) i = Some (sv v0) /\ nth_error (l_v1 L) i = Some (sv v1) /\
    flow_at mu (r0, v0) (tau (transfer_lambda r0 r1 cw) N x * time_unit r0 r1 mu) (r1, v1).
Proof.
  intros Hc H HX N X HN. destruct (lambert_pos _ _ _ _ _ _ _ H) as [Ht Hm]. destruct (lambert_entry _ _ _ _ _ _ _ _ _ Hc Ht Hm H HX) as [A B]. exists (lv0 r0 r1 cw mu x), (lv1 r0 r1 cw mu x). split; [exact A|]. split; [exact B|].
  rewrite <- (lam_eq r0 r1 cw Hc). apply (arrives r0 r1 cw Hc mu x Hm N X); [|exact HN]. unfold N. apply Z.div_pos; lia.
Qed.
Theorem lambert_solves r0 r1 tof mu cw mr L i x : vz (cross r0 r1) <> 0 -> lambert_r r0 r1 tof mu cw mr = Ret L -> nth_error (l_x L) i = Some (Some x) ->
  let N := ((Z.of_nat i + 1) / 2)%Z in -1 < x -> (1 < x -> N = 0%Z) ->
  x2tof RA (l_lambda L) (Some x) N = Ret (nd_time RA (l_s L) (Some mu) (Some tof)) ->
  exists v0 v1 t, nth_error (l_v0 L) i = Some (sv v0) /\ nth_error (l_v1 L) i = Some (sv v1) /\ flow_at mu (r0, v0) t (r1, v1) /\
    Rabs (t - tof) <= 3 / 1000000000000 * time_unit r0 r1 mu /\ (1 / 100 <= Rabs (x - 1) -> t = tof).
Proof.
  intros Hc H HX N X HN E. destruct (lambert_pos _ _ _ _ _ _ _ H) as [Ht Hm]. pose proof (time_unit_pos _ _ _ (lambert_nd _ _ Hc) Hm) as UP.
  assert (EL : l_lambda L = Some (transfer_lambda r0 r1 cw) /\ l_s L = Some (semiperimeter r0 r1)).
  { pose proof H as G. rewrite lambert_r_eq in G by assumption. destruct (r_u32 _) as [q| |]; cbn [bind] in G; try discriminate. destruct (solved _ _ _ _ _ _ _) as [m| |]; cbn [bind] in G; try discriminate. injection G as <-. split; reflexivity. }
  destruct EL as [E1 E2]. rewrite E1, E2, (nd_time_r r0 r1 mu tof (lambert_nd _ _ Hc) Hm) in E. set (lam := transfer_lambda r0 r1 cw) in *.
  assert (L1 : lam * lam < 1) by (apply (tl_sq r0 r1 cw Hc)). destruct (Req_dec x 1) as [X1|X1]; [rewrite (x2tof_one lam L1 x N X1) in E; discriminate E|].
  destruct (x2tof_tau lam L1 x N X X1 HN) as [t [T1 [T2 T3]]]. rewrite T1 in E. assert (Et : t = tof / time_unit r0 r1 mu) by congruence.
  destruct (lambert_flow _ _ _ _ _ _ _ _ _ Hc H HX X ltac:(intros; apply HN; lra)) as [v0 [v1 [A [B C]]]]. fold N lam in C. exists v0, v1, (tau lam N x * time_unit r0 r1 mu). split; [exact A|]. split; [exact B|]. split; [exact C|].
  assert (Q : tof = t * time_unit r0 r1 mu) by (rewrite Et; field; lra). split.
  - replace (tau lam N x * time_unit r0 r1 mu - tof) with (- (t - tau lam N x) * time_unit r0 r1 mu) by (rewrite Q; ring). rewrite Rabs_mult, Rabs_Ropp, (Rabs_right (time_unit r0 r1 mu)) by lra. apply Rmult_le_compat_r; lra.
  - intros F. rewrite Q, (T3 F). reflexivity.
Qed.
(** complete revolutions *)
Lemma sma_time r0 r1 mu v0 x : 0 < semiperimeter r0 r1 -> 0 < mu -> -1 < x < 1 -> energy mu (r0, v0) = - mu * (1 - x * x) / semiperimeter r0 r1 ->
  period mu (r0, v0) * (sqrt (1 - x * x) * sqrt (1 - x * x) * sqrt (1 - x * x)) = PI * time_unit r0 r1 mu.
Proof.
  intros S M X E. destruct (w_sq x X) as [WP W]. unfold period, sma, time_unit. rewrite E. clear E. generalize dependent (semiperimeter r0 r1). intros s S. set (w := sqrt (1 - x * x)) in *. rewrite <- W.
  replace ((- mu / (2 * (- mu * (w * w) / s))) ^ 3 / mu) with ((s * s * s / (2 * mu)) * ((/ (2 * (w * w * w))) * (/ (2 * (w * w * w))))) by (field; lra).
  assert (W3 : 0 < w * w * w) by (repeat apply Rmult_lt_0_compat; exact WP). assert (I : 0 < / (2 * (w * w * w))) by (apply Rinv_0_lt_compat; lra).
  rewrite sqrt_mult_alt by (apply Rlt_le, Rdiv_lt_0_compat; [repeat apply Rmult_lt_0_compat; exact S|lra]). rewrite sqrt_square by lra. field. lra.
Qed.
Theorem lambert_turns r0 r1 tof mu cw mr L i x : vz (cross r0 r1) <> 0 -> lambert_r r0 r1 tof mu cw mr = Ret L -> nth_error (l_x L) i = Some (Some x) ->
  let N := ((Z.of_nat i + 1) / 2)%Z in -1 < x < 1 ->
  exists v0 v1 t, nth_error (l_v0 L) i = Some (sv v0) /\ nth_error (l_v1 L) i = Some (sv v1) /\ flow_at mu (r0, v0) t (r1, v1) /\ IZR N * period mu (r0, v0) < t < (IZR N + 1) * period mu (r0, v0).
Proof.
  intros Hc H HX N X. destruct (lambert_pos _ _ _ _ _ _ _ H) as [Ht Hm]. pose proof (lambert_nd _ _ Hc) as SP. pose proof (time_unit_pos _ _ _ SP Hm) as UP.
  destruct (lambert_flow _ _ _ _ _ _ _ _ _ Hc H HX ltac:(lra) ltac:(intros; lra)) as [v0 [v1 [A [B C]]]]. destruct (lambert_conic _ _ _ _ _ _ _ _ _ Hc H HX) as [v0' [v1' [A' [B' [_ [E _]]]]]]. rewrite A in A'.
  assert (V : v0' = v0). { injection A' as Q1 Q2 Q3. destruct v0, v0'. cbn in *. congruence. } subst v0'.
  fold N in C. exists v0, v1, (tau (transfer_lambda r0 r1 cw) N x * time_unit r0 r1 mu). split; [exact A|]. split; [exact B|]. split; [exact C|].
  pose proof (sma_time r0 r1 mu v0 x SP Hm X E) as P. destruct (tau_revs (transfer_lambda r0 r1 cw) ltac:(apply (tl_sq r0 r1 cw Hc)) N x X) as [T1 T2]. destruct (w_sq x X) as [WP W]. set (w := sqrt (1 - x * x)) in *. set (tt := tau _ N x) in *. set (p := period mu (r0, v0)) in *. set (tu := time_unit r0 r1 mu) in *.
  assert (W3 : 0 < w * w * w) by (repeat apply Rmult_lt_0_compat; exact WP). split.
  - apply (Rmult_lt_reg_r (w * w * w)); [exact W3|]. replace (IZR N * p * (w * w * w)) with (IZR N * (p * (w * w * w))) by ring. rewrite P. replace (tt * tu * (w * w * w)) with (tu * (tt * (w * w * w))) by ring. replace (IZR N * (PI * tu)) with (tu * (IZR N * PI)) by ring. apply Rmult_lt_compat_l; assumption.
  - apply (Rmult_lt_reg_r (w * w * w)); [exact W3|]. replace ((IZR N + 1) * p * (w * w * w)) with ((IZR N + 1) * (p * (w * w * w))) by ring. rewrite P. replace (tt * tu * (w * w * w)) with (tu * (tt * (w * w * w))) by ring. replace ((IZR N + 1) * (PI * tu)) with (tu * ((IZR N + 1) * PI)) by ring. apply Rmult_lt_compat_l; assumption.
Qed.
(** the bound on the number of revolutions *)
Theorem revs_feasible lam N T : lam * lam < 1 -> (1 <= N)%Z -> (IZR N + 1) * PI <= T -> exists a b, -1 < a < b /\ b < 1 /\ tau lam N a = T /\ tau lam N b = T /\ forall x, -1 < x < 1 -> tau lam N x = T -> x = a \/ x = b.
Proof.
  intros L HN HT. destruct (tau_branches lam L N HN) as [xm [X [_ [_ [S M]]]]]. destruct (tau_revs lam L N 0 ltac:(lra)) as [_ U]. replace (1 - 0 * 0) with 1 in U by ring. rewrite sqrt_1 in U. pose proof (M 0 ltac:(lra)).
  destruct (S T ltac:(lra)) as [a [b [A [B [C [D E]]]]]]. exists a, b. repeat split; try lra. exact E.
Qed.
Theorem revs_infeasible lam N T x : lam * lam < 1 -> (0 <= N)%Z -> T <= IZR N * PI -> -1 < x < 1 -> tau lam N x <> T.
Proof.
  intros L HN HT X E. destruct (tau_revs lam L N x X) as [U _]. destruct (w_sq x X) as [WP W]. set (w := sqrt (1 - x * x)) in *. rewrite E in U. pose proof PI_RGT_0. apply IZR_le in HN. assert (0 <= IZR N * PI) by (apply Rmult_le_pos; lra).
  assert (W1 : w <= 1) by nra. assert (W3 : 0 < w * w * w) by (repeat apply Rmult_lt_0_compat; exact WP). assert (w * w * w <= 1) by nra. nra.
Qed.
(** ** which outcome *)
Lemma lambert_run r0 r1 tof mu cw mr : vz (cross r0 r1) <> 0 -> 0 < tof -> 0 < mu -> (0 <= mr < u32)%Z ->
  (tof / time_unit r0 r1 mu / PI < IZR u32 -> exists L, lambert_r r0 r1 tof mu cw mr = Ret L) /\ (IZR u32 <= tof / time_unit r0 r1 mu / PI -> lambert_r r0 r1 tof mu cw mr = UB).
Proof.
  intros Hc Ht Hm M. pose proof (time_unit_pos _ _ _ (lambert_nd _ _ Hc) Hm) as UP. pose proof PI_RGT_0 as PP. assert (TP : 0 <= tof / time_unit r0 r1 mu / PI) by (apply Rlt_le; repeat apply Rdiv_lt_0_compat; assumption).
  rewrite lambert_r_eq by assumption. split; intros B.
  - destruct (r_u32 _) as [q|e|] eqn:E.
    + cbn [bind]. pose proof (r_u32_ok (Some _) q E) as Q. destruct (solve_cases RA (Some (transfer_lambda r0 r1 cw)) (Some (transfer_lambda r0 r1 cw * transfer_lambda r0 r1 cw)) (Some (tof / time_unit r0 r1 mu)) q mr Q M) as [[xs [its [n [S _]]]]|[_ [x [k X]]]].
      * unfold solved. rewrite S. cbn [bind]. eexists. reflexivity.
      * exfalso. destruct (x2tof_total (transfer_lambda r0 r1 cw) ltac:(apply (tl_sq r0 r1 cw Hc)) x k) as [o O]. congruence.
    + exfalso. exact (r_u32_throw (Some _) e E).
    + exfalso. unfold r_u32 in E. destruct (Rle_dec 0 _); [|lra]. destruct (Rlt_dec _ (IZR u32)); [discriminate E|lra].
  - unfold r_u32. destruct (Rle_dec 0 _) as [_|]; [|lra]. destruct (Rlt_dec _ (IZR u32)); [lra|reflexivity].
Qed.
Lemma plane_z r0 r1 : LambertModel.f_eq RA (v3z (plane RA (sv r0) (sv r1))) (nat_ RA 0) = true <-> cross r0 r1 <> vzero /\ vz (cross r0 r1) = 0.
Proof.
  unfold plane. cbv zeta. rewrite !norm_r, nat_r.
  assert (Z : forall v a b, v3cross RA v (None, None, None) = (None, None, None) /\ v3cross RA (None, None, None) v = (None, None, None) /\ v3div RA (None, None, None) (f_norm RA (None, None, None)) = (None, None, None) /\ (norm a = 0 -> v3div RA (sv b) (Some (norm a)) = (None, None, None))).
  { intros [[v1 v2] v3] a b. repeat split; [destruct v1, v2, v3; reflexivity..|]. intros E. unfold v3div, sv. cbn. rewrite E. rewrite !pdiv_none. reflexivity. }
  destruct (Req_dec (norm r0) 0) as [E0|E0].
  { destruct (Z (sv r0) r0 r0) as [_ [_ [_ Q]]]. rewrite (Q E0). destruct (Z (v3div RA (sv r1) (Some (norm r1))) r0 r0) as [_ [-> [-> _]]]. cbn. split; [discriminate|]. intros [N _]. exfalso. apply N. rewrite (norm_zero _ E0). vring. }
  destruct (Req_dec (norm r1) 0) as [E1|E1].
  { destruct (Z (sv r0) r1 r1) as [_ [_ [_ Q]]]. rewrite (Q E1). destruct (Z (v3div RA (sv r0) (Some (norm r0))) r0 r0) as [-> [_ [-> _]]]. cbn. split; [discriminate|]. intros [N _]. exfalso. apply N. rewrite (norm_zero _ E1). vring. }
  rewrite !v3div_r, v3cross_r, norm_r by assumption.
  assert (EQ : cross (vscal (/ norm r0) r0) (vscal (/ norm r1) r1) = vscal (/ norm r0 * / norm r1) (cross r0 r1)) by vring. rewrite EQ. set (k := / norm r0 * / norm r1). assert (K : k <> 0) by (apply Rmult_integral_contrapositive_currified; apply Rinv_neq_0_compat; assumption).
  destruct (Req_dec (norm (vscal k (cross r0 r1))) 0) as [E2|E2].
  - destruct (Z (sv r0) (vscal k (cross r0 r1)) (vscal k (cross r0 r1))) as [_ [_ [_ Q]]]. rewrite (Q E2). cbn. split; [discriminate|]. intros [N _]. exfalso. apply N. apply norm_zero in E2. assert (F : vscal (/ k) (vscal k (cross r0 r1)) = vzero) by (rewrite E2; vring). rewrite vscal_vscal, Rinv_l, vscal_1 in F by exact K. exact F.
  - rewrite v3div_r, v3z_r, eq_r by exact E2. change (vz (vscal (/ norm (vscal k (cross r0 r1))) (vscal k (cross r0 r1)))) with (/ norm (vscal k (cross r0 r1)) * (k * vz (cross r0 r1))). apply Rinv_neq_0_compat in E2. destruct (Req_EM_T _ 0) as [G|G].
    + split; [intros _|reflexivity]. split; [intros C; apply E2; rewrite C; replace (vscal k vzero) with vzero by vring; rewrite norm_vzero; apply Rinv_0|]. apply Rmult_integral in G. destruct G as [G|G]; [contradiction|]. apply Rmult_integral in G. destruct G; [contradiction|assumption].
    + split; [discriminate|]. intros [_ C]. exfalso. apply G. rewrite C. ring.
Qed.
Theorem lambert_rejects r0 r1 tof mu cw mr : (0 <= mr < u32)%Z ->
  (lambert_r r0 r1 tof mu cw mr = Throw DomainError <-> tof <= 0 \/ mu <= 0 \/ (cross r0 r1 <> vzero /\ vz (cross r0 r1) = 0)) /\ (forall e, lambert_r r0 r1 tof mu cw mr = Throw e -> e = DomainError).
Proof.
  intros M. split; [split|].
  - intros H. destruct (lambert_throws RA _ _ _ _ _ _ _ r_u32_ok r_u32_throw M H) as [_ [A|[A|A]]]; [left|right; left|right; right; apply plane_z; exact A]; rewrite nat_r, le_r in A; destruct (Rle_dec _ 0); [assumption|discriminate|assumption|discriminate].
  - unfold lambert_r. rewrite lambert_eq. intros [H|[H|H]].
    + rewrite nat_r, le_r. destruct (Rle_dec tof 0); [reflexivity|contradiction].
    + rewrite nat_r, !le_r. destruct (Rle_dec tof 0); [reflexivity|]. destruct (Rle_dec mu 0); [reflexivity|contradiction].
    + apply plane_z in H. rewrite H. destruct (f_le RA _ _); [reflexivity|]. destruct (f_le RA _ _); reflexivity.
  - intros e H. exact (proj1 (lambert_throws RA _ _ _ _ _ _ _ r_u32_ok r_u32_throw M H)).
Qed.
(** ** NaN answers *)
Definition nan3 : option R * option R * option R := (None, None, None).
Lemma v3lin_nan a u b : v3lin RA a u b nan3 = nan3.
Proof. destruct u as [[u1 u2] u3]. unfold v3lin, nan3. cbn. destruct a as [a|], b as [b|], u1 as [u1|], u2 as [u2|], u3 as [u3|]; reflexivity. Qed.
Theorem lambert_collinear r0 r1 tof mu cw mr : cross r0 r1 = vzero -> r0 <> vzero -> r1 <> vzero -> r0 <> r1 -> 0 < tof -> 0 < mu -> (0 <= mr < u32)%Z -> tof / time_unit r0 r1 mu / PI < IZR u32 ->
  exists L, lambert_r r0 r1 tof mu cw mr = Ret L /\ l_v0 L <> [] /\ List.Forall (fun v => v = nan3) (l_v0 L) /\ List.Forall (fun v => v = nan3) (l_v1 L).
Proof.
  intros Hc H0 H1 H01 Ht Hm M TB. apply norm_pos in H0, H1. assert (CP : 0 < norm (vsub r1 r0)). { apply norm_pos. intros E. apply H01. replace r1 with (vadd (vsub r1 r0) r0) by vring. rewrite E. vring. }
  assert (SP : 0 < semiperimeter r0 r1) by (unfold semiperimeter; lra).
  assert (TR : norm (vsub r1 r0) <= norm r0 + norm r1). { pose proof (norm_triangle r1 (vneg r0)) as Q. replace (vadd r1 (vneg r0)) with (vsub r1 r0) in Q by vring. replace (vneg r0) with (vscal (-1) r0) in Q by vring. rewrite norm_vscal, (Rabs_left (-1)) in Q by lra. lra. }
  assert (L2 : 0 <= 1 - norm (vsub r1 r0) / semiperimeter r0 r1 < 1). { assert (P : 0 < norm (vsub r1 r0) / semiperimeter r0 r1) by (apply Rdiv_lt_0_compat; assumption). split; [|lra]. assert (norm (vsub r1 r0) / semiperimeter r0 r1 <= 1); [|lra]. apply Rle_div_l; [exact SP|]. unfold semiperimeter. lra. }
  set (l2 := 1 - norm (vsub r1 r0) / semiperimeter r0 r1) in *.
  assert (PL : plane RA (sv r0) (sv r1) = nan3).
  { unfold plane. cbv zeta. rewrite !norm_r, !v3div_r, v3cross_r by lra. replace (cross (vscal (/ norm r0) r0) (vscal (/ norm r1) r1)) with (vscal (/ norm r0 * / norm r1) (cross r0 r1)) by vring. rewrite Hc. replace (vscal (/ norm r0 * / norm r1) vzero) with vzero by vring. rewrite norm_r. rewrite norm_vzero. unfold v3div, sv. cbn. rewrite !pdiv_none. reflexivity. }
  assert (SR : semi RA (sv r0) (sv r1) = Some (semiperimeter r0 r1)) by (unfold semi; rewrite v3sub_r, !norm_r, nat_r, !add_r, div_r by lra; reflexivity).
  assert (LR : lam2 RA (sv r0) (sv r1) = Some l2) by (unfold lam2; rewrite SR, v3sub_r, norm_r, nat_r, div_r, sub_r by lra; reflexivity).
  assert (N3 : forall v, v3cross RA nan3 v = nan3) by (intros [[a b] c]; destruct a, b, c; reflexivity).
  assert (FR : frame RA (sv r0) (sv r1) cw = (Some (if cw then - sqrt l2 else sqrt l2), nan3, nan3)).
  { unfold frame. cbv zeta. rewrite PL, LR, !N3, sqrt_r by lra. destruct cw; reflexivity. }
  set (lam := if cw then - sqrt l2 else sqrt l2) in *. assert (LL : lam * lam < 1). { assert (lam * lam = l2) by (unfold lam; pose proof (sqrt_sqrt l2 ltac:(lra)); destruct cw; lra). lra. }
  unfold lambert_r. rewrite lambert_eq, PL, SR, LR, FR, (nd_time_r r0 r1 mu tof SP Hm), nat_r, !le_r. cbn [fst snd]. destruct (Rle_dec tof 0); [lra|]. destruct (Rle_dec mu 0); [lra|]. change (LambertModel.f_eq RA (v3z nan3) (Some 0)) with false. cbv iota.
  change (f_pi RA) with (Some PI). pose proof PI_RGT_0 as PP. pose proof (time_unit_pos _ _ _ SP Hm) as UP. rewrite div_r by lra.
  assert (TP : 0 <= tof / time_unit r0 r1 mu / PI) by (apply Rlt_le; repeat apply Rdiv_lt_0_compat; assumption).
  assert (U : exists q, f_u32 RA (Some (tof / time_unit r0 r1 mu / PI)) = Ret q). { cbn. unfold r_u32. destruct (Rle_dec 0 _) as [_|]; [|lra]. destruct (Rlt_dec _ (IZR u32)) as [_|]; [|lra]. eexists. reflexivity. }
  destruct U as [q U]. rewrite U. cbn [bind]. pose proof (r_u32_ok _ _ U) as Q.
  destruct (solve_cases RA (Some lam) (Some l2) (Some (tof / time_unit r0 r1 mu)) q mr Q M) as [[xs [its [n9 [S [SB [_ [_ [SL _]]]]]]]]|[_ [x [k X]]]]; [|exfalso; destruct (x2tof_total lam LL x k) as [o O]; congruence].
  rewrite S. cbn [bind fst snd]. eexists. split; [reflexivity|]. cbn [l_v0 l_v1].
  split; [destruct xs; [cbn [length] in SL; lia|discriminate]|]. split; apply List.Forall_forall; intros v Hv; apply in_map_iff in Hv; destruct Hv as [x [<- _]]; unfold vels; rewrite FR; cbv zeta; cbn [fst snd]; apply v3lin_nan.
Qed.
Lemma vels_nan a b mu cw : vels RA a b mu cw None = (nan3, nan3).
Proof.
  assert (M0 : forall a, f_mul RA a None = None) by (intros [a0|]; reflexivity). assert (M1 : forall a, f_mul RA None a = None) by (intros [a0|]; reflexivity). assert (A0 : forall a, f_add RA a None = None) by (intros [a0|]; reflexivity). assert (A1 : forall a, f_add RA None a = None) by (intros [a0|]; reflexivity).
  assert (S0 : forall a, f_sub RA a None = None) by (intros [a0|]; reflexivity). assert (S1 : forall a, f_sub RA None a = None) by (intros [a0|]; reflexivity). assert (D0 : forall a, f_div RA None a = None) by (intros [a0|]; reflexivity). assert (Q0 : f_sqrt RA None = None) by reflexivity.
  assert (VN : forall u w, v3lin RA None u None w = nan3) by (intros [[a1 b1] c1] [[d e] f]; unfold v3lin; rewrite !M1, !A1; reflexivity).
  unfold vels. destruct (frame RA a b cw) as [[l u] w]. cbv zeta. rewrite M0, M1 || rewrite M0. rewrite ?A0, ?A1, Q0, ?M0, ?S0, ?S1, ?A0, ?A1, ?M0, ?S0, ?S1, ?A0, ?A1, ?M0, ?D0, !VN. reflexivity.
Qed.
(** the parabola *)
Theorem lambert_parabola r0 r1 tof mu cw mr : vz (cross r0 r1) <> 0 -> 0 < mu -> (0 <= mr < u32)%Z ->
  tof = tau (transfer_lambda r0 r1 cw) 0 1 * time_unit r0 r1 mu ->
  exists L, lambert_r r0 r1 tof mu cw mr = Ret L /\ nth_error (l_x L) 0 = Some None /\ nth_error (l_v0 L) 0 = Some nan3 /\ nth_error (l_v1 L) 0 = Some nan3.
Proof.
  intros Hc Hm M TE. pose proof (lambert_nd _ _ Hc) as SP. pose proof (time_unit_pos _ _ _ SP Hm) as UP. destruct (tl_sq r0 r1 cw Hc) as [_ [LP LL]]. set (lam := transfer_lambda r0 r1 cw) in *. pose proof (lam_bd lam LL) as LB. pose proof PI_RGT_0 as PP. pose proof PI2_1 as P21.
  assert (L3 : -1 < lam * lam * lam < 1) by (split; nra).
  assert (T1E : tau lam 0 1 = 2 / 3 * (1 - lam * lam * lam)) by (apply tau_par; reflexivity). assert (TP : 0 < tau lam 0 1) by (rewrite T1E; lra). assert (Ht : 0 < tof) by (rewrite TE; apply Rmult_lt_0_compat; assumption).
  assert (TT : tof / time_unit r0 r1 mu = 2 / 3 * (1 - lam * lam * lam)) by (rewrite TE, T1E; field; lra).
  assert (TB : tof / time_unit r0 r1 mu / PI < IZR u32). { apply Rlt_div_l; [lra|]. rewrite TT. assert (1 <= IZR u32) by (apply IZR_le; unfold u32; lia). nra. }
  destruct (proj1 (lambert_run r0 r1 tof mu cw mr Hc Ht Hm M) TB) as [L H]. exists L. split; [exact H|].
  rewrite lambert_r_eq in H by assumption. destruct (r_u32 _) as [q| |] eqn:EU; cbn [bind] in H; try discriminate. pose proof (r_u32_ok (Some _) q EU) as Q.
  unfold solved in H. fold lam in H. rewrite TT in H. destruct (solve RA _ _ _ q mr) as [[[xs its] n]| |] eqn:S; cbn [bind fst snd] in H; try discriminate. injection H as <-. cbn [l_x l_v0 l_v1].
  destruct (solve_cases RA (Some lam) (Some (lam * lam)) (Some (2 / 3 * (1 - lam * lam * lam))) q mr Q M) as [[xs0 [its0 [n0 [S0 [SB [_ [_ [SL _]]]]]]]]|[S0 _]]; [|rewrite S0 in S; discriminate]. rewrite S in S0. assert (EX : xs0 = xs /\ n0 = n) by (injection S0; intros; split; congruence). destruct EX as [-> ->].
  destruct (solve_entries RA _ _ _ _ _ _ _ _ None 0%Z Q M S) as [HH _].
  assert (G : guess0 RA (Some lam) (Some (2 / 3 * (1 - lam * lam * lam))) (Some (lam * lam)) = Some 1).
  { unfold guess0. cbv zeta. rewrite !nat_r. ev. rewrite acos_r, (sqrt_r (1 - lam * lam)) by lra. ev. rewrite !(div_r 2 3), !(div_r 2 5) by lra. ev. rewrite !le_r.
    assert (T0 : acos lam + lam * sqrt (1 - lam * lam) = tau lam 0 0). { rewrite (tau_ell lam 0 ltac:(lra) 0). unfold half_angle, lam_y. replace (1 - 0 * 0) with 1 by ring. rewrite sqrt_1. replace (0 * sqrt (1 - lam * lam * 1) + lam * 1) with lam by ring. replace (lam * lam * 1) with (lam * lam) by ring. field. }
    pose proof (tau_decr0 lam LL 0 1 ltac:(lra) ltac:(lra)) as DC. rewrite T0. destruct (Rle_dec (tau lam 0 0) _) as [C|_]; [lra|]. destruct (Rle_dec _ _) as [_|C]; [|exfalso; apply C; right; ring].
    assert (L5 : lam * lam * (lam * (lam * lam)) < 1) by nra.
    assert (NZ : 2 / 5 * (1 - lam * lam * (lam * (lam * lam))) * (2 / 3 * (1 - lam * lam * lam)) <> 0) by (apply Rgt_not_eq; repeat apply Rmult_lt_0_compat; lra).
    rewrite div_r by exact NZ. ev. f_equal. replace (2 / 3 * (1 - lam * (lam * lam)) - 2 / 3 * (1 - lam * lam * lam)) with 0 by ring. unfold Rdiv at 1. rewrite Rmult_0_r, Rmult_0_l. ring. }
  rewrite G in HH. unfold householder in HH. cbn [house] in HH. rewrite nat_r in HH at 1. change (f_lit RA 1 100000) with (Some (1 / 100000)) in HH. rewrite lt_r in HH. destruct (Rlt_dec (1 / 100000) 1) as [_|C]; [|lra]. rewrite (x2tof_one lam LL 1 0 eq_refl) in HH. cbn [bind] in HH.
  assert (X0 : nth 0 xs None = None).
  { destruct (dTdx RA (Some lam) (Some 1) None) as [[d1 d2] d3] eqn:ED. cbn [bind] in HH. change (f_sub RA None (Some (2 / 3 * (1 - lam * lam * lam)))) with (@None R) in HH.
    assert (XN : forall a b : option R, f_sub RA (Some 1) (f_div RA (f_mul RA None a) b) = None) by (intros [a|] [b|]; reflexivity). rewrite XN in HH. change (f_abs RA (f_sub RA (Some 1) None)) with (@None R) in HH. change (f_lt RA (Some (1 / 100000)) None) with false in HH. cbv iota in HH. congruence. }
  destruct xs as [|x0 xs]; [cbn [length] in SL; lia|]. cbn [nth] in X0. subst x0. split; [reflexivity|]. cbn [map nth_error].
  rewrite vels_nan. split; reflexivity.
Qed.
(** ** exact solutions are fixed points of the iteration *)
Lemma householder_fixed lam x T N eps n : lam * lam < 1 -> x * x <> 1 -> x2tof RA (Some lam) (Some x) N = Ret (Some T) -> D1 lam T x <> 0 -> 0 <= eps < 1 ->
  householder RA (Some lam) (Some T) (Some x) N (Some eps) (Datatypes.S n) = Ret (Some x, 1%Z).
Proof.
  intros L X E D HE. unfold householder. cbn [house]. rewrite nat_r, lt_r. destruct (Rlt_dec eps 1) as [_|]; [|lra]. rewrite E. cbn [bind]. rewrite (dTdx_r lam L x T X). cbv iota beta. rewrite !nat_r. ev. rewrite !(div_r _ 2), !(div_r _ 6) by lra. ev.
  replace (T - T) with 0 by ring. rewrite div_r; [|intros Z; apply D]. 2:{ assert (D1 lam T x * (D1 lam T x * D1 lam T x) = 0) by lra. apply Rmult_integral in H. destruct H as [H|H]; [exact H|]. apply Rmult_integral in H. tauto. }
  ev. match goal with |- context [x - ?e] => replace (x - e) with x by (unfold Rdiv; ring) end. rewrite abs_r. replace (x - x) with 0 by ring. rewrite Rabs_R0. destruct n as [|n]; [reflexivity|]. cbn [house]. rewrite lt_r. destruct (Rlt_dec eps 0); [lra|]. reflexivity.
Qed.
Lemma tau_at0 lam : tau lam 0 0 = acos lam + lam * sqrt (1 - lam * lam).
Proof. rewrite (tau_ell lam 0 ltac:(lra) 0). unfold half_angle, lam_y. replace (1 - 0 * 0) with 1 by ring. rewrite sqrt_1. replace (0 * sqrt (1 - lam * lam * 1) + lam * 1) with lam by ring. replace (lam * lam * 1) with (lam * lam) by ring. field. Qed.
Lemma guess_at0 lam : lam * lam < 1 -> guess0 RA (Some lam) (Some (tau lam 0 0)) (Some (lam * lam)) = Some 0.
Proof.
  intros L. pose proof (lam_bd lam L) as LB. unfold guess0. cbv zeta. rewrite !nat_r. ev. rewrite acos_r, (sqrt_r (1 - lam * lam)) by lra. ev. rewrite <- tau_at0, le_r. destruct (Rle_dec (tau lam 0 0) (tau lam 0 0)) as [_|C]; [|lra]. ev. replace (tau lam 0 0 - tau lam 0 0) with 0 by ring. rewrite div_r by lra. f_equal. field.
Qed.
Theorem lambert_min_energy r0 r1 mu cw mr : vz (cross r0 r1) <> 0 -> 0 < mu -> (0 <= mr < u32)%Z -> let tof := tau (transfer_lambda r0 r1 cw) 0 0 * time_unit r0 r1 mu in
  exists L, lambert_r r0 r1 tof mu cw mr = Ret L /\ l_nmax L = 0%Z /\ l_x L = [Some 0] /\ l_iters L = [1%Z].
Proof.
  intros Hc Hm M tof. pose proof (lambert_nd _ _ Hc) as SP. pose proof (time_unit_pos _ _ _ SP Hm) as UP. destruct (tl_sq r0 r1 cw Hc) as [_ [LP LL]]. set (lam := transfer_lambda r0 r1 cw) in *. pose proof PI_RGT_0 as PP.
  pose proof (tau_revs lam LL 0 0 ltac:(lra)) as TR. cbv zeta in TR. replace (1 - 0 * 0) with 1 in TR by ring. rewrite sqrt_1 in TR. assert (TP : 0 < tau lam 0 0 < PI) by lra. assert (Ht : 0 < tof) by (apply Rmult_lt_0_compat; lra). assert (TT : tof / time_unit r0 r1 mu = tau lam 0 0) by (unfold tof; field; lra).
  rewrite lambert_r_eq by assumption. unfold solved. fold lam. rewrite TT. assert (B : 0 <= tau lam 0 0 / PI < 1) by (split; [apply Rlt_le, Rdiv_lt_0_compat; lra|apply Rlt_div_l; lra]).
  assert (U : r_u32 (tau lam 0 0 / PI) = Ret 0%Z). { unfold r_u32. destruct (Rle_dec 0 _) as [_|]; [|lra]. destruct (Rlt_dec _ (IZR u32)) as [_|C]; [|exfalso; apply C; assert (1 <= IZR u32) by (apply IZR_le; unfold u32; lia); lra]. f_equal. symmetry. apply int_part_spec. lra. }
  rewrite U. cbn [bind]. unfold solve, count. cbv zeta. replace (Z.min mr 0) with 0%Z by lia. cbn [Z.ltb Z.compare]. cbn [bind]. rewrite (guess_at0 lam LL). change (f_lit RA 1 100000) with (Some (1 / 100000)).
  rewrite (householder_fixed lam 0 (tau lam 0 0) 0 (1 / 100000) 14 LL ltac:(lra)); [cbn [bind]| | |lra].
  - cbn. eexists. split; [reflexivity|]. repeat split; reflexivity.
  - destruct (x2tof_tau lam LL 0 0 ltac:(lra) ltac:(lra) ltac:(lia)) as [t [E [_ T]]]. rewrite E, T; [reflexivity|]. rewrite Rabs_left; lra.
  - unfold D1. destruct (ly_sq lam LL 0) as [YP _]. replace (3 * tau lam 0 0 * 0 - 2 + 2 * (lam * lam * lam) * 0 / lam_y lam 0) with (-2) by (field; lra). replace (1 - 0 * 0) with 1 by ring. lra.
Qed.
(** ** the loop bound Nmax + 1 wraps *)
Theorem lambert_wrap r0 r1 mu cw : vz (cross r0 r1) <> 0 -> 0 < mu -> let lam := transfer_lambda r0 r1 cw in let tof := tau lam (u32 - 1) 0 * time_unit r0 r1 mu in
  exists L, lambert_r r0 r1 tof mu cw (u32 - 1) = Ret L /\ l_nmax L = (u32 - 1)%Z /\ forall k, (1 <= k <= 2 * l_nmax L)%Z -> nth (Z.to_nat k) (l_x L) None = Some 0 /\ nth (Z.to_nat k) (l_iters L) 0%Z = 0%Z.
Proof.
  intros Hc Hm lam tof. pose proof (lambert_nd _ _ Hc) as SP. pose proof (time_unit_pos _ _ _ SP Hm) as UP. destruct (tl_sq r0 r1 cw Hc) as [_ [LP LL]]. fold lam in LP, LL. pose proof PI_RGT_0 as PP. assert (UB1 : (1 < u32)%Z) by reflexivity. assert (MR : (0 <= u32 - 1 < u32)%Z) by lia.
  assert (RN : 1 < IZR u32) by (apply IZR_lt; exact UB1). assert (EN : IZR (u32 - 1) = IZR u32 - 1) by (rewrite minus_IZR; reflexivity). set (N := (u32 - 1)%Z) in *.
  pose proof (tau_revs lam LL N 0 ltac:(lra)) as TR. cbv zeta in TR. replace (1 - 0 * 0) with 1 in TR by ring. rewrite sqrt_1, EN in TR. set (T := tau lam N 0) in *. assert (TB : (IZR u32 - 1) * PI < T < IZR u32 * PI) by lra. clear TR.
  assert (TP : 0 < T) by nra. assert (Ht : 0 < tof) by (apply Rmult_lt_0_compat; lra). assert (TT : tof / time_unit r0 r1 mu = T) by (unfold tof; field; lra).
  assert (B : IZR u32 - 1 < T / PI < IZR u32) by (split; [apply Rlt_div_r; lra|apply Rlt_div_l; lra]).
  destruct (proj1 (lambert_run r0 r1 tof mu cw N Hc Ht Hm MR)) as [L H]; [rewrite TT; lra|]. exists L. split; [exact H|].
  assert (U : r_u32 (T / PI) = Ret N). { unfold r_u32. destruct (Rle_dec 0 _) as [_|C]; [|exfalso; apply C; lra]. destruct (Rlt_dec _ (IZR u32)) as [_|C]; [|exfalso; apply C; lra]. f_equal. symmetry. apply int_part_spec. rewrite EN. lra. }
  assert (NM : l_nmax L = N).
  { pose proof H as G. rewrite lambert_r_eq in G by assumption. rewrite TT, U in G. cbn [bind] in G. unfold solved in G. fold lam in G. rewrite TT in G. unfold solve in G.
    assert (CN : count RA (Some lam) (Some T) (Some (lam * lam)) N N = Ret N).
    { unfold count. cbv zeta. replace (Z.min N N) with N by lia. replace (Z.ltb 0 N) with true by reflexivity. pose proof (lam_bd lam LL) as LB. rewrite !nat_r. ev. rewrite acos_r, (sqrt_r (1 - lam * lam)) by lra. ev. change (f_pi RA) with (Some PI). ev. rewrite lt_r.
      assert (ET : acos lam + lam * sqrt (1 - lam * lam) + IZR N * PI = T). { rewrite <- tau_at0. unfold T. rewrite (tau_ell lam 0 ltac:(lra) N), (tau_ell lam 0 ltac:(lra) 0). replace (1 - 0 * 0) with 1 by ring. rewrite sqrt_1. field. }
      rewrite ET. destruct (Rlt_dec T T); [lra|]. cbn [bind]. rewrite Z.min_id. reflexivity. }
    rewrite CN in G. cbn [bind] in G. destruct (householder RA (Some lam) (Some T) _ 0 _ 15) as [h| |]; cbn [bind] in G; try discriminate. destruct (upd _ 0 (fst h)) as [xs| |]; cbn [bind] in G; try discriminate. destruct (upd _ 0 (snd h)) as [its| |]; cbn [bind] in G; try discriminate. destruct (multi _ _ _ _ _ _ _) as [m| |]; cbn [bind] in G; try discriminate. injection G as <-. reflexivity. }
  split; [exact NM|]. intros k Hk. destruct (lambert_entries RA _ _ _ _ _ _ _ None 0%Z r_u32_ok MR H) as [_ [_ W]]. rewrite nat_r in W. apply W; [rewrite NM; unfold N; lia|exact Hk].
Qed.
(** ** a concrete transfer: an isosceles triangle with sides 25, 25 and 30; the time unit is 1 and lambda = 1/2 *)
Definition ex_r0 : vec := V 25 0 0.
Definition ex_r1 : vec := V 7 24 0.
Lemma ex_cross : vz (cross ex_r0 ex_r1) = 600. Proof. cbn. ring. Qed.
Lemma ex_s : norm (vsub ex_r1 ex_r0) = 30 /\ semiperimeter ex_r0 ex_r1 = 40.
Proof.
  assert (A : norm (vsub ex_r1 ex_r0) = 30) by (apply norm_unique; [lra|unfold dot; cbn; ring]). split; [exact A|]. unfold semiperimeter. rewrite A.
  assert (B : norm ex_r0 = 25) by (apply norm_unique; [lra|unfold dot; cbn; ring]). assert (C : norm ex_r1 = 25) by (apply norm_unique; [lra|unfold dot; cbn; ring]). rewrite B, C. field.
Qed.
Lemma ex_unit : time_unit ex_r0 ex_r1 32000 = 1.
Proof. unfold time_unit. destruct ex_s as [_ ->]. replace (40 * 40 * 40 / (2 * 32000)) with 1 by field. apply sqrt_1. Qed.
Lemma ex_lambda cw : transfer_lambda ex_r0 ex_r1 cw = if cw then - (1 / 2) else 1 / 2.
Proof.
  unfold transfer_lambda. destruct ex_s as [-> ->]. rewrite ex_cross. cbv zeta. replace (1 - 30 / 40) with ((1 / 2) * (1 / 2)) by field. rewrite sqrt_square by lra. destruct cw; destruct (Rlt_dec 0 _) as [H|H]; lra.
Qed.
Lemma ex_solution : exists L v0 v1, lambert_r ex_r0 ex_r1 (PI / 3 + sqrt 3 / 4) 32000 false 5 = Ret L /\ l_nmax L = 0%Z /\ l_x L = [Some 0] /\ l_v0 L = [sv v0] /\ l_v1 L = [sv v1] /\
  flow_at 32000 (ex_r0, v0) (PI / 3 + sqrt 3 / 4) (ex_r1, v1) /\ energy 32000 (ex_r0, v0) = - 800.
Proof.
  assert (Hc : vz (cross ex_r0 ex_r1) <> 0) by (rewrite ex_cross; lra). destruct (lambert_min_energy ex_r0 ex_r1 32000 false 5 Hc ltac:(lra) ltac:(unfold u32; lia)) as [L [H [A [B C]]]].
  rewrite ex_unit, ex_lambda, tau_at0, Rmult_1_r in H. replace (1 - 1 / 2 * (1 / 2)) with (3 / (2 * 2)) in H by field.
  assert (E1 : acos (1 / 2) = PI / 3) by (rewrite <- cos_PI3; apply acos_cos; pose proof PI_RGT_0; lra). assert (E2 : sqrt (3 / (2 * 2)) = sqrt 3 / 2) by (rewrite sqrt_div_alt, sqrt_square by lra; reflexivity). rewrite E1, E2 in H. replace (1 / 2 * (sqrt 3 / 2)) with (sqrt 3 / 4) in H by field.
  assert (HX : nth_error (l_x L) 0 = Some (Some 0)) by (rewrite B; reflexivity).
  destruct (lambert_flow _ _ _ _ _ _ _ _ _ Hc H HX ltac:(lra) ltac:(intros; lra)) as [v0 [v1 [W0 [W1 F]]]]. destruct (lambert_conic _ _ _ _ _ _ _ _ _ Hc H HX) as [u0 [u1 [U0 [_ [_ [EN _]]]]]]. rewrite W0 in U0. assert (Q : u0 = v0). { injection U0 as Q1 Q2 Q3. destruct u0, v0. cbn in *. congruence. } subst u0.
  destruct (lambert_shape RA _ _ _ _ _ 5%Z _ r_u32_ok ltac:(unfold u32; lia) H) as [_ [S0 [S1 _]]]. rewrite A in S0, S1.
  exists L, v0, v1. split; [exact H|]. split; [exact A|]. split; [exact B|]. split; [destruct (l_v0 L) as [|a [|b l]]; cbn [length nth_error] in *; [lia|congruence|lia]|]. split; [destruct (l_v1 L) as [|a [|b l]]; cbn [length nth_error] in *; [lia|congruence|lia]|].
  split; [|rewrite EN; destruct ex_s as [_ ->]; field].
  change ((Z.of_nat 0 + 1) / 2)%Z with 0%Z in F. rewrite ex_unit, ex_lambda, tau_at0, Rmult_1_r in F. replace (1 - 1 / 2 * (1 / 2)) with (3 / (2 * 2)) in F by field. rewrite E1, E2 in F. replace (1 / 2 * (sqrt 3 / 2)) with (sqrt 3 / 4) in F by field. exact F.
Qed.
Lemma ex_parabola : exists L, lambert_r ex_r0 ex_r1 (7 / 12) 32000 false 0 = Ret L /\ l_nmax L = 0%Z /\ l_v0 L = [nan3] /\ l_v1 L = [nan3].
Proof.
  assert (Hc : vz (cross ex_r0 ex_r1) <> 0) by (rewrite ex_cross; lra). destruct (lambert_parabola ex_r0 ex_r1 (7 / 12) 32000 false 0 Hc ltac:(lra) ltac:(unfold u32; lia)) as [L [H [_ [B C]]]]; [rewrite ex_unit, ex_lambda, tau_par by reflexivity; field|].
  exists L. split; [exact H|]. destruct (lambert_shape RA _ _ _ _ _ 0%Z _ r_u32_ok ltac:(unfold u32; lia) H) as [[q [_ Q]] [S0 [S1 _]]]. assert (NM : l_nmax L = 0%Z) by lia. rewrite NM in S0, S1. split; [exact NM|].
  split; [destruct (l_v0 L) as [|a [|b l]]; cbn [length nth_error] in *; [lia|congruence|lia]|destruct (l_v1 L) as [|a [|b l]]; cbn [length nth_error] in *; [lia|congruence|lia]].
Qed.
Lemma ex_collinear : exists L, lambert_r (V 1 0 0) (V 2 0 0) 1 1 false 0 = Ret L /\ l_v0 L = [nan3] /\ l_v1 L = [nan3].
Proof.
  assert (S : semiperimeter (V 1 0 0) (V 2 0 0) = 2). { unfold semiperimeter. assert (A : norm (vsub (V 2 0 0) (V 1 0 0)) = 1) by (apply norm_unique; [lra|unfold dot; cbn; ring]). assert (B : norm (V 1 0 0) = 1) by (apply norm_unique; [lra|unfold dot; cbn; ring]). assert (C : norm (V 2 0 0) = 2) by (apply norm_unique; [lra|unfold dot; cbn; ring]). rewrite A, B, C. field. }
  destruct (lambert_collinear (V 1 0 0) (V 2 0 0) 1 1 false 0) as [L [H [N [A B]]]]; try lra.
  - unfold cross, vzero. cbn [vx vy vz]. f_equal; ring.
  - intros E. injection E as E. lra.
  - intros E. injection E as E. lra.
  - intros E. injection E as E. lra.
  - unfold u32; lia.
  - unfold time_unit. rewrite S. replace (2 * 2 * 2 / (2 * 1)) with (2 * 2) by field. rewrite sqrt_square by lra. pose proof PI2_1. apply Rlt_div_l; [lra|]. assert (1 <= IZR u32) by (apply IZR_le; unfold u32; lia). nra.
  - exists L. split; [exact H|]. destruct (lambert_shape RA _ _ _ _ _ 0%Z _ r_u32_ok ltac:(unfold u32; lia) H) as [[q [_ Q]] [S0 [S1 _]]]. assert (NM : l_nmax L = 0%Z) by lia. rewrite NM in S0, S1.
    split; [destruct (l_v0 L) as [|a [|b l]]; cbn [length] in *; [lia|inversion A; congruence|lia]|destruct (l_v1 L) as [|a [|b l]]; cbn [length] in *; [lia|inversion B; congruence|lia]].
Qed.
Lemma wrap_refuted : exists r0 r1 tof mu L, lambert_r r0 r1 tof mu false (u32 - 1) = Ret L /\ l_nmax L = (u32 - 1)%Z /\
  forall k, (1 <= k <= 2 * l_nmax L)%Z -> nth (Z.to_nat k) (l_x L) None = Some 0 /\ nth (Z.to_nat k) (l_iters L) 0%Z = 0%Z.
Proof. exists ex_r0, ex_r1, (tau (transfer_lambda ex_r0 ex_r1 false) (u32 - 1) 0 * time_unit ex_r0 ex_r1 32000), 32000. apply lambert_wrap; [rewrite ex_cross; lra|lra]. Qed.
Lemma ex_reject : lambert_r ex_r0 ex_r1 0 1 false 0 = Throw DomainError.
Proof. apply lambert_rejects; [unfold u32; lia|]. left. lra. Qed.
