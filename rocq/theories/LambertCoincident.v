(** * Lambert's problem: positions on one line, equal ones included *)
From Coq Require Import Reals ZArith Lra Lia Bool List.
From Coquelicot Require Import Coquelicot.
From Verif Require Import Outcome PartialReal RealLib Vec3 TwoBodySpec ElemProofs LambertModel LambertReal LambertProofs LambertSpec LambertTime LambertVec LambertTof LambertDer LambertMono LambertMain.
Import ListNotations.
Open Scope R_scope.

(** the series of the code ends also when lambda is 1 or -1 *)
Lemma x2tof_total1 lam : lam * lam <= 1 -> forall ox N, exists o, x2tof RA (Some lam) ox N = Ret o.
Proof.
  intros L ox N. destruct (Rlt_le_dec (lam * lam) 1) as [L1|L1]; [apply x2tof_total; exact L1|]. assert (LE : lam * lam = 1) by lra. assert (LC : lam = 1 \/ lam = -1). { assert (Q : (lam - 1) * (lam + 1) = 0) by lra. apply Rmult_integral in Q. destruct Q; [left|right]; lra. }
  destruct ox as [x|].
  - destruct (Rlt_le_dec (Rabs (x - 1)) (1 / 100)) as [H|H].
    + unfold x2tof. cbv zeta. rewrite !lit_r, !nat_r. ev. rewrite !abs_r, !lt_r. destruct (Rlt_dec (1 / 100) (Rabs (x - 1))) as [Q|_]; [lra|]. rewrite andb_false_r. destruct (Rlt_dec (Rabs (x - 1)) (1 / 100)) as [_|Q]; [|lra].
      assert (XB : 99 / 100 < x < 101 / 100) by (apply Rabs_def2 in H; lra). rewrite LE. replace (1 + 1 * (x * x - 1)) with (x * x) by ring. rewrite sqrt_r by nra. rewrite sqrt_square by lra. ev.
      destruct (hyper_r (1 / 2 * (1 - lam - x * (x - lam * x)))) as [j [_ HJ]]; [apply Rabs_le; destruct LC as [-> | ->]; split; nra|]. rewrite lit_r in HJ. rewrite HJ. cbn [bind]. eexists. reflexivity.
    + unfold x2tof. cbv zeta. destruct (f_lt RA _ _ && f_lt RA _ _); [eexists; reflexivity|]. rewrite lit_r, nat_r. ev. rewrite abs_r, lt_r. destruct (Rlt_dec (Rabs (x - 1)) (1 / 100)) as [Q|_]; [lra|]. eexists. reflexivity.
  - unfold x2tof. cbv zeta. cbn [f_lt f_sub f_abs RA op2 op1 obind rel andb]. eexists. reflexivity.
Qed.
Theorem lambert_coincident r0 r1 tof mu cw mr : cross r0 r1 = vzero -> r0 <> vzero -> r1 <> vzero -> 0 < tof -> 0 < mu -> (0 <= mr < u32)%Z -> tof / time_unit r0 r1 mu / PI < IZR u32 ->
  exists L, lambert_r r0 r1 tof mu cw mr = Ret L /\ l_v0 L <> [] /\ List.Forall (fun v => v = nan3) (l_v0 L) /\ List.Forall (fun v => v = nan3) (l_v1 L).
Proof.
  intros Hc H0 H1 Ht Hm M TB. apply norm_pos in H0, H1. assert (CP : 0 <= norm (vsub r1 r0)) by apply sqrt_pos.
  assert (SP : 0 < semiperimeter r0 r1) by (unfold semiperimeter; lra).
  assert (TR : norm (vsub r1 r0) <= norm r0 + norm r1). { pose proof (norm_triangle r1 (vneg r0)) as Q. replace (vadd r1 (vneg r0)) with (vsub r1 r0) in Q by vring. replace (vneg r0) with (vscal (-1) r0) in Q by vring. rewrite norm_vscal, (Rabs_left (-1)) in Q by lra. lra. }
  assert (L2 : 0 <= 1 - norm (vsub r1 r0) / semiperimeter r0 r1 <= 1). { assert (P : 0 <= norm (vsub r1 r0) / semiperimeter r0 r1) by (apply Rmult_le_pos; [assumption|apply Rlt_le, Rinv_0_lt_compat; assumption]). split; [|lra]. assert (norm (vsub r1 r0) / semiperimeter r0 r1 <= 1); [|lra]. apply Rle_div_l; [exact SP|]. unfold semiperimeter. lra. }
  set (l2 := 1 - norm (vsub r1 r0) / semiperimeter r0 r1) in *.
  assert (PL : plane RA (sv r0) (sv r1) = nan3).
  { unfold plane. cbv zeta. rewrite !norm_r, !v3div_r, v3cross_r by lra. replace (cross (vscal (/ norm r0) r0) (vscal (/ norm r1) r1)) with (vscal (/ norm r0 * / norm r1) (cross r0 r1)) by vring. rewrite Hc. replace (vscal (/ norm r0 * / norm r1) vzero) with vzero by vring. rewrite norm_r. rewrite norm_vzero. unfold v3div, sv. cbn. rewrite !pdiv_none. reflexivity. }
  assert (SR : semi RA (sv r0) (sv r1) = Some (semiperimeter r0 r1)) by (unfold semi; rewrite v3sub_r, !norm_r, nat_r, !add_r, div_r by lra; reflexivity).
  assert (LR : lam2 RA (sv r0) (sv r1) = Some l2) by (unfold lam2; rewrite SR, v3sub_r, norm_r, nat_r, div_r, sub_r by lra; reflexivity).
  assert (N3 : forall v, v3cross RA nan3 v = nan3) by (intros [[a b] c]; destruct a, b, c; reflexivity).
  assert (FR : frame RA (sv r0) (sv r1) cw = (Some (if cw then - sqrt l2 else sqrt l2), nan3, nan3)).
  { unfold frame. cbv zeta. rewrite PL, LR, !N3, sqrt_r by lra. destruct cw; reflexivity. }
  set (lam := if cw then - sqrt l2 else sqrt l2) in *. assert (LL : lam * lam <= 1). { assert (lam * lam = l2) by (unfold lam; pose proof (sqrt_sqrt l2 ltac:(lra)); destruct cw; lra). lra. }
  unfold lambert_r. rewrite lambert_eq, PL, SR, LR, FR, (nd_time_r r0 r1 mu tof SP Hm), nat_r, !le_r. cbn [fst snd]. destruct (Rle_dec tof 0); [lra|]. destruct (Rle_dec mu 0); [lra|]. change (LambertModel.f_eq RA (v3z nan3) (Some 0)) with false. cbv iota.
  change (f_pi RA) with (Some PI). pose proof PI_RGT_0 as PP. pose proof (time_unit_pos _ _ _ SP Hm) as UP. rewrite div_r by lra.
  assert (TP : 0 <= tof / time_unit r0 r1 mu / PI) by (apply Rlt_le; repeat apply Rdiv_lt_0_compat; assumption).
  assert (U : exists q, f_u32 RA (Some (tof / time_unit r0 r1 mu / PI)) = Ret q). { cbn. unfold r_u32. destruct (Rle_dec 0 _) as [_|]; [|lra]. destruct (Rlt_dec _ (IZR u32)) as [_|]; [|lra]. eexists. reflexivity. }
  destruct U as [q U]. rewrite U. cbn [bind]. pose proof (r_u32_ok _ _ U) as Q.
  destruct (solve_cases RA (Some lam) (Some l2) (Some (tof / time_unit r0 r1 mu)) q mr Q M) as [[xs [its [n9 [S [SB [_ [_ [SL _]]]]]]]]|[_ [x [k X]]]]; [|exfalso; destruct (x2tof_total1 lam LL x k) as [o O]; congruence].
  rewrite S. cbn [bind fst snd]. eexists. split; [reflexivity|]. cbn [l_v0 l_v1].
  split; [destruct xs; [cbn [length] in SL; lia|discriminate]|]. split; apply List.Forall_forall; intros v Hv; apply in_map_iff in Hv; destruct Hv as [x [<- _]]; unfold vels; rewrite FR; cbv zeta; cbn [fst snd]; apply v3lin_nan.
Qed.
(** the constructor returns unless the two positions are in a vertical plane *)
Theorem lambert_total r0 r1 tof mu cw mr : r0 <> vzero -> r1 <> vzero -> 0 < tof -> 0 < mu -> (0 <= mr < u32)%Z -> tof / time_unit r0 r1 mu / PI < IZR u32 ->
  (vz (cross r0 r1) = 0 /\ cross r0 r1 <> vzero /\ lambert_r r0 r1 tof mu cw mr = Throw DomainError) \/
  ((vz (cross r0 r1) <> 0 \/ cross r0 r1 = vzero) /\ exists L, lambert_r r0 r1 tof mu cw mr = Ret L /\ l_v0 L <> [] /\ l_v1 L <> []).
Proof.
  intros H0 H1 Ht Hm M TB. destruct (Req_dec (vz (cross r0 r1)) 0) as [Z|Z].
  - destruct (Req_dec (vx (cross r0 r1)) 0) as [X|X]; [destruct (Req_dec (vy (cross r0 r1)) 0) as [Y|Y]|].
    + assert (C : cross r0 r1 = vzero) by (destruct (cross r0 r1) as [a b c]; cbn [vx vy vz] in *; subst; reflexivity). right. split; [right; exact C|].
      destruct (lambert_coincident r0 r1 tof mu cw mr C H0 H1 Ht Hm M TB) as [L [E [N _]]]. exists L. split; [exact E|]. split; [exact N|].
      destruct (lambert_shape RA _ _ _ _ _ _ _ r_u32_ok M E) as [_ S]. intros Q. intuition (rewrite ?Q in *; cbn [length] in *; try lia).
    + left. split; [exact Z|]. assert (C : cross r0 r1 <> vzero) by (intros C; apply Y; rewrite C; reflexivity). split; [exact C|]. apply lambert_rejects; [exact M|]. right. right. split; assumption.
    + left. split; [exact Z|]. assert (C : cross r0 r1 <> vzero) by (intros C; apply X; rewrite C; reflexivity). split; [exact C|]. apply lambert_rejects; [exact M|]. right. right. split; assumption.
  - right. split; [left; exact Z|]. destruct (proj1 (lambert_run r0 r1 tof mu cw mr Z Ht Hm M) TB) as [L E]. exists L. split; [exact E|].
    destruct (lambert_shape RA _ _ _ _ _ _ _ r_u32_ok M E) as [_ S]. split; intros Q; intuition (rewrite ?Q in *; cbn [length] in *; try lia).
Qed.
