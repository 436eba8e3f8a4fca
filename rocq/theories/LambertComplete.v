(** * Every transfer is one of the solutions of the time of flight equation *)
From Coq Require Import Reals ZArith List Bool Lra Lia.
From Coquelicot Require Import Coquelicot.
From Verif Require Import Outcome PartialReal RealLib Vec3 TwoBodySpec FlowProofs FlowMain ElemProofs LambertModel LambertReal LambertProofs LambertSpec LambertTime LambertVec LambertTof LambertDer LambertMono LambertMain LambertRevsSpec.
Import ListNotations.
Open Scope R_scope.

Lemma along a c : cross a c = vzero -> c <> vzero -> a = vscal (dot a c / dot c c) c.
Proof.
  intros E N. pose proof (dot_pos c N) as P. assert (Q : vsub (vscal (dot c c) a) (vscal (dot a c) c) = vzero).
  { replace (vsub (vscal (dot c c) a) (vscal (dot a c) c)) with (cross c (cross a c)) by vring. rewrite E. vring. }
  assert (W : vscal (/ dot c c) (vsub (vscal (dot c c) a) (vscal (dot a c) c)) = vzero) by (rewrite Q; vring).
  injection W as W1 W2 W3. apply vec_eq; unfold vscal; cbn [vx vy vz] in *; apply Rminus_diag_uniq; [rewrite <- W1|rewrite <- W2|rewrite <- W3]; field; lra.
Qed.
(** two velocities in r0 of conics through r1 with one angular momentum are equal *)
Lemma same_h_same_v mu r0 r1 v0 v1 u0 u1 : 0 < mu -> cross r0 r1 <> vzero -> same_integrals mu (r0, v0) (r1, v1) -> same_integrals mu (r0, u0) (r1, u1) -> ang_mom (r0, v0) <> vzero -> ang_mom (r0, v0) = ang_mom (r0, u0) -> v0 = u0.
Proof.
  intros Mu Cn [_ [H1 E1]] [_ [H2 E2]] Hn HH. assert (R0n : r0 <> vzero) by (intros Z; apply Cn; rewrite Z; vring). set (h := ang_mom (r0, v0)) in *.
  assert (D : forall v w, ang_mom (r1, w) = ang_mom (r0, v) -> ecc_vec mu (r1, w) = ecc_vec mu (r0, v) -> dot (cross v (ang_mom (r0, v))) r1 = dot (ang_mom (r0, v)) (ang_mom (r0, v)) + mu * (/ norm r0 * dot r0 r1 - norm r1)).
  { intros v w A B. unfold ecc_vec in B. rewrite A in B. cbn [fst snd] in B. set (g := ang_mom (r0, v)) in *. assert (R1n : r1 <> vzero) by (intros Z; apply Cn; rewrite Z; vring). pose proof (norm_pos r1 R1n) as RP. pose proof (norm_sq r1) as RS.
    assert (Q : dot (vsub (vscal (/ mu) (cross w g)) (vscal (/ norm r1) r1)) r1 = dot (vsub (vscal (/ mu) (cross v g)) (vscal (/ norm r0) r0)) r1) by (rewrite B; reflexivity).
    assert (W : dot (cross w g) r1 = dot g g). { rewrite <- A at 2. unfold ang_mom. cbn [fst snd]. unfold dot, cross. cbn [vx vy vz]. ring. }
    assert (L : forall a b c d, dot (vsub (vscal a b) (vscal c d)) r1 = a * dot b r1 - c * dot d r1) by (intros; unfold dot, vsub, vscal, vadd, vneg; cbn [vx vy vz]; ring).
    rewrite !L, W, <- RS in Q. apply (Rmult_eq_reg_l (/ mu)); [|apply Rinv_neq_0_compat; lra]. replace (/ mu * (dot g g + mu * (/ norm r0 * dot r0 r1 - norm r1))) with (/ mu * dot g g + (/ norm r0 * dot r0 r1 - norm r1)) by (field; split; [pose proof (norm_pos r0 R0n)|]; lra).
    replace (/ norm r1 * (norm r1 * norm r1)) with (norm r1) in Q by (field; lra). lra. }
  pose proof (D v0 v1 H1 E1) as P1. pose proof (D u0 u1 H2 E2) as P2. fold h in P1. rewrite <- HH in P2.
  assert (Z : cross (vsub v0 u0) r0 = vzero). { replace (cross (vsub v0 u0) r0) with (vsub (ang_mom (r0, u0)) (ang_mom (r0, v0))) by (unfold ang_mom; cbn [fst snd]; vring). fold h. rewrite <- HH. vring. }
  apply along in Z; [|exact R0n]. set (t := dot (vsub v0 u0) r0 / dot r0 r0) in Z.
  assert (T0 : t * dot h (cross r0 r1) = 0). { transitivity (dot (cross u0 h) r1 - dot (cross v0 h) r1); [|rewrite P1, P2; ring]. transitivity (- dot (cross (vscal t r0) h) r1); [unfold dot, cross, vscal; cbn [vx vy vz]; ring|]. rewrite <- Z. unfold dot, cross, vsub, vadd, vneg; cbn [vx vy vz]; ring. }
  assert (HC : dot h (cross r0 r1) <> 0).
  { assert (X : cross h (cross r0 r1) = vzero).
    { assert (A0 : dot h r0 = 0) by (unfold h, ang_mom, dot, cross; cbn [fst snd vx vy vz]; ring). assert (A1 : dot h r1 = 0) by (rewrite <- H1; unfold ang_mom, dot, cross; cbn [fst snd vx vy vz]; ring).
      replace (cross h (cross r0 r1)) with (vsub (vscal (dot h r1) r0) (vscal (dot h r0) r1)) by vring. rewrite A0, A1. vring. }
    apply along in X; [|exact Cn]. intros Y. apply Hn. rewrite X, Y. replace (0 / dot (cross r0 r1) (cross r0 r1)) with 0 by (unfold Rdiv; ring). vring. }
  apply Rmult_integral in T0. destruct T0 as [T0|T0]; [|contradiction]. rewrite T0 in Z. replace v0 with (vadd (vsub v0 u0) u0) by vring. rewrite Z. vring.
Qed.
(** every size of the angular momentum occurs once *)
Lemma size_onto lam q : 0 < lam * lam < 1 -> 0 < q -> exists x, lam_y lam x + lam * x = q.
Proof.
  intros [L0 L1] Q. assert (LN : lam <> 0) by nra. exists ((q - (1 - lam * lam) / q) / (2 * lam)). set (x := _ / (2 * lam)).
  assert (E : lam * x = (q - (1 - lam * lam) / q) / 2) by (unfold x; field; split; [lra|exact LN]).
  assert (P : 0 < (1 - lam * lam) / q) by (apply Rdiv_lt_0_compat; lra). unfold lam_y.
  replace (1 - lam * lam * (1 - x * x)) with (((q + (1 - lam * lam) / q) / 2) * ((q + (1 - lam * lam) / q) / 2)); [rewrite sqrt_square by lra; lra|].
  replace (1 - lam * lam * (1 - x * x)) with (1 - lam * lam + (lam * x) * (lam * x)) by ring. rewrite E. field. lra.
Qed.
Section One.
Variables (mu : R) (r0 r1 : vec) (cw : bool).
Hypothesis Hc : vz (cross r0 r1) <> 0.
Hypothesis Mu : 0 < mu.
Let lam := transfer_lambda r0 r1 cw.
Let tu := time_unit r0 r1 mu.
Lemma c_nz : cross r0 r1 <> vzero. Proof. intros H. rewrite H in Hc. apply Hc. reflexivity. Qed.
Lemma lamL : 0 < lam * lam < 1. Proof. apply (tl_sq r0 r1 cw Hc). Qed.
Lemma tu_pos : 0 < tu. Proof. apply time_unit_pos; [apply lambert_nd; exact Hc|exact Mu]. Qed.
Lemma velocity_x v0 v1 : same_integrals mu (r0, v0) (r1, v1) -> 0 < (if cw then -1 else 1) * vz (ang_mom (r0, v0)) -> exists x, v0 = lv0 r0 r1 cw mu x.
Proof.
  intros SI HD. pose proof c_nz as Cn. set (h := ang_mom (r0, v0)) in *. pose proof (hdir_z r0 r1 cw Hc mu Mu) as HZ. destruct (hdir_par r0 r1 cw Hc mu) as [q HQ]. set (d := hdir r0 r1 cw mu) in *.
  assert (X : cross h (cross r0 r1) = vzero).
  { assert (A0 : dot h r0 = 0) by (unfold h, ang_mom, dot, cross; cbn [fst snd vx vy vz]; ring). assert (A1 : dot h r1 = 0) by (unfold h; rewrite <- (proj1 (proj2 SI)); unfold ang_mom, dot, cross; cbn [fst snd vx vy vz]; ring).
    replace (cross h (cross r0 r1)) with (vsub (vscal (dot h r1) r0) (vscal (dot h r0) r1)) by vring. rewrite A0, A1. vring. }
  apply along in X; [|exact Cn]. set (t := dot h (cross r0 r1) / _) in X. assert (QN : q <> 0) by (intros Z; rewrite HQ, Z in HZ; cbn [vscal vz] in HZ; lra).
  assert (HH : h = vscal (t / q) d) by (rewrite X, HQ, vscal_vscal; f_equal; field; exact QN).
  assert (TP : 0 < t / q). { rewrite HH in HD. cbn [vscal vz] in HD. replace ((if cw then -1 else 1) * (t / q * vz d)) with (t / q * ((if cw then -1 else 1) * vz d)) in HD by ring. set (z := (if cw then -1 else 1) * vz d) in *. destruct (Rlt_or_le 0 (t / q)) as [|G]; [assumption|]. nra. }
  destruct (size_onto lam (t / q) lamL TP) as [x HX]. exists x. apply (same_h_same_v mu r0 r1 v0 v1 _ (lv1 r0 r1 cw mu x) Mu Cn SI (same_conic r0 r1 cw Hc mu x Mu)).
  - fold h. intros Z. rewrite Z in HD. cbn in HD. lra.
  - fold h. rewrite (h0_dir r0 r1 cw Hc mu x). fold lam d. rewrite HX. exact HH.
Qed.
Lemma turns_x x N N' : -1 < x -> (1 <= x -> N' = 0%Z) -> turns mu (r0, lv0 r0 r1 cw mu x) (tau lam N' x * tu) N -> N = N'.
Proof.
  intros X X1 HT. pose proof (lambert_nd _ _ Hc) as SP. pose proof (en0 r0 r1 cw Hc mu x Mu) as E. change ((norm (vsub r1 r0) + norm r0 + norm r1) / 2) with (semiperimeter r0 r1) in E. assert (K : 0 < mu / semiperimeter r0 r1) by (apply Rdiv_lt_0_compat; assumption).
  assert (E' : energy mu (r0, lv0 r0 r1 cw mu x) = - (mu / semiperimeter r0 r1) * (1 - x * x)) by (rewrite E; field; lra).
  destruct HT as [[EN [A B]]|[EN ->]]; rewrite E' in EN; set (kk := mu / semiperimeter r0 r1) in *.
  - assert (XB : -1 < x < 1) by (split; [exact X|]; destruct (Rlt_or_le x 1) as [|G]; [assumption|]; assert (0 <= kk * (x * x - 1)) by (apply Rmult_le_pos; nra); nra). pose proof (sma_time r0 r1 mu _ x SP Mu XB E) as P. destruct (tau_revs lam ltac:(apply lamL) N' x XB) as [T1 T2]. destruct (w_sq x XB) as [WP W]. set (w := sqrt (1 - x * x)) in *. set (p := period mu _) in *. fold tu in P. pose proof tu_pos as UP. pose proof PI_RGT_0 as PP.
    assert (W3 : 0 < w * w * w) by (repeat apply Rmult_lt_0_compat; exact WP). set (w3 := w * w * w) in *.
    assert (A' : IZR N * (PI * tu) <= tau lam N' x * w3 * tu) by (rewrite <- P; nra). assert (B' : tau lam N' x * w3 * tu < (IZR N + 1) * (PI * tu)) by (rewrite <- P; nra).
    assert (C1 : IZR N < IZR N' + 1). { assert (0 < PI * tu) by (apply Rmult_lt_0_compat; assumption). apply (Rmult_lt_reg_r (PI * tu)); [assumption|]. nra. }
    assert (C2 : IZR N' < IZR N + 1). { assert (0 < PI * tu) by (apply Rmult_lt_0_compat; assumption). apply (Rmult_lt_reg_r (PI * tu)); [assumption|]. nra. }
    rewrite <- plus_IZR in C1, C2. apply lt_IZR in C1. apply lt_IZR in C2. lia.
  - symmetry. apply X1. destruct (Rlt_or_le x 1) as [G|G]; [|assumption]. assert (0 < kk * (1 - x * x)) by (apply Rmult_lt_0_compat; nra). nra.
Qed.
Lemma x_turns x N : -1 < x -> (1 <= x -> N = 0%Z) -> turns mu (r0, lv0 r0 r1 cw mu x) (tau lam N x * tu) N.
Proof.
  intros X X1. pose proof (lambert_nd _ _ Hc) as SP. pose proof (en0 r0 r1 cw Hc mu x Mu) as E. change ((norm (vsub r1 r0) + norm r0 + norm r1) / 2) with (semiperimeter r0 r1) in E. assert (K : 0 < mu / semiperimeter r0 r1) by (apply Rdiv_lt_0_compat; assumption).
  assert (E' : energy mu (r0, lv0 r0 r1 cw mu x) = - (mu / semiperimeter r0 r1) * (1 - x * x)) by (rewrite E; field; lra).
  destruct (Rlt_or_le x 1) as [H|H]; [left|right; split; [rewrite E'; assert (0 <= mu / semiperimeter r0 r1 * (x * x - 1)) by (apply Rmult_le_pos; nra); lra|apply X1, H]].
  assert (XB : -1 < x < 1) by lra. split; [rewrite E'; assert (0 < mu / semiperimeter r0 r1 * (1 - x * x)) by (apply Rmult_lt_0_compat; nra); lra|]. pose proof (sma_time r0 r1 mu _ x SP Mu XB E) as P. destruct (tau_revs lam ltac:(apply lamL) N x XB) as [T1 T2]. destruct (w_sq x XB) as [WP W]. set (w := sqrt (1 - x * x)) in *. set (p := period mu _) in *. fold tu in P. pose proof tu_pos as UP. pose proof PI_RGT_0 as PP.
  assert (W3 : 0 < w * w * w) by (repeat apply Rmult_lt_0_compat; exact WP). set (w3 := w * w * w) in *. split.
  - apply (Rmult_le_reg_r w3); [exact W3|]. replace (IZR N * p * w3) with (IZR N * (p * w3)) by ring. rewrite P. nra.
  - apply (Rmult_lt_reg_r w3); [exact W3|]. replace ((IZR N + 1) * p * w3) with ((IZR N + 1) * (p * w3)) by ring. rewrite P. nra.
Qed.
Theorem transfer_iff tof N v0 : 0 < tof -> (0 <= N)%Z -> transfer mu r0 r1 tof cw N v0 <-> exists x, -1 < x /\ (1 <= x -> N = 0%Z) /\ tau lam N x * tu = tof /\ v0 = lv0 r0 r1 cw mu x.
Proof.
  intros Ht HN. split.
  - intros [HD [[v1 FL] HT]]. assert (Hh : ang_mom (r0, v0) <> vzero) by (intros Z; rewrite Z in HD; cbn in HD; lra). assert (RG : regular mu (r0, v0)) by (split; assumption).
    destruct (flow_integrals mu (r0, v0) tof (r1, v1) RG FL) as [SI _]. destruct (velocity_x v0 v1 SI HD) as [x EX]. exists x. subst v0.
    assert (Hr : r0 <> vzero) by (intros Z; apply c_nz; rewrite Z; vring). destruct (T_onto mu r0 (lv0 r0 r1 cw mu x) Mu Hr Hh (sqrt mu * tof)) as [chi TC].
    pose proof (ustate_flow mu r0 (lv0 r0 r1 cw mu x) Mu Hr Hh tof chi TC) as FU. pose proof (flow_functional _ _ _ _ _ FL FU) as EU. assert (CP : 0 < chi). { destruct (Rlt_or_le 0 chi) as [|G]; [assumption|exfalso]. assert (SM : 0 < sqrt mu * tof) by (apply Rmult_lt_0_compat; [apply sqrt_lt_R0; exact Mu|exact Ht]). pose proof (T_0 mu r0 (lv0 r0 r1 cw mu x)) as T0. destruct G as [G|G]; [pose proof (T_incr mu r0 (lv0 r0 r1 cw mu x) Mu Hr Hh chi 0 G) as GI; rewrite T0, TC in GI; lra|rewrite G, T0 in TC; lra]. }
    destruct (arrives_back r0 r1 cw Hc mu x Mu chi tof CP ltac:(rewrite <- EU; reflexivity) TC) as [X [N' [N0 [N1 ET]]]]. fold lam tu in ET. rewrite ET in HT. pose proof (turns_x x N N' X N1 HT) as EN. subst N'. repeat split; [exact X|exact N1|symmetry; exact ET].
  - intros [x [X [N1 [ET ->]]]]. split; [exact (h_dir r0 r1 cw Hc mu x Mu)|]. split.
    + exists (lv1 r0 r1 cw mu x). rewrite <- ET. unfold lam. rewrite <- (lam_eq r0 r1 cw Hc). exact (arrives r0 r1 cw Hc mu x Mu N X HN N1).
    + rewrite <- ET. apply x_turns; assumption.
Qed.
Lemma lv0_inj x x' : -1 < x -> -1 < x' -> lv0 r0 r1 cw mu x = lv0 r0 r1 cw mu x' -> x = x'.
Proof.
  intros X X' E. pose proof (h0_dir r0 r1 cw Hc mu x) as A. pose proof (h0_dir r0 r1 cw Hc mu x') as B. rewrite E, B in A. fold lam in A. pose proof (hdir_z r0 r1 cw Hc mu Mu) as HZ. set (d := hdir r0 r1 cw mu) in *.
  apply (f_equal vz) in A. cbn [vscal vz] in A. assert (DZ : vz d <> 0) by (intros Z; rewrite Z in HZ; lra). apply Rmult_eq_reg_r in A; [|exact DZ].
  pose proof lamL as [L0 L1]. destruct (ly_sq lam L1 x) as [P1 Q1]. destruct (ly_sq lam L1 x') as [P2 Q2]. destruct (ly_lx lam L1 x) as [S1 S2]. destruct (ly_lx lam L1 x') as [S3 S4]. set (a := lam_y lam x) in *. set (b := lam_y lam x') in *.
  assert (M : a - lam * x = b - lam * x'). { apply (Rmult_eq_reg_l (a + lam * x)); [|lra]. transitivity (1 - lam * lam); [nra|]. rewrite <- A. nra. }
  apply (Rmult_eq_reg_l lam); [lra|nra].
Qed.
(** exactly one transfer without complete revolutions *)
Theorem direct_transfer tof : 0 < tof -> exists v0, transfer mu r0 r1 tof cw 0 v0 /\ forall v, transfer mu r0 r1 tof cw 0 v -> v = v0.
Proof.
  intros Ht. pose proof tu_pos as UP. destruct (tau_solution0 lam ltac:(apply lamL) (tof / tu) ltac:(apply Rdiv_lt_0_compat; assumption)) as [x [[X E] U]]. exists (lv0 r0 r1 cw mu x). split.
  - apply transfer_iff; [exact Ht|lia|]. exists x. repeat split; [exact X|]. rewrite E. field. lra.
  - intros v H. apply transfer_iff in H; [|exact Ht|lia]. destruct H as [x' [X' [_ [E' ->]]]]. f_equal. apply U; [exact X'|]. rewrite <- E'. field. lra.
Qed.
(** with N revolutions: none, one or two *)
Theorem revolution_transfers N : (1 <= N)%Z -> exists tm, IZR N * PI * tu < tm < (IZR N + 1) * PI * tu /\ forall tof, 0 < tof ->
  (tof < tm -> forall v, ~ transfer mu r0 r1 tof cw N v) /\
  (tof = tm -> exists v0, transfer mu r0 r1 tof cw N v0 /\ forall v, transfer mu r0 r1 tof cw N v -> v = v0) /\
  (tm < tof -> exists va vb, va <> vb /\ transfer mu r0 r1 tof cw N va /\ transfer mu r0 r1 tof cw N vb /\ forall v, transfer mu r0 r1 tof cw N v -> v = va \/ v = vb).
Proof.
  intros HN. pose proof tu_pos as UP. pose proof lamL as [L0 L1]. pose proof PI_RGT_0 as PP. destruct (tau_branches lam L1 N HN) as [xm [XM [DL [DR [S M]]]]]. exists (tau lam N xm * tu).
  assert (TX : forall tof v, 0 < tof -> transfer mu r0 r1 tof cw N v -> exists x, -1 < x < 1 /\ tau lam N x * tu = tof /\ v = lv0 r0 r1 cw mu x).
  { intros tof v Ht H. apply transfer_iff in H; [|exact Ht|lia]. destruct H as [x [X [X1 [E V0]]]]. exists x. split; [split; [exact X|]|split; assumption]. destruct (Rlt_or_le x 1) as [|G]; [assumption|]. specialize (X1 G). lia. }
  split.
  { destruct (tau_revs lam L1 N xm ltac:(lra)) as [A _]. destruct (tau_revs lam L1 N 0 ltac:(lra)) as [_ B]. replace (1 - 0 * 0) with 1 in B by ring. rewrite sqrt_1 in B. pose proof (M 0 ltac:(lra)) as M0. destruct (w_sq xm ltac:(lra)) as [WP W]. set (w := sqrt (1 - xm * xm)) in *. assert (0 < IZR N) by (apply IZR_lt; lia). assert (W1 : w <= 1) by nra. assert (W3 : 0 < w * w * w <= 1) by (split; [repeat apply Rmult_lt_0_compat; exact WP|nra]).
    split; apply Rmult_lt_compat_r; try exact UP; [|lra]. assert (0 < IZR N * PI) by (apply Rmult_lt_0_compat; assumption). nra. }
  intros tof Ht. split; [|split].
  - intros Hl v H. destruct (TX _ _ Ht H) as [x [X [E _]]]. pose proof (M x X). assert (tau lam N xm * tu <= tau lam N x * tu) by (apply Rmult_le_compat_r; lra). lra.
  - intros ->. exists (lv0 r0 r1 cw mu xm). split.
    + apply transfer_iff; [exact Ht|lia|]. exists xm. repeat split; [lra|intros; lra].
    + intros v H. destruct (TX _ _ Ht H) as [x [X [E ->]]]. f_equal. apply Rmult_eq_reg_r in E; [|lra]. destruct (Rtotal_order x xm) as [G|[G|G]]; [|exact G|]; exfalso; [pose proof (DL x xm ltac:(lra) G ltac:(lra))|pose proof (DR xm x ltac:(lra) G ltac:(lra))]; lra.
  - intros G. destruct (S (tof / tu)) as [a [b [A [B [EA [EB U]]]]]]; [apply Rlt_div_r; assumption|]. exists (lv0 r0 r1 cw mu a), (lv0 r0 r1 cw mu b).
    split; [intros E; apply lv0_inj in E; lra|]. split; [apply transfer_iff; [exact Ht|lia|]; exists a; repeat split; [lra|intros; lra|rewrite EA; field; lra]|]. split; [apply transfer_iff; [exact Ht|lia|]; exists b; repeat split; [lra|intros; lra|rewrite EB; field; lra]|].
    intros v H. destruct (TX _ _ Ht H) as [x [X [E ->]]]. destruct (U x X) as [->| ->]; [rewrite <- E; field; lra|left; reflexivity|right; reflexivity].
Qed.
(** the same in terms of the curve *)
Lemma transfer_feasible tof N : 0 < tof -> (0 <= N)%Z -> (exists v, transfer mu r0 r1 tof cw N v) <-> N = 0%Z \/ exists x, -1 < x < 1 /\ tau lam N x = tof / tu.
Proof.
  intros Ht HN. pose proof tu_pos as UP. split.
  - intros [v H]. apply transfer_iff in H; [|exact Ht|exact HN]. destruct H as [x [X [X1 [E _]]]]. destruct (Z.eq_dec N 0) as [|NN]; [left; assumption|right]. exists x. split; [split; [exact X|]|rewrite <- E; field; lra]. destruct (Rlt_or_le x 1) as [|G]; [assumption|]. specialize (X1 G). contradiction.
  - intros [->|[x [X E]]]; [destruct (direct_transfer tof Ht) as [v [H _]]; exists v; exact H|]. exists (lv0 r0 r1 cw mu x). apply transfer_iff; [exact Ht|exact HN|]. exists x. repeat split; [lra|intros; lra|]. rewrite E. field. lra.
Qed.
End One.
