(** * Proofs: rounding errors of the state computed by jpl_lp *)
From Coq Require Import ZArith Reals List Lra Lia Psatz.
From Flocq Require Import Core.Core IEEE754.BinarySingleNaN.
From Verif Require Import Outcome Float64 Float64Facts FloatErrSpec FloatErr FloatErrMain PlanetPeriodProofs JplModel JplErrSpec.
Import ListNotations.
Open Scope R_scope.

Definition near (B e : R) (x : double) (X : R) : Prop := is_finite x = true /\ Rabs X <= B /\ Rabs (B2R x - X) <= e * B.
Lemma rnd_near z Z B e : box 1000 B -> 0 <= e <= 1 / 100 -> Rabs Z <= B -> Rabs (z - Z) <= e * B -> Rabs z <= M /\ Rabs (rnd z - Z) <= (e + 1.1 * u) * B.
Proof.
  intros Bx E HZ Hz. pose proof (box_pos _ _ Bx) as P. destruct Bx as [L H]. pose proof u_pos as U. pose proof (eta_le 1000 B (le_n _) L) as T.
  assert (A : Rabs z <= 1.01 * B). { pose proof (Rabs_triang (z - Z) Z) as Q. replace (z - Z + Z) with z in Q by ring. nra. }
  split.
  - apply Rle_trans with (2 ^ 1010); [|apply M_big]. apply Rle_trans with (2 ^ 1001); [|apply Rle_pow; [lra|lia]]. change (2 ^ 1001) with (2 * 2 ^ 1000). set (p := 2 ^ 1000) in *. clearbody p. lra.
  - pose proof (rnd_ae z) as Er. pose proof (Rabs_triang (rnd z - z) (z - Z)) as Q. replace (rnd z - z + (z - Z)) with (rnd z - Z) in Q by ring.
    assert (u * Rabs z <= u * (1.01 * B)) by (apply Rmult_le_compat_l; lra). nra.
Qed.
Lemma near_mul B C e d x X y Y : box 400 B -> box 400 C -> 0 <= e <= 1 / 1000 -> 0 <= d <= 1 / 1000 -> near B e x X -> near C d y Y ->
  near (B * C) (1.002 * (e + d) + 1.1 * u) (dmul x y) (X * Y).
Proof.
  intros HB HC E D (Fx & BX & EX) (Fy & BY & EY). pose proof (box_pos _ _ HB) as PB. pose proof (box_pos _ _ HC) as PC.
  assert (BXY : Rabs (X * Y) <= B * C) by (rewrite Rabs_mult; apply Rmult_le_compat; auto using Rabs_pos).
  assert (Er : Rabs (B2R x * B2R y - X * Y) <= 1.002 * (e + d) * (B * C)).
  { replace (B2R x * B2R y - X * Y) with ((B2R x - X) * Y + B2R x * (B2R y - Y)) by ring. eapply Rle_trans; [apply Rabs_triang|]. rewrite !Rabs_mult.
    assert (A : Rabs (B2R x) <= 1.001 * B). { pose proof (Rabs_triang (B2R x - X) X) as Q. replace (B2R x - X + X) with (B2R x) in Q by ring. nra. }
    assert (Rabs (B2R x - X) * Rabs Y <= e * B * C) by (apply Rmult_le_compat; auto using Rabs_pos).
    assert (Rabs (B2R x) * Rabs (B2R y - Y) <= 1.001 * B * (d * C)) by (apply Rmult_le_compat; auto using Rabs_pos).
    assert (0 < B * C) by (apply Rmult_lt_0_compat; assumption). assert (0 <= d * (B * C)) by (apply Rmult_le_pos; lra). assert (0 <= e * (B * C)) by (apply Rmult_le_pos; lra). nra. }
  assert (Bx : box 1000 (B * C)) by (apply (box_weak 800); [lia|]; apply (box_mul 400 400); assumption).
  destruct (rnd_near _ _ _ (1.002 * (e + d)) Bx ltac:(lra) BXY Er) as [L R0]. destruct (dmul_ok x y Fx Fy L) as [F V0]. split; [exact F|]. rewrite V0. auto.
Qed.
Lemma near_add B C e x X y Y : box 999 (B + C) -> 0 <= B -> 0 <= C -> 0 <= e <= 1 / 100 -> near B e x X -> near C e y Y -> near (B + C) (e + 1.1 * u) (dadd x y) (X + Y).
Proof.
  intros Bx PB PC E (Fx & BX & EX) (Fy & BY & EY).
  assert (BXY : Rabs (X + Y) <= B + C) by (eapply Rle_trans; [apply Rabs_triang|lra]).
  assert (Er : Rabs (B2R x + B2R y - (X + Y)) <= e * (B + C)).
  { replace (B2R x + B2R y - (X + Y)) with ((B2R x - X) + (B2R y - Y)) by ring. eapply Rle_trans; [apply Rabs_triang|lra]. }
  destruct (rnd_near _ _ _ e (box_weak 999 1000 _ ltac:(lia) Bx) E BXY Er) as [L R0]. destruct (dadd_ok x y Fx Fy L) as [F V0]. split; [exact F|]. rewrite V0. auto.
Qed.
Lemma near_neg B e x X : near B e x X -> near B e (dneg x) (- X).
Proof. intros (F & BX & EX). unfold near, dneg. rewrite is_finite_Bopp, B2R_Bopp, Rabs_Ropp. split; [exact F|]. split; [exact BX|]. replace (- B2R x - - X) with (- (B2R x - X)) by ring. rewrite Rabs_Ropp. exact EX. Qed.
Lemma near_sub B C e x X y Y : box 999 (B + C) -> 0 <= B -> 0 <= C -> 0 <= e <= 1 / 100 -> near B e x X -> near C e y Y -> near (B + C) (e + 1.1 * u) (dsub x y) (X - Y).
Proof.
  intros Bx PB PC E (Fx & BX & EX) (Fy & BY & EY).
  assert (BXY : Rabs (X - Y) <= B + C) by (replace (X - Y) with (X + - Y) by ring; eapply Rle_trans; [apply Rabs_triang|rewrite Rabs_Ropp; lra]).
  assert (Er : Rabs (B2R x - B2R y - (X - Y)) <= e * (B + C)).
  { replace (B2R x - B2R y - (X - Y)) with ((B2R x - X) + - (B2R y - Y)) by ring. eapply Rle_trans; [apply Rabs_triang|rewrite Rabs_Ropp; lra]. }
  destruct (rnd_near _ _ _ e (box_weak 999 1000 _ ltac:(lia) Bx) E BXY Er) as [L R0]. destruct (dsub_ok x y Fx Fy L) as [F V0]. split; [exact F|]. rewrite V0. auto.
Qed.
Lemma near_weak B e d x X : 0 <= B -> e <= d -> near B e x X -> near B d x X.
Proof. intros P L (F & BX & EX). split; [exact F|]. split; [exact BX|]. eapply Rle_trans; [exact EX|]. apply Rmult_le_compat_r; assumption. Qed.
Lemma near_rel e x X : 0 < X -> is_finite x = true -> rel e (B2R x) X -> near X e x X.
Proof. intros P F H. split; [exact F|]. split; [rewrite Rabs_pos_eq; lra|exact H]. Qed.
Lemma near_add0 B e x X m : box 999 B -> 0 <= e <= 1 / 100 -> near B e x X -> is_finite m = true -> near B (e + 1.1 * u) (dadd x (dmul m dzero)) X.
Proof.
  intros Bx E (Fx & BX & EX) Fm. assert (Z0 : is_finite dzero = true) by reflexivity. assert (B0 : B2R dzero = 0) by reflexivity.
  assert (LM : Rabs (B2R m * B2R dzero) <= M). { rewrite B0, Rmult_0_r, Rabs_R0. apply Rle_trans with (2 ^ 1010); [apply pow_le; lra|apply M_big]. }
  destruct (dmul_ok m dzero Fm Z0 LM) as [Fz Vz]. rewrite B0, Rmult_0_r in Vz. assert (Vz' : B2R (dmul m dzero) = 0) by (rewrite Vz; unfold rnd; apply round_0; auto with typeclass_instances).
  assert (Er : Rabs (B2R x + B2R (dmul m dzero) - X) <= e * B) by (rewrite Vz', Rplus_0_r; exact EX).
  destruct (rnd_near _ _ _ e (box_weak 999 1000 _ ltac:(lia) Bx) E BX Er) as [L R0]. destruct (dadd_ok x _ Fx Fz L) as [F V0]. split; [exact F|]. rewrite V0. auto.
Qed.
Lemma box_small k x : 1 / 4 <= x <= 16 -> box (4 + k) x.
Proof. intro H. apply (box_weak 4); [lia|]. unfold box. lra. Qed.

Lemma op_div_neg (x y : double) X Y d e : is_finite x = true -> 0 < X -> 0 < Y -> 0 <= d <= 1 / 1000 -> 0 <= e <= 1 / 2000 -> rel d (B2R x) X -> rel e (B2R y) Y -> box 1000 (X / Y) ->
  is_finite (ddiv (dneg x) y) = true /\ rel (1.01 * (d + e) + 1.1 * u) (- B2R (ddiv (dneg x) y)) (X / Y).
Proof.
  intros Fx PX PY D E RX RY B. destruct (rel_inv _ _ _ PY E RY) as [Py RI]. assert (J : 0 < / Y) by (apply Rinv_0_lt_compat; lra).
  pose proof (rel_mul d (1.001 * e) _ _ _ _ PX J D ltac:(lra) RX RI) as Q. change (B2R x * / B2R y) with (B2R x / B2R y) in Q. change (X * / Y) with (X / Y) in Q. assert (Q' : rel (1.01 * (d + e)) (B2R x / B2R y) (X / Y)). { unfold rel in *. eapply Rle_trans; [exact Q|]. apply Rmult_le_compat_r; [apply Rlt_le, Rmult_lt_0_compat; assumption|lra]. }
  destruct (PlanetPeriodProofs.fin _ _ (1.01 * (d + e)) B ltac:(lra) Q') as [L R0].
  assert (Fn : is_finite (dneg x) = true) by (unfold dneg; rewrite is_finite_Bopp; exact Fx). assert (Vn : B2R (dneg x) = - B2R x) by (unfold dneg; apply B2R_Bopp).
  assert (Ln : Rabs (B2R (dneg x) / B2R y) <= M) by (rewrite Vn; replace (- B2R x / B2R y) with (- (B2R x / B2R y)) by (field; lra); rewrite Rabs_Ropp; exact L).
  destruct (ddiv_ok (dneg x) y Fn ltac:(lra) Ln) as [F V0]. split; [exact F|]. rewrite V0, Vn. replace (- B2R x / B2R y) with (- (B2R x / B2R y)) by (field; lra).
  unfold rnd in *. rewrite round_NE_opp, Ropp_involutive. exact R0.
Qed.

Section Par2ic.
Variables (dcos dsin : double -> double) (a e i W w f mu : double).
Hypothesis Hc : accurate dcos cos.
Hypothesis Hs : accurate dsin sin.
Hypothesis Fa : is_finite a = true.
Hypothesis Fe : is_finite e = true.
Hypothesis Fi : is_finite i = true.
Hypothesis FW : is_finite W = true.
Hypothesis Fw : is_finite w = true.
Hypothesis Ff : is_finite f = true.
Hypothesis Fmu : is_finite mu = true.
Hypothesis Ba : box 70 (B2R a).
Hypothesis Bmu : box 70 (B2R mu).
Hypothesis He : 0 < B2R e <= 1 / 4.

Lemma half_ulp : / 2 ^ 52 = 2 * u. Proof. unfold u. change (2 ^ 53) with (2 * 2 ^ 52). assert (0 < 2 ^ 52) by (apply pow_lt; lra). field. Qed.
Lemma near_cos x : is_finite x = true -> near 1 (2 * u) (dcos x) (cos (B2R x)).
Proof. intro F. destruct (Hc x F) as [G D]. rewrite half_ulp in D. split; [exact G|]. pose proof (COS_bound (B2R x)). split; [apply Rabs_le; lra|lra]. Qed.
Lemma near_sin x : is_finite x = true -> near 1 (2 * u) (dsin x) (sin (B2R x)).
Proof. intro F. destruct (Hs x F) as [G D]. rewrite half_ulp in D. split; [exact G|]. pose proof (SIN_bound (B2R x)). split; [apply Rabs_le; lra|lra]. Qed.
Lemma box4 x : 1 / 16 <= x <= 16 -> box 400 x.
Proof. intro H. apply (box_weak 4); [lia|]. unfold box. lra. Qed.
Lemma one_d : is_finite done = true /\ B2R done = 1. Proof. exact (d_of_Z_exact 1 ltac:(lia)). Qed.
Lemma near_one : near 1 0 done 1.
Proof. destruct one_d as [F E]. split; [exact F|]. rewrite E, Rabs_R1. split; [lra|]. rewrite Rminus_diag_eq, Rabs_R0 by reflexivity. lra. Qed.
Lemma near_e : near (1 / 4) 0 e (B2R e).
Proof. split; [exact Fe|]. rewrite Rminus_diag_eq, Rabs_R0 by reflexivity. rewrite Rabs_pos_eq by lra. lra. Qed.

Definition q := dsub done (dmul e e).
Definition P := B2R a * (1 - B2R e ^ 2).
Definition p := dmul a q.
Lemma q_rel : is_finite q = true /\ rel (2.6 * u) (B2R q) (1 - B2R e ^ 2).
Proof.
  pose proof u_pos as U. pose proof (near_mul _ _ 0 0 _ _ _ _ (box4 (1 / 4) ltac:(lra)) (box4 (1 / 4) ltac:(lra)) ltac:(lra) ltac:(lra) near_e near_e) as N.
  assert (N' : near (1 / 4 * (1 / 4)) (1.1 * u) (dmul e e) (B2R e * B2R e)) by (eapply near_weak; [lra| |exact N]; lra).
  assert (O' : near 1 (1.1 * u) done 1) by (eapply near_weak; [lra| |exact near_one]; lra).
  pose proof (near_sub _ _ (1.1 * u) _ _ _ _ (box_weak 400 999 _ ltac:(lia) (box4 (1 + 1 / 4 * (1 / 4)) ltac:(lra))) ltac:(lra) ltac:(lra) ltac:(lra) O' N') as (F & _ & E).
  split; [exact F|]. unfold rel, q. replace (1 - B2R e ^ 2) with (1 - B2R e * B2R e) by ring. assert (B2R e * B2R e <= 1 / 16) by nra. nra.
Qed.
Lemma Q_box : 15 / 16 <= 1 - B2R e ^ 2 <= 1. Proof. nra. Qed.
Lemma P_box : box 74 P. Proof. pose proof Q_box. apply (box_mul 70 4); [exact Ba|unfold box; lra]. Qed.
Lemma P_pos : 0 < P. Proof. exact (box_pos _ _ P_box). Qed.
Lemma p_rel : is_finite p = true /\ rel (3.8 * u) (B2R p) P.
Proof.
  pose proof u_pos as U. destruct q_rel as [Fq Rq]. pose proof Q_box as Q.
  destruct (op_mul a q (B2R a) (1 - B2R e ^ 2) 0 (2.6 * u) Fa Fq (box_pos _ _ Ba) ltac:(lra) ltac:(lra) ltac:(lra) (rel_refl _ (box_pos _ _ Ba)) Rq (box_weak 74 1000 _ ltac:(lia) P_box)) as [F R0].
  split; [exact F|]. eapply rel_weak; [exact P_pos| |exact R0]. lra.
Qed.
Definition D0 := 1 + B2R e * cos (B2R f).
Lemma D_box : 3 / 4 <= D0 <= 5 / 4. Proof. unfold D0. pose proof (COS_bound (B2R f)). nra. Qed.
Lemma d_rel : rel (7.5 * u) (B2R (dadd done (dmul e (dcos f)))) D0.
Proof.
  pose proof u_pos as U. pose proof D_box as Db. pose proof (near_mul _ _ 0 (2 * u) _ _ _ _ (box4 (1 / 4) ltac:(lra)) (box4 1 ltac:(lra)) ltac:(lra) ltac:(lra) near_e (near_cos f Ff)) as N.
  assert (N' : near (1 / 4 * 1) (3.2 * u) (dmul e (dcos f)) (B2R e * cos (B2R f))) by (eapply near_weak; [lra| |exact N]; lra).
  assert (O' : near 1 (3.2 * u) done 1) by (eapply near_weak; [lra| |exact near_one]; lra).
  pose proof (near_add _ _ (3.2 * u) _ _ _ _ (box_weak 400 999 _ ltac:(lia) (box4 (1 + 1 / 4 * 1) ltac:(lra))) ltac:(lra) ltac:(lra) ltac:(lra) O' N') as (F & _ & E).
  unfold rel. fold D0 in E. nra.
Qed.
Definition Rr := P / D0.
Lemma R_box : box 78 Rr. Proof. pose proof D_box. apply (box_div 74 4); [exact P_box|unfold box; lra]. Qed.
Definition r := ddiv p (dadd done (dmul e (dcos f))).
Lemma r_near : near Rr (13 * u) r Rr.
Proof.
  pose proof u_pos as U. destruct p_rel as [Fp Rp]. pose proof D_box as Db.
  destruct (op_div p _ P D0 (3.8 * u) (7.5 * u) Fp P_pos ltac:(lra) ltac:(lra) ltac:(lra) Rp d_rel (box_weak 78 1000 _ ltac:(lia) R_box)) as [F R0].
  apply near_rel; [exact (box_pos _ _ R_box)|exact F|]. eapply rel_weak; [exact (box_pos _ _ R_box)| |exact R0]. lra.
Qed.
Definition h := dsqrt (dmul p mu).
Definition S0 := B2R mu / sqrt (P * B2R mu).
Lemma S_box : box 214 S0.
Proof. apply (box_div 70 144); [exact Bmu|]. apply box_sqrt. apply (box_mul 74 70); [exact P_box|exact Bmu]. Qed.
Lemma S_eq : S0 = speed (B2R mu) (B2R a) (B2R e).
Proof.
  unfold S0, speed. fold P. pose proof P_pos as HP. pose proof (box_pos _ _ Bmu) as HM. rewrite sqrt_mult, sqrt_div by lra.
  pose proof (sqrt_lt_R0 _ HP). pose proof (sqrt_lt_R0 _ HM). rewrite <- (sqrt_sqrt (B2R mu)) at 1 by lra. field. lra.
Qed.
Lemma s_rel : is_finite (ddiv mu h) = true /\ rel (8 * u) (B2R (ddiv mu h)) S0.
Proof.
  pose proof u_pos as U. destruct p_rel as [Fp Rp]. pose proof P_pos as HP. pose proof (box_pos _ _ Bmu) as HM.
  assert (B1 : box 144 (P * B2R mu)) by (apply (box_mul 74 70); [exact P_box|exact Bmu]).
  destruct (op_mul p mu P (B2R mu) (3.8 * u) 0 Fp Fmu HP HM ltac:(lra) ltac:(lra) Rp (rel_refl _ HM) (box_weak 144 1000 _ ltac:(lia) B1)) as [F1 R1].
  apply (rel_weak _ (5 * u)) in R1; [|exact (box_pos _ _ B1)|lra].
  destruct (op_sqrt _ _ (5 * u) F1 (box_pos _ _ B1) ltac:(lra) R1 (box_weak 144 1000 _ ltac:(lia) (box_sqrt _ _ B1))) as [F2 R2]. fold h in F2, R2. apply (rel_weak _ (6.2 * u)) in R2; [|exact (box_pos _ _ (box_sqrt _ _ B1))|lra].
  destruct (op_div mu h (B2R mu) (sqrt (P * B2R mu)) 0 (6.2 * u) Fmu HM (box_pos _ _ (box_sqrt _ _ B1)) ltac:(lra) ltac:(lra) (rel_refl _ HM) R2 (box_weak 214 1000 _ ltac:(lia) S_box)) as [F3 R3].
  split; [exact F3|]. eapply rel_weak; [exact (box_pos _ _ S_box)| |exact R3]. lra.
Qed.
Lemma sneg_near : near S0 (8 * u) (ddiv (dneg mu) h) (- S0).
Proof.
  pose proof u_pos as U. destruct p_rel as [Fp Rp]. pose proof P_pos as HP. pose proof (box_pos _ _ Bmu) as HM.
  assert (B1 : box 144 (P * B2R mu)) by (apply (box_mul 74 70); [exact P_box|exact Bmu]).
  destruct (op_mul p mu P (B2R mu) (3.8 * u) 0 Fp Fmu HP HM ltac:(lra) ltac:(lra) Rp (rel_refl _ HM) (box_weak 144 1000 _ ltac:(lia) B1)) as [F1 R1].
  apply (rel_weak _ (5 * u)) in R1; [|exact (box_pos _ _ B1)|lra].
  destruct (op_sqrt _ _ (5 * u) F1 (box_pos _ _ B1) ltac:(lra) R1 (box_weak 144 1000 _ ltac:(lia) (box_sqrt _ _ B1))) as [F2 R2]. fold h in F2, R2. apply (rel_weak _ (6.2 * u)) in R2; [|exact (box_pos _ _ (box_sqrt _ _ B1))|lra].
  destruct (op_div_neg mu h (B2R mu) (sqrt (P * B2R mu)) 0 (6.2 * u) Fmu HM (box_pos _ _ (box_sqrt _ _ B1)) ltac:(lra) ltac:(lra) (rel_refl _ HM) R2 (box_weak 214 1000 _ ltac:(lia) S_box)) as [F3 R3].
  pose proof (box_pos _ _ S_box) as SP. fold S0 in R3. split; [exact F3|]. split; [rewrite Rabs_Ropp, Rabs_pos_eq; lra|]. unfold rel in R3.
  replace (B2R (ddiv (dneg mu) h) - - S0) with (- (- B2R (ddiv (dneg mu) h) - S0)) by ring. rewrite Rabs_Ropp. eapply Rle_trans; [exact R3|]. apply Rmult_le_compat_r; lra.
Qed.

Lemma widen B e0 B' e' x X : B <= B' -> e0 * B <= e' * B' -> near B e0 x X -> near B' e' x X.
Proof. intros H1 H2 (F & BX & EX). split; [exact F|]. split; lra. Qed.
Lemma near_prod x X y Y : near 1 (2 * u) x X -> near 1 (2 * u) y Y -> near 1 (5.2 * u) (dmul x y) (X * Y).
Proof.
  intros A B. pose proof u_pos as U. pose proof (near_mul _ _ (2 * u) (2 * u) _ _ _ _ (box4 1 ltac:(lra)) (box4 1 ltac:(lra)) ltac:(lra) ltac:(lra) A B) as N.
  eapply widen; [| |exact N]; lra.
Qed.
Lemma near_prod3 x X y Y z Z : near 1 (2 * u) x X -> near 1 (2 * u) y Y -> near 1 (2 * u) z Z -> near 1 (8.4 * u) (dmul (dmul x y) z) (X * Y * Z).
Proof.
  intros A B C. pose proof u_pos as U. pose proof (near_mul _ _ (5.2 * u) (2 * u) _ _ _ _ (box4 1 ltac:(lra)) (box4 1 ltac:(lra)) ltac:(lra) ltac:(lra) (near_prod _ _ _ _ A B) C) as N.
  eapply widen; [| |exact N]; lra.
Qed.
Lemma near_plus x X y Y : near 1 (5.2 * u) x X -> near 1 (8.4 * u) y Y -> near 2 (9.5 * u) (dadd x y) (X + Y).
Proof.
  intros A B. pose proof u_pos as U. assert (A' : near 1 (8.4 * u) x X) by (eapply widen; [| |exact A]; lra).
  pose proof (near_add 1 1 (8.4 * u) _ _ _ _ (box_weak 400 999 _ ltac:(lia) (box4 (1 + 1) ltac:(lra))) ltac:(lra) ltac:(lra) ltac:(lra) A' B) as N. eapply widen; [| |exact N]; lra.
Qed.
Lemma near_minus x X y Y : near 1 (5.2 * u) x X -> near 1 (8.4 * u) y Y -> near 2 (9.5 * u) (dsub x y) (X - Y).
Proof.
  intros A B. pose proof u_pos as U. assert (A' : near 1 (8.4 * u) x X) by (eapply widen; [| |exact A]; lra).
  pose proof (near_sub 1 1 (8.4 * u) _ _ _ _ (box_weak 400 999 _ ltac:(lia) (box4 (1 + 1) ltac:(lra))) ltac:(lra) ltac:(lra) ltac:(lra) A' B) as N. eapply widen; [| |exact N]; lra.
Qed.
Lemma near_row m0 M0 m1 M1 m2 x X y Y B C t : near 2 (9.5 * u) m0 M0 -> near 2 (9.5 * u) m1 M1 -> is_finite m2 = true -> box 300 B -> box 300 C -> 0 <= t <= 1 / 10000 ->
  near B t x X -> near C t y Y ->
  within ((1.002 * (9.5 * u + t) + 3.3 * u) * (2 * B + 2 * C)) (dadd (dadd (dmul m0 x) (dmul m1 y)) (dmul m2 dzero)) (M0 * X + M1 * Y).
Proof.
  intros H0 H1 F2 HB HC T Nx Ny. pose proof u_pos as U. pose proof (box_pos _ _ HB) as PB. pose proof (box_pos _ _ HC) as PC.
  pose proof (near_mul _ _ (9.5 * u) t _ _ _ _ (box4 2 ltac:(lra)) (box_weak 300 400 _ ltac:(lia) HB) ltac:(lra) ltac:(lra) H0 Nx) as N1.
  pose proof (near_mul _ _ (9.5 * u) t _ _ _ _ (box4 2 ltac:(lra)) (box_weak 300 400 _ ltac:(lia) HC) ltac:(lra) ltac:(lra) H1 Ny) as N2.
  assert (Bx : box 999 (2 * B + 2 * C)).
  { apply (box_weak 303); [lia|]. unfold box in *. destruct HB as [HB1 HB2], HC as [HC1 HC2]. change 303%nat with (3 + 300)%nat. rewrite pow_add, Rinv_mult.
    assert (0 < / 2 ^ 300) by (apply Rinv_0_lt_compat, pow_lt; lra). set (k := 2 ^ 300) in *. set (l := / k) in *. clearbody k l. simpl (2 ^ 3). lra. }
  pose proof (near_add (2 * B) (2 * C) (1.002 * (9.5 * u + t) + 1.1 * u) _ _ _ _ Bx ltac:(lra) ltac:(lra) ltac:(lra) N1 N2) as N3.
  pose proof (near_add0 (2 * B + 2 * C) (1.002 * (9.5 * u + t) + 1.1 * u + 1.1 * u) _ _ m2 Bx ltac:(lra) N3 F2) as (F & _ & E). split; [exact F|]. eapply Rle_trans; [exact E|]. apply Rmult_le_compat_r; lra.
Qed.
Lemma within_weak a0 b x X Y : a0 <= b -> X = Y -> within a0 x X -> within b x Y.
Proof. intros L <- [F E]. split; [exact F|lra]. Qed.
Lemma guard1 : dltb (dmul a (dsub done e)) dzero = false.
Proof.
  pose proof u_pos as U. pose proof (near_sub _ _ 0 _ _ _ _ (box_weak 400 999 _ ltac:(lia) (box4 (1 + 1 / 4) ltac:(lra))) ltac:(lra) ltac:(lra) ltac:(lra) near_one near_e) as (F & _ & E).
  assert (R1 : rel (2 * u) (B2R (dsub done e)) (1 - B2R e)) by (unfold rel; nra).
  destruct (op_mul a (dsub done e) (B2R a) (1 - B2R e) 0 (2 * u) Fa F (box_pos _ _ Ba) ltac:(lra) ltac:(lra) ltac:(lra) (rel_refl _ (box_pos _ _ Ba)) R1
    (box_weak 74 1000 _ ltac:(lia) (box_mul 70 4 (B2R a) (1 - B2R e) Ba ltac:(unfold box; lra)))) as [F2 R2].
  destruct (dltb _ dzero) eqn:L; [|reflexivity]. apply dltb_R in L; [|exact F2|reflexivity]. change (B2R dzero) with 0 in L. apply rel_bd in R2.
  pose proof (box_pos _ _ Ba). exfalso. assert (0 < B2R a * (1 - B2R e)) by (apply Rmult_lt_0_compat; lra). nra.
Qed.
Lemma guard2 : (dgtb e done && dltb (dcos f) (ddiv (d_of_Z (-1)) e))%bool = false.
Proof. unfold dgtb. destruct (dltb done e) eqn:L; [|reflexivity]. destruct one_d as [F1 V1]. apply dltb_R in L; [|exact F1|exact Fe]. lra. Qed.
Theorem par2ic_accurate : exists x y z vx vy vz, par2ic dcos dsin [a; e; i; W; w; f] mu = Ret [x; y; z; vx; vy; vz] /\
  Forall2 (within (radius (B2R a) (B2R e) (B2R f) / 2 ^ 46)) [x; y; z] (orbit_position (B2R a) (B2R e) (B2R i) (B2R W) (B2R w) (B2R f)) /\
  Forall2 (within (speed (B2R mu) (B2R a) (B2R e) / 2 ^ 46)) [vx; vy; vz] (orbit_velocity (B2R mu) (B2R a) (B2R e) (B2R i) (B2R W) (B2R w) (B2R f)).
Proof.
  pose proof u_pos as U. unfold par2ic, nthd. cbn [nth]. cbv zeta. rewrite guard1, guard2. cbn [guard bind].
  do 6 eexists. split; [reflexivity|]. change (dsub done (dmul e e)) with q. change (dmul a q) with p. change (ddiv p (dadd done (dmul e (dcos f)))) with r. change (dsqrt (dmul p mu)) with h.
  pose proof (near_cos W FW) as cW. pose proof (near_sin W FW) as sW. pose proof (near_cos w Fw) as cw. pose proof (near_sin w Fw) as sw.
  pose proof (near_cos i Fi) as ci. pose proof (near_sin i Fi) as si. pose proof (near_cos f Ff) as cf. pose proof (near_sin f Ff) as sf.
  pose proof (near_minus _ _ _ _ (near_prod _ _ _ _ cW cw) (near_prod3 _ _ _ _ _ _ sW sw ci)) as M00.
  pose proof (near_minus _ _ _ _ (near_prod _ _ _ _ (near_neg _ _ _ _ cW) sw) (near_prod3 _ _ _ _ _ _ sW cw ci)) as M01.
  pose proof (near_plus _ _ _ _ (near_prod _ _ _ _ sW cw) (near_prod3 _ _ _ _ _ _ cW sw ci)) as M10.
  pose proof (near_plus _ _ _ _ (near_prod _ _ _ _ (near_neg _ _ _ _ sW) sw) (near_prod3 _ _ _ _ _ _ cW cw ci)) as M11.
  pose proof (widen 1 (5.2 * u) 2 (9.5 * u) _ _ ltac:(lra) ltac:(lra) (near_prod _ _ _ _ sw si)) as M20.
  pose proof (widen 1 (5.2 * u) 2 (9.5 * u) _ _ ltac:(lra) ltac:(lra) (near_prod _ _ _ _ cw si)) as M21.
  pose proof (proj1 (near_prod _ _ _ _ sW si)) as F02. pose proof (proj1 (near_prod _ _ _ _ (near_neg _ _ _ _ cW) si)) as F12. pose proof (proj1 ci) as F22.
  pose proof R_box as RB. pose proof S_box as SB. pose proof (box_pos _ _ RB) as RP. pose proof (box_pos _ _ SB) as SP.
  assert (NX : near Rr (16.2 * u) (dmul r (dcos f)) (Rr * cos (B2R f))).
  { pose proof (near_mul _ _ (13 * u) (2 * u) _ _ _ _ (box_weak 78 400 _ ltac:(lia) RB) (box4 1 ltac:(lra)) ltac:(lra) ltac:(lra) r_near cf) as N. eapply widen; [| |exact N]; nra. }
  assert (NY : near Rr (16.2 * u) (dmul r (dsin f)) (Rr * sin (B2R f))).
  { pose proof (near_mul _ _ (13 * u) (2 * u) _ _ _ _ (box_weak 78 400 _ ltac:(lia) RB) (box4 1 ltac:(lra)) ltac:(lra) ltac:(lra) r_near sf) as N. eapply widen; [| |exact N]; nra. }
  assert (NVX : near S0 (12.4 * u) (dmul (ddiv (dneg mu) h) (dsin f)) (- S0 * sin (B2R f))).
  { pose proof (near_mul _ _ (8 * u) (2 * u) _ _ _ _ (box_weak 214 400 _ ltac:(lia) SB) (box4 1 ltac:(lra)) ltac:(lra) ltac:(lra) sneg_near sf) as N. eapply widen; [| |exact N]; nra. }
  assert (NVY : near (S0 * (5 / 4)) (12.4 * u) (dmul (ddiv mu h) (dadd e (dcos f))) (S0 * (B2R e + cos (B2R f)))).
  { assert (E2 : near (1 / 4) (2 * u) e (B2R e)) by (eapply near_weak; [lra| |exact near_e]; lra).
    pose proof (near_add _ _ (2 * u) _ _ _ _ (box_weak 400 999 _ ltac:(lia) (box4 (1 / 4 + 1) ltac:(lra))) ltac:(lra) ltac:(lra) ltac:(lra) E2 cf) as N1.
    destruct s_rel as [Fs Rs]. pose proof (near_mul _ _ (8 * u) (2 * u + 1.1 * u) _ _ _ _ (box_weak 214 400 _ ltac:(lia) SB) (box4 (1 / 4 + 1) ltac:(lra)) ltac:(lra) ltac:(lra) (near_rel _ _ _ SP Fs Rs) N1) as N. eapply widen; [| |exact N]; nra. }
  assert (RB3 : box 300 Rr) by (apply (box_weak 78); [lia|exact RB]). assert (SB3 : box 300 S0) by (apply (box_weak 214); [lia|exact SB]).
  assert (SB4 : box 300 (S0 * (5 / 4))) by (apply (box_weak 215); [lia|]; apply (box_mul 214 1); [exact SB|unfold box; lra]).
  assert (E46 : / 2 ^ 46 = 128 * u) by (unfold u; rewrite (pow_add 2 46 7 : 2 ^ 53 = _), Rinv_mult; simpl (2 ^ 7); lra).
  assert (LP : (1.002 * (9.5 * u + 16.2 * u) + 3.3 * u) * (2 * Rr + 2 * Rr) <= radius (B2R a) (B2R e) (B2R f) / 2 ^ 46).
  { change (radius (B2R a) (B2R e) (B2R f)) with Rr. unfold Rdiv at 1. rewrite E46. nra. }
  assert (LV : (1.002 * (9.5 * u + 12.4 * u) + 3.3 * u) * (2 * S0 + 2 * (S0 * (5 / 4))) <= speed (B2R mu) (B2R a) (B2R e) / 2 ^ 46).
  { rewrite <- S_eq. unfold Rdiv at 2. rewrite E46. nra. }
  split; unfold orbit_position, orbit_velocity; cbv zeta; rewrite ?cos_plus, ?sin_plus.
  - change (radius (B2R a) (B2R e) (B2R f)) with Rr in *. apply Forall2_cons; [|apply Forall2_cons; [|apply Forall2_cons; [|apply Forall2_nil]]].
    + eapply within_weak; [exact LP| |exact (near_row _ _ _ _ _ _ _ _ _ _ _ (16.2 * u) M00 M01 F02 RB3 RB3 ltac:(lra) NX NY)]. ring.
    + eapply within_weak; [exact LP| |exact (near_row _ _ _ _ _ _ _ _ _ _ _ (16.2 * u) M10 M11 F12 RB3 RB3 ltac:(lra) NX NY)]. ring.
    + eapply within_weak; [exact LP| |exact (near_row _ _ _ _ _ _ _ _ _ _ _ (16.2 * u) M20 M21 F22 RB3 RB3 ltac:(lra) NX NY)]. ring.
  - rewrite <- S_eq in *. apply Forall2_cons; [|apply Forall2_cons; [|apply Forall2_cons; [|apply Forall2_nil]]].
    + eapply within_weak; [exact LV| |exact (near_row _ _ _ _ _ _ _ _ _ _ _ (12.4 * u) M00 M01 F02 SB3 SB4 ltac:(lra) NVX NVY)]. ring.
    + eapply within_weak; [exact LV| |exact (near_row _ _ _ _ _ _ _ _ _ _ _ (12.4 * u) M10 M11 F12 SB3 SB4 ltac:(lra) NVX NVY)]. ring.
    + eapply within_weak; [exact LV| |exact (near_row _ _ _ _ _ _ _ _ _ _ _ (12.4 * u) M20 M21 F22 SB3 SB4 ltac:(lra) NVX NVY)]. ring.
Qed.
End Par2ic.
