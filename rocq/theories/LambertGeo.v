(** * Algebra of Lambert's problem: the terminal velocities for a given x *)
From Coq Require Import Reals Lra Nsatz.
From Coquelicot Require Import Coquelicot.
From Verif Require Import RealLib Vec3 TwoBodySpec FlowProofs LagProofs.
Open Scope R_scope.

Section Scalars.
Variables (m k lam rho sig x y Rs Rf C S : R).
(** m = sqrt mu, k = sqrt (s / 2) *)
Hypothesis M : 0 < m. Hypothesis K : 0 < k.
Hypothesis ERs : Rs = k * k * ((1 + lam * lam) + rho * (1 - lam * lam)).
Hypothesis ERf : Rf = k * k * ((1 + lam * lam) - rho * (1 - lam * lam)).
Hypothesis Es : rho * rho + sig * sig = 1.
Hypothesis Ey : y * y = 1 - lam * lam + lam * lam * x * x.
Hypothesis Ps : 0 < Rs. Hypothesis Pf : 0 < Rf.
Hypothesis ES : Rs * Rf * S = 4 * k * k * k * k * lam * sig * (1 - lam * lam).
Hypothesis EC : Rs * Rf * C = (Rs * Rs + Rf * Rf - 4 * k * k * k * k * (1 - lam * lam) * (1 - lam * lam)) / 2.
Let vrs := m * k * ((lam * y - x) - rho * (lam * y + x)) / Rs.
Let vrf := - (m * k) * ((lam * y - x) + rho * (lam * y + x)) / Rf.
Let vt := m * k * sig * (y + lam * x).
Lemma nzs : Rs <> 0. Proof. lra. Qed.
Lemma nzf : Rf <> 0. Proof. lra. Qed.
Ltac fs := field; repeat split; (lra || assumption).
Lemma en_s : (vrs * vrs + vt / Rs * (vt / Rs)) / 2 - m * m / Rs = - (m * m) * (1 - x * x) / (2 * (k * k)).
Proof.
  assert (K2 : k * k <> 0) by nra.
  apply (Rmult_eq_reg_r (2 * (k * k) * (Rs * Rs) * 2)); [|apply Rmult_integral_contrapositive_currified; [|lra]; apply Rmult_integral_contrapositive_currified; [lra|nra]].
  transitivity (2 * (k * k) * ((m * k * ((lam * y - x) - rho * (lam * y + x))) * (m * k * ((lam * y - x) - rho * (lam * y + x))) + vt * vt - 2 * (m * m) * Rs)); [unfold vrs; field; lra|].
  transitivity (- (m * m) * (1 - x * x) * (2 * (Rs * Rs))); [|field; lra].
  unfold vt. rewrite ERs. clear - Es Ey. nsz.
Qed.
Lemma en_f : (vrf * vrf + vt / Rf * (vt / Rf)) / 2 - m * m / Rf = - (m * m) * (1 - x * x) / (2 * (k * k)).
Proof.
  assert (K2 : k * k <> 0) by nra.
  apply (Rmult_eq_reg_r (2 * (k * k) * (Rf * Rf) * 2)); [|apply Rmult_integral_contrapositive_currified; [|lra]; apply Rmult_integral_contrapositive_currified; [lra|nra]].
  transitivity (2 * (k * k) * ((m * k * ((lam * y - x) + rho * (lam * y + x))) * (m * k * ((lam * y - x) + rho * (lam * y + x))) + vt * vt - 2 * (m * m) * Rf)); [unfold vrf; field; lra|].
  transitivity (- (m * m) * (1 - x * x) * (2 * (Rf * Rf))); [|field; lra].
  unfold vt. rewrite ERf. clear - Es Ey. nsz.
Qed.
Lemma rr : Rs * Rf = k * k * k * k * ((1 + lam * lam) * (1 + lam * lam) - rho * rho * ((1 - lam * lam) * (1 - lam * lam))).
Proof. rewrite ERs, ERf. ring. Qed.
Lemma EC' : Rs * Rf * C = k * k * k * k * ((1 + lam * lam) * (1 + lam * lam) + rho * rho * ((1 - lam * lam) * (1 - lam * lam)) - 2 * ((1 - lam * lam) * (1 - lam * lam))).
Proof. rewrite EC, ERs, ERf. field. Qed.
Lemma CS : C * C + S * S = 1.
Proof.
  apply (Rmult_eq_reg_r ((Rs * Rf) * (Rs * Rf))); [|assert (0 < Rs * Rf) by (apply Rmult_lt_0_compat; assumption); nra].
  transitivity ((Rs * Rf * C) * (Rs * Rf * C) + (Rs * Rf * S) * (Rs * Rf * S)); [ring|]. rewrite ES, EC', ERs, ERf. clear - Es. nsz.
Qed.
(** eccentricity vector *)
Lemma ecc_u : vt / Rs * vt / (m * m) - 1 = (vt / Rf * vt / (m * m) - 1) * C + vrf * vt / (m * m) * S.
Proof.
  assert (P : 0 < Rs * Rf) by (apply Rmult_lt_0_compat; assumption). assert (M2 : 0 < m * m) by nra.
  apply (Rmult_eq_reg_r (Rs * Rf * Rf * (m * m))); [|apply Rmult_integral_contrapositive_currified; [|lra]; nra].
  transitivity (Rf * (Rf * (vt * vt) - (Rs * Rf) * (m * m))); [field; lra|].
  transitivity ((vt * vt - m * m * Rf) * (Rs * Rf * C) + (vrf * Rf) * vt * (Rs * Rf * S)); [|field; lra]. rewrite ES, EC'.
  replace (vrf * Rf) with (- (m * k) * ((lam * y - x) + rho * (lam * y + x))) by (unfold vrf; field; lra). unfold vt. rewrite ?ERs, ?ERf. clear - Es Ey. nsz.
Qed.
Lemma ecc_w : - (vrs * vt / (m * m)) = (vt / Rf * vt / (m * m) - 1) * S - vrf * vt / (m * m) * C.
Proof.
  assert (P : 0 < Rs * Rf) by (apply Rmult_lt_0_compat; assumption). assert (M2 : 0 < m * m) by nra.
  apply (Rmult_eq_reg_r (Rs * Rf * Rf * (m * m))); [|apply Rmult_integral_contrapositive_currified; [|lra]; nra].
  transitivity (- ((vrs * Rs) * vt * Rf * Rf)); [field; lra|].
  transitivity ((vt * vt - m * m * Rf) * (Rs * Rf * S) - (vrf * Rf) * vt * (Rs * Rf * C)); [|field; lra]. rewrite ES, EC'.
  replace (vrf * Rf) with (- (m * k) * ((lam * y - x) + rho * (lam * y + x))) by (unfold vrf; field; lra).
  replace (vrs * Rs) with (m * k * ((lam * y - x) - rho * (lam * y + x))) by (unfold vrs; field; lra). unfold vt. rewrite ?ERs, ?ERf. clear - Es Ey. nsz.
Qed.
(** propagation *)
Let u1 := 2 * k * (y - lam * x) * (x * y + lam * (1 - x * x)).
Let u2 := 2 * (k * k) * ((y - lam * x) * (y - lam * x)).
Let al := (1 - x * x) / (k * k).
Lemma prop_rf : Rs * (1 - al * u2) + Rs * vrs / m * u1 + u2 = Rf.
Proof.
  transitivity (Rs * (1 - (1 - x * x) * (2 * ((y - lam * x) * (y - lam * x)))) + k * ((lam * y - x) - rho * (lam * y + x)) * u1 + u2); [unfold al, vrs, u2; field; lra|].
  unfold u1, u2. rewrite ?ERs, ?ERf. clear - Es Ey. nsz.
Qed.
Lemma prop_u : Rf * C = (1 - u2 / Rs) * Rs + (Rs * u1 + Rs * vrs / m * u2) / m * vrs.
Proof.
  apply (Rmult_eq_reg_r Rs); [|lra]. transitivity (Rs * Rf * C); [ring|]. rewrite EC'.
  transitivity ((Rs - u2) * Rs + (Rs * u1 + k * ((lam * y - x) - rho * (lam * y + x)) * u2) * (k * ((lam * y - x) - rho * (lam * y + x)))); [|unfold vrs; field; lra].
  unfold u1, u2. rewrite ?ERs, ?ERf. clear - Es Ey. nsz.
Qed.
Lemma prop_w : Rf * S = (Rs * u1 + Rs * vrs / m * u2) / m * (vt / Rs).
Proof.
  apply (Rmult_eq_reg_r Rs); [|lra]. transitivity (Rs * Rf * S); [ring|]. rewrite ES.
  transitivity ((Rs * u1 + k * ((lam * y - x) - rho * (lam * y + x)) * u2) * (k * sig * (y + lam * x))); [|unfold vrs, vt; field; lra].
  unfold u1, u2. rewrite ERs. clear - Es Ey. nsz.
Qed.
Lemma prop_vu : vrf * C - vt / Rf * S = - m * u1 / (Rf * Rs) * Rs + (1 - u2 / Rf) * vrs.
Proof.
  apply (Rmult_eq_reg_r (Rs * Rf)); [|assert (0 < Rs * Rf) by (apply Rmult_lt_0_compat; assumption); lra].
  apply (Rmult_eq_reg_r Rf); [|lra].
  transitivity ((vrf * Rf) * (Rs * Rf * C) - vt * (Rs * Rf * S)); [field; lra|].
  transitivity (- m * u1 * Rs * Rf + (Rf - u2) * (vrs * Rs) * Rf); [|field; lra]. rewrite ES, EC'.
  replace (vrf * Rf) with (- (m * k) * ((lam * y - x) + rho * (lam * y + x))) by (unfold vrf; field; lra).
  replace (vrs * Rs) with (m * k * ((lam * y - x) - rho * (lam * y + x))) by (unfold vrs; field; lra). unfold vt, u1, u2. rewrite ?ERs, ?ERf. clear - Es Ey. nsz.
Qed.
Lemma prop_vw : vrf * S + vt / Rf * C = (1 - u2 / Rf) * (vt / Rs).
Proof.
  apply (Rmult_eq_reg_r (Rs * Rf)); [|assert (0 < Rs * Rf) by (apply Rmult_lt_0_compat; assumption); lra].
  apply (Rmult_eq_reg_r Rf); [|lra].
  transitivity ((vrf * Rf) * (Rs * Rf * S) + vt * (Rs * Rf * C)); [field; lra|].
  transitivity ((Rf - u2) * vt * Rf); [|field; lra]. rewrite ES, EC'.
  replace (vrf * Rf) with (- (m * k) * ((lam * y - x) + rho * (lam * y + x))) by (unfold vrf; field; lra).
  unfold vt, u1, u2. rewrite ?ERs, ?ERf. clear - Es Ey. nsz.
Qed.
(** time of flight, without the part that is transcendental *)
Lemma prop_t : Rs * u1 + Rs * vrs / m * u2 = 2 * (k * k * k) * (y - lam * x) * ((1 + lam * lam) * (x * y + lam * (1 - x * x)) + (lam * y - x) * (y - lam * x)).
Proof.
  transitivity (Rs * u1 + k * ((lam * y - x) - rho * (lam * y + x)) * u2); [unfold vrs; field; lra|]. unfold u1, u2. rewrite ERs. clear - Es Ey. nsz.
Qed.
End Scalars.
