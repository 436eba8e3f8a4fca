(** * Proofs about the plotted points *)
From Coq Require Import Reals ZArith List Lra Lia Psatz.
From Coquelicot Require Import Coquelicot.
From Verif Require Import Outcome PartialReal RealLib KepModel KepSpec KepProofs Vec3 TwoBodyModel TwoBodySpec AnomProofs FlowProofs FlowMain LagProofs TwoBodyProofs KplaProofs PlotModel PlotSpec.
Import ListNotations.
Open Scope R_scope.

Lemma der0_const (f : R -> R) : (forall t, is_derive f t 0) -> forall a b, f a = f b.
Proof.
  intros D a b. destruct (Rtotal_order a b) as [L|[->|L]]; [|reflexivity|symmetry].
  - apply (eq_is_derive f); [intros t _; exact (D t)|exact L].
  - apply (eq_is_derive f); [intros t _; exact (D t)|exact L].
Qed.

Section Angle.
Variables (mu : R) (r0 v0 : vec).
Hypothesis Mu : 0 < mu.
Hypothesis Hr : r0 <> vzero.
Hypothesis Hh : cross r0 v0 <> vzero.
Notation R0 := (R0 r0).
Notation al := (al mu r0 v0).
Notation sg := (sg mu r0 v0).
Notation pp := (pp mu r0 v0).
Notation rho := (rho mu r0 v0).
Notation drho := (drho mu r0 v0).
Notation T := (T mu r0 v0).
Notation ustate := (ustate mu r0 v0).
Notation sq := (sqrt pp).

Let P0 : 0 < R0 := R0_pos r0 Hr.
Let PP : 0 < pp := pp_pos mu r0 v0 Mu Hh.
Lemma sq_pos : 0 < sq /\ sq * sq = pp.
Proof. split; [apply sqrt_lt_R0; exact PP|apply sqrt_sqrt; apply Rlt_le; exact PP]. Qed.
Lemma h_eq : norm (cross r0 v0) = sq * sqrt mu.
Proof.
  destruct sq_pos as [A B]. destruct (sqmu mu Mu) as [C D]. apply norm_unique; [nra|].
  transitivity ((sq * sq) * (sqrt mu * sqrt mu)); [ring|]. rewrite B, D. unfold FlowProofs.pp. field. lra.
Qed.

(** cosine and sine of the angle between the initial position and the position at s *)
Definition cC (s : R) : R := 1 - pp * U2 al s / (R0 * rho s).
Definition cS (s : R) : R := sq * (R0 * U1 al s + sg * U2 al s) / (R0 * rho s).
Lemma E12 s : U0 al s * rho s - U1 al s * drho s = R0 - U2 al s /\ U1 al s * rho s - U2 al s * drho s = R0 * U1 al s + sg * U2 al s.
Proof.
  pose proof (U1_sq al s) as Q. rewrite U0_U2 in Q. unfold FlowProofs.rho, FlowProofs.drho. rewrite U0_U2. set (u1 := U1 al s) in *. set (u2 := U2 al s) in *.
  split.
  - transitivity (R0 * (1 - al * u2) * (1 - al * u2) + u2 * (1 - al * u2) - (1 - al * R0) * (u1 * u1)); [ring|]. rewrite Q. ring.
  - transitivity (R0 * u1 + sg * (u1 * u1 - u2 * (1 - al * u2))); [ring|]. rewrite Q. ring.
Qed.
Lemma key s : R0 * rho s - pp * U2 al s = R0 * (R0 - U2 al s) + sg * (R0 * U1 al s + sg * U2 al s).
Proof. rewrite (pp_eq mu r0 v0 Mu Hr). unfold FlowProofs.rho. rewrite U0_U2. ring. Qed.
Lemma d_cC s : is_derive cC s (- (sq / rho s) * cS s).
Proof.
  pose proof (rho_pos mu r0 v0 Mu Hr Hh s) as P. destruct (E12 s) as [_ E2].
  apply (der_ext (fun s => 1 - (pp / R0) * (U2 al s / rho s))).
  { intros u. pose proof (rho_pos mu r0 v0 Mu Hr Hh u). unfold cC. field. lra. }
  eapply der_to; [apply der_minus; [apply der_const|apply der_scal, der_div; [apply dU2|apply (d_rho mu r0 v0)|lra]]|]. cbv beta.
  rewrite E2. unfold cS. destruct sq_pos as [A B]. rewrite <- B at 1. field. lra.
Qed.
Lemma d_cS s : is_derive cS s (sq / rho s * cC s).
Proof.
  pose proof (rho_pos mu r0 v0 Mu Hr Hh s) as P. destruct (E12 s) as [E1 E2].
  apply (der_ext (fun s => (sq / R0) * ((R0 * U1 al s + sg * U2 al s) / rho s))).
  { intros u. pose proof (rho_pos mu r0 v0 Mu Hr Hh u). unfold cS. field. lra. }
  eapply der_to; [apply der_scal, der_div; [apply der_plus; apply der_scal; [apply dU1|apply dU2]|apply (d_rho mu r0 v0)|lra]|]. cbv beta.
  replace ((R0 * U0 al s + sg * U1 al s) * rho s - (R0 * U1 al s + sg * U2 al s) * drho s) with (R0 * rho s - pp * U2 al s).
  2:{ rewrite key. transitivity (R0 * (U0 al s * rho s - U1 al s * drho s) + sg * (U1 al s * rho s - U2 al s * drho s)); [rewrite E1, E2; ring|ring]. }
  unfold cC. field. lra.
Qed.

(** the angle swept *)
Definition Th (s : R) : R := RInt (fun u => sq / rho u) 0 s.
Lemma dens_cont s : continuous (fun u => sq / rho u) s.
Proof.
  apply (ex_derive_continuous (V := R_NormedModule)). eexists. apply der_div; [apply der_const|apply (d_rho mu r0 v0)|].
  pose proof (rho_pos mu r0 v0 Mu Hr Hh s). lra.
Qed.
Lemma Th_0 : Th 0 = 0. Proof. unfold Th. rewrite RInt_point. reflexivity. Qed.
Lemma d_Th s : is_derive Th s (sq / rho s).
Proof.
  apply (is_derive_RInt (fun u => sq / rho u) Th 0 s); [|apply dens_cont].
  apply filter_forall. intros b. apply (RInt_correct (V := R_CompleteNormedModule)). apply ex_RInt_continuous. intros z _. apply dens_cont.
Qed.
Lemma Th_incr x y : x < y -> Th x < Th y.
Proof.
  intros L. destruct (MVT_gen Th x y (fun s => sq / rho s)) as [c [_ E]].
  - intros u _. apply d_Th.
  - intros u _. apply (is_derive_cont _ _ _ (d_Th u)).
  - pose proof (rho_pos mu r0 v0 Mu Hr Hh c) as P. destruct sq_pos as [A _].
    assert (0 < sq / rho c) by (apply Rdiv_lt_0_compat; assumption). nra.
Qed.
Lemma CS s : cC s = cos (Th s) /\ cS s = sin (Th s).
Proof.
  assert (UA : forall t, is_derive (fun u => cC u * cos (Th u) + cS u * sin (Th u)) t 0).
  { intros t. eapply der_to; [apply der_plus; apply der_mult; [apply d_cC|apply der_comp; [apply der_cos|apply d_Th]|apply d_cS|apply der_comp; [apply der_sin|apply d_Th]]|].
    cbv beta. ring. }
  assert (UB : forall t, is_derive (fun u => cS u * cos (Th u) - cC u * sin (Th u)) t 0).
  { intros t. eapply der_to; [apply der_minus; apply der_mult; [apply d_cS|apply der_comp; [apply der_cos|apply d_Th]|apply d_cC|apply der_comp; [apply der_sin|apply d_Th]]|].
    cbv beta. ring. }
  pose proof (der0_const _ UA s 0) as A. pose proof (der0_const _ UB s 0) as B. cbv beta in A, B.
  destruct (U_at_0 al) as [_ [Z1 [Z2 _]]].
  assert (c0 : cC 0 = 1) by (unfold cC; rewrite Z2, (rho_0 mu r0 v0); field; lra).
  assert (s0 : cS 0 = 0) by (unfold cS; rewrite Z1, Z2, (rho_0 mu r0 v0); field; lra).
  rewrite Th_0, cos_0, sin_0, c0, s0 in A, B. pose proof (sin2_cos2 (Th s)) as I. unfold Rsqr in I. set (c := cC s) in *. set (q := cS s) in *.
  assert (A' : c * cos (Th s) + q * sin (Th s) = 1) by lra. assert (B' : q * cos (Th s) - c * sin (Th s) = 0) by lra. split.
  - transitivity (c * (sin (Th s) * sin (Th s) + cos (Th s) * cos (Th s))); [rewrite I; ring|].
    transitivity (cos (Th s) * (c * cos (Th s) + q * sin (Th s)) - sin (Th s) * (q * cos (Th s) - c * sin (Th s))); [ring|]. rewrite A', B'. ring.
  - transitivity (q * (sin (Th s) * sin (Th s) + cos (Th s) * cos (Th s))); [rewrite I; ring|].
    transitivity (sin (Th s) * (c * cos (Th s) + q * sin (Th s)) + cos (Th s) * (q * cos (Th s) - c * sin (Th s))); [ring|]. rewrite A', B'. ring.
Qed.

(** the row computed at the angle swept at s *)
Lemma dir_eq u : dir (r0, v0) u =
  vadd (vscal (cos u / R0 - sin u * dot r0 v0 / (norm (cross r0 v0) * R0)) r0) (vscal (sin u * R0 / norm (cross r0 v0)) v0).
Proof.
  assert (HP : 0 < norm (cross r0 v0)) by (apply norm_pos; exact Hh). pose proof (norm_sq r0) as N2. fold R0 in N2. pose proof P0 as PR.
  unfold dir, unit_vec, ang_mom. cbn [fst snd]. fold R0. set (h := norm (cross r0 v0)) in *.
  assert (X : cross (vscal (/ h) (cross r0 v0)) (vscal (/ R0) r0) = vscal (/ (h * R0)) (vsub (vscal (R0 * R0) v0) (vscal (dot r0 v0) r0))).
  { rewrite N2. apply vec_eq; unfold cross, vscal, vsub, dot; cbn [vx vy vz]; field; lra. }
  rewrite X. apply vec_eq; unfold vscal, vsub, vadd; cbn [vx vy vz]; field; lra.
Qed.
Definition den (u : R) : R := R0 + (pp - R0) * cos u - sq * sg * sin u.
Lemma den_reached u : 1 + dot (ecc_vec mu (r0, v0)) (dir (r0, v0) u) = den u / R0.
Proof.
  rewrite dir_eq, ecc_alt by exact Mu. cbn [fst snd]. fold R0. pose proof P0 as PR. rewrite h_eq. destruct sq_pos as [A B]. destruct (sqmu mu Mu) as [C D].
  unfold den. assert (PPE : pp = dot v0 v0 / mu * (R0 * R0) - dot r0 v0 * dot r0 v0 / mu).
  { unfold FlowProofs.pp. rewrite lagrange_identity. unfold FlowProofs.R0. rewrite norm_sq. field. lra. }
  assert (SG : sg = dot r0 v0 / sqrt mu) by reflexivity. set (k := dot r0 v0) in *.
  assert (e1 : dot r0 r0 = R0 * R0) by (unfold FlowProofs.R0; rewrite norm_sq; reflexivity).
  assert (E : forall a b c d, dot (vsub (vscal a r0) (vscal b v0)) (vadd (vscal c r0) (vscal d v0)) = a * c * dot r0 r0 + (a * d - b * c) * k - b * d * dot v0 v0).
  { intros. unfold k, dot, vsub, vadd, vscal; cbn [vx vy vz]; ring. }
  rewrite E, e1. set (w := dot v0 v0) in *. rewrite SG.
  transitivity (1 + (cos u * (w / mu * (R0 * R0) - k * k / mu - R0) / R0 - sin u * k * (w / mu * (R0 * R0) - k * k / mu) / (sq * sqrt mu * R0))).
  { field. lra. }
  rewrite <- PPE. clear E PPE. set (q := sq) in *. clearbody q. rewrite <- B. field. lra.
Qed.
Lemma den_rho s : den (Th s) * rho s = pp * R0.
Proof.
  pose proof (rho_pos mu r0 v0 Mu Hr Hh s) as P. pose proof P0 as PR. destruct (CS s) as [C S]. unfold den. rewrite <- C, <- S. unfold cC, cS. destruct sq_pos as [A B]. pose proof (key s) as K.
  transitivity (pp * rho s - (pp - R0) * pp * U2 al s / R0 - (sq * sq) * sg * (R0 * U1 al s + sg * U2 al s) / R0); [field; lra|].
  rewrite B. transitivity (pp / R0 * ((R0 * rho s - pp * U2 al s) + R0 * U2 al s - sg * (R0 * U1 al s + sg * U2 al s))); [field; lra|].
  rewrite K. field. lra.
Qed.
Lemma row_gen u : den u <> 0 -> theta_row mu (r0, v0) u =
  Some (let Rf := pp * R0 / den u in
        (vadd (vscal (1 - Rf / pp * (1 - cos u)) r0) (vscal (R0 * Rf / (sq * sqrt mu) * sin u) v0),
         vadd (vscal (sqrt mu / R0 / pp * (sg * (1 - cos u) - sq * sin u)) r0) (vscal (1 - R0 / pp * (1 - cos u)) v0))).
Proof.
  intros Dn. pose proof P0 as PR. destruct sq_pos as [A B]. destruct (sqmu mu Mu) as [C D]. unfold theta_row.
  rewrite psqrt_some by lra. cbn [obind]. rewrite pdiv_some by lra. cbn [obind]. rewrite pdiv_some by lra. cbn [obind].
  assert (Ep : norm (cross r0 v0) * norm (cross r0 v0) / mu = pp) by (rewrite norm_sq; reflexivity). rewrite Ep.
  assert (PPe : 0 < pp) by exact PP.
  rewrite psqrt_some by lra. cbn [obind]. fold R0. change (dot r0 v0 / sqrt mu) with sg. fold (den u).
  rewrite pdiv_some by exact Dn. cbn [obind]. rewrite pdiv_some by lra. cbn [obind]. rewrite h_eq. rewrite pdiv_some by nra. cbn [obind].
  rewrite pdiv_some by lra. cbn [obind]. rewrite pdiv_some by lra. cbn [obind]. rewrite pdiv_some by lra. cbn [obind]. reflexivity.
Qed.
Lemma row_at s : theta_row mu (r0, v0) (Th s) = Some (ustate s).
Proof.
  pose proof (rho_pos mu r0 v0 Mu Hr Hh s) as P. pose proof P0 as PR. pose proof (den_rho s) as DR. assert (PPe : 0 < pp) by exact PP.
  assert (Dn : den (Th s) <> 0) by (intro Z; rewrite Z in DR; nra).
  rewrite row_gen by exact Dn. replace (pp * R0 / den (Th s)) with (rho s) by (rewrite <- DR; field; exact Dn).
  destruct (CS s) as [C S]. rewrite <- C, <- S. unfold ustate, uF, uG, uFt, uGt, cC, cS. destruct sq_pos as [A B]. destruct (sqmu mu Mu) as [CC DD].
  cbv zeta. f_equal.
  replace (1 - rho s / pp * (1 - (1 - pp * U2 al s / (R0 * rho s)))) with (1 - U2 al s / R0) by (field; lra).
  replace (R0 * rho s / (sq * sqrt mu) * (sq * (R0 * U1 al s + sg * U2 al s) / (R0 * rho s))) with ((R0 * U1 al s + sg * U2 al s) / sqrt mu) by (field; lra).
  replace (1 - R0 / pp * (1 - (1 - pp * U2 al s / (R0 * rho s)))) with (1 - U2 al s / rho s) by (field; lra).
  replace (sqrt mu / R0 / pp * (sg * (1 - (1 - pp * U2 al s / (R0 * rho s))) - sq * (sq * (R0 * U1 al s + sg * U2 al s) / (R0 * rho s)))) with (- sqrt mu * U1 al s / (rho s * R0)); [reflexivity|].
  transitivity (sqrt mu / R0 / pp * (sg * (pp * U2 al s / (R0 * rho s)) - (sq * sq) * (R0 * U1 al s + sg * U2 al s) / (R0 * rho s))); [rewrite B; field; lra|field; lra].
Qed.
Lemma pos_dir s : fst (ustate s) = vscal (rho s) (dir (r0, v0) (Th s)).
Proof.
  pose proof (rho_pos mu r0 v0 Mu Hr Hh s) as P. pose proof P0 as PR. destruct (CS s) as [C S]. rewrite dir_eq, h_eq, <- C, <- S. destruct sq_pos as [A B]. destruct (sqmu mu Mu) as [CC DD].
  assert (SG : dot r0 v0 = sg * sqrt mu) by (unfold FlowProofs.sg; field; lra). rewrite SG. pose proof (key s) as K.
  assert (c1 : rho s * (cC s / R0 - cS s * (sg * sqrt mu) / (sq * sqrt mu * R0)) = uF mu r0 v0 s).
  { unfold cC, cS, uF. transitivity (((R0 * rho s - pp * U2 al s) - sg * (R0 * U1 al s + sg * U2 al s)) / (R0 * R0)); [field; lra|]. rewrite K. field. lra. }
  assert (c2 : rho s * (cS s * R0 / (sq * sqrt mu)) = uG mu r0 v0 s) by (unfold cS, uG; field; lra).
  unfold FlowProofs.ustate. cbn [fst]. rewrite <- c1, <- c2. apply vec_eq; unfold vadd, vscal; cbn [vx vy vz]; ring.
Qed.

(** every angle in whose range the conic is reached is swept *)
Lemma Th_ivt a b c : a <= b -> Th a <= c <= Th b -> exists s, a <= s <= b /\ Th s = c.
Proof.
  intros L [A B]. destruct (Req_dec (Th a) c) as [E|NE]; [exists a; split; [lra|exact E]|].
  destruct (Req_dec (Th b) c) as [E|NE']; [exists b; split; [lra|exact E]|].
  destruct (Req_dec a b) as [<-|Nab]; [lra|].
  destruct (IVT (fun s => Th s - c) a b) as [s [[S1 S2] S3]].
  - intros u. apply continuity_pt_minus; [apply (is_derive_cont _ _ _ (d_Th u))|apply continuity_pt_const; intros ? ?; reflexivity].
  - lra.
  - lra.
  - lra.
  - exists s. split; [lra|lra].
Qed.
Lemma den_cont u : continuity_pt den u.
Proof.
  apply (is_derive_cont den u ((pp - R0) * (- sin u) - sq * sg * cos u)). unfold den.
  eapply der_to; [apply der_minus; [apply der_plus; [apply der_const|apply der_scal, der_cos]|apply der_scal, der_sin]|]. ring.
Qed.
Lemma onto_gen (eps theta : R) : eps * eps = 1 -> 0 <= theta -> (forall u, 0 <= u <= theta -> 0 < den (eps * u)) -> exists s, 0 <= s /\ eps * Th (eps * s) = theta.
Proof.
  intros EE Tn Dp. pose proof P0 as PR. assert (PPe : 0 < pp) by exact PP. destruct sq_pos as [A B].
  destruct (continuity_ab_min (fun u => den (eps * u)) 0 theta Tn) as [m [Mm [Mr1 Mr2]]].
  { intros c _. apply continuity_pt_comp with (f1 := fun u => eps * u); [|apply den_cont].
    apply continuity_pt_scal with (f := fun x => x). apply derivable_continuous_pt, derivable_pt_id. }
  pose proof (Dp m (conj Mr1 Mr2)) as Mp. set (dm := den (eps * m)) in *. cbv beta in Mm. change (forall c, 0 <= c <= theta -> dm <= den (eps * c)) in Mm.
  set (f := fun s => eps * Th (eps * s)).
  assert (Df : forall s, is_derive f s (sq / rho (eps * s))).
  { intros s. unfold f. eapply der_to; [apply (der_scal eps (fun s => Th (eps * s))), der_comp; [apply d_Th|apply (der_scal eps (fun s => s)), der_id]|]. cbv beta.
    transitivity (eps * eps * (sq / rho (eps * s))); [ring|rewrite EE; ring]. }
  assert (f0 : f 0 = 0) by (unfold f; rewrite Rmult_0_r, Th_0; ring).
  set (k := dm / (sq * R0)). assert (kp : 0 < k) by (apply Rdiv_lt_0_compat; nra).
  set (S := theta / k + 1). assert (Sp : 0 < S) by (unfold S; assert (0 <= theta / k) by (apply Rdiv_le_0_compat; lra); lra).
  assert (Mono : forall x y, x < y -> f x < f y).
  { intros x y L. destruct (MVT_gen f x y (fun s => sq / rho (eps * s))) as [c [_ E]]; [intros u _; apply Df|intros u _; apply (is_derive_cont _ _ _ (Df u))|].
    pose proof (rho_pos mu r0 v0 Mu Hr Hh (eps * c)) as P. assert (0 < sq / rho (eps * c)) by (apply Rdiv_lt_0_compat; assumption). nra. }
  destruct (Rle_lt_dec theta (f S)) as [G|G].
  - destruct (Req_dec (f S) theta) as [E|NE]; [exists S; split; [lra|exact E]|]. destruct (Req_dec (f 0) theta) as [E|NE']; [exists 0; split; [lra|exact E]|].
    destruct (IVT (fun s => f s - theta) 0 S) as [s [[S1 S2] S3]]; [|lra|lra|lra|exists s; split; [lra|fold (f s); lra]].
    intros u. apply continuity_pt_minus; [apply (is_derive_cont _ _ _ (Df u))|apply continuity_pt_const; intros ? ?; reflexivity].
  - exfalso. destruct (MVT_gen f 0 S (fun s => sq / rho (eps * s))) as [c [Cr E]]; [intros u _; apply Df|intros u _; apply (is_derive_cont _ _ _ (Df u))|].
    rewrite Rmin_left, Rmax_right in Cr by lra.
    assert (F1 : 0 <= f c). { destruct (Req_dec c 0) as [->|]; [lra|]. pose proof (Mono 0 c ltac:(lra)). lra. }
    assert (F2 : f c <= theta). { destruct (Req_dec c S) as [->|]; [lra|]. pose proof (Mono c S ltac:(lra)). lra. }
    pose proof (Mm (f c) (conj F1 F2)) as Md. replace (eps * f c) with (Th (eps * c)) in Md by (unfold f; rewrite <- Rmult_assoc, EE; ring).
    pose proof (den_rho (eps * c)) as DR. pose proof (rho_pos mu r0 v0 Mu Hr Hh (eps * c)) as P.
    assert (SL : k <= sq / rho (eps * c)).
    { unfold k. apply Rmult_le_reg_r with (sq * R0 * rho (eps * c)); [apply Rmult_lt_0_compat; [nra|exact P]|].
      replace (dm / (sq * R0) * (sq * R0 * rho (eps * c))) with (dm * rho (eps * c)) by (field; lra).
      replace (sq / rho (eps * c) * (sq * R0 * rho (eps * c))) with ((sq * sq) * R0) by (field; lra). rewrite B. nra. }
    assert (KS : k * S <= f S) by (rewrite f0 in E; nra). unfold S in KS at 1. replace (k * (theta / k + 1)) with (theta + k) in KS by (field; lra). lra.
Qed.
Lemma Th_onto theta : (forall u, between 0 theta u -> 0 < den u) -> exists s, Th s = theta /\ (0 <= theta -> 0 <= s) /\ (theta <= 0 -> s <= 0).
Proof.
  intros Dp. unfold between in Dp. assert (Z0 : forall s, Th s = 0 -> s = 0).
  { intros s Z. rewrite <- Th_0 in Z. destruct (Rtotal_order s 0) as [L|[E|L]]; [apply Th_incr in L; lra|exact E|apply Th_incr in L; lra]. }
  destruct (Rle_lt_dec 0 theta) as [L|L].
  - destruct (onto_gen 1 theta) as [s [Sp E]]; [lra|exact L| |].
    + intros u Hu. apply Dp. rewrite Rmin_left, Rmax_right by lra. lra.
    + rewrite !Rmult_1_l in E. exists s. split; [exact E|]. split; [intros _; exact Sp|]. intros L'. rewrite (Z0 s); [lra|lra].
  - destruct (onto_gen (-1) (- theta)) as [s [Sp E]]; [lra|lra| |].
    + intros u Hu. apply Dp. rewrite Rmin_right, Rmax_left by lra. lra.
    + exists (-1 * s). split; [lra|]. split; [lra|]. intros _. lra.
Qed.

Lemma sweeps_at t s : T s = sqrt mu * t -> sweeps mu (r0, v0) (Th s) t (ustate s).
Proof.
  intros E. set (g := gsol mu r0 v0). pose proof (gsol_solves mu r0 v0 Mu Hr Hh) as SG. fold g in SG.
  assert (gt : g t = s) by (apply (solves_unique mu r0 v0 Mu Hr Hh); assumption).
  assert (g0 : g 0 = 0) by (apply (solves_0 mu r0 v0 Mu Hr Hh); assumption).
  exists (fun u => ustate (g u)), (fun u => Th (g u)). split; [apply (u_two_body mu r0 v0 Mu Hr Hh); exact SG|].
  split; [rewrite g0; apply (ustate_0 mu r0 v0 Mu Hr)|]. split; [rewrite gt; reflexivity|]. split; [rewrite g0; apply Th_0|]. split; [rewrite gt; reflexivity|].
  intros u. pose proof (rho_pos mu r0 v0 Mu Hr Hh (g u)) as P. split.
  - eapply der_to; [apply der_comp; [apply d_Th|apply (d_solves mu r0 v0 Mu Hr Hh g u SG)]|]. cbv beta.
    change (ang_mom (r0, v0)) with (cross r0 v0). rewrite h_eq. rewrite (unorm_sq mu r0 v0 Mu Hr). field. lra.
  - rewrite (unorm mu r0 v0 Mu Hr Hh). apply pos_dir.
Qed.
End Angle.

(** ** propagate_lagrangian_theta_v *)
Lemma al_en mu r0 v0 : 0 < mu -> r0 <> vzero -> al mu r0 v0 = - 2 * energy mu (r0, v0) / mu.
Proof. intros M Hr. pose proof (R0_pos r0 Hr). unfold al, energy, R0 in *. cbn [fst snd]. field. lra. Qed.
Lemma reached_den mu r0 v0 u : 0 < mu -> r0 <> vzero -> cross r0 v0 <> vzero -> reached mu (r0, v0) u <-> 0 < den mu r0 v0 u.
Proof.
  intros M Hr Hh. unfold reached. rewrite (den_reached mu r0 v0 M Hr Hh). pose proof (R0_pos r0 Hr) as P. split; intros H.
  - replace (den mu r0 v0 u) with (den mu r0 v0 u / R0 r0 * R0 r0) by (field; lra). apply Rmult_lt_0_compat; assumption.
  - apply Rdiv_lt_0_compat; assumption.
Qed.
Lemma ellipse_reached mu s u : elliptic mu s -> reached mu s u.
Proof.
  intros [Rg En]. destruct (regular_r _ _ Rg) as [M [Hr Hh]]. destruct s as [r0 v0]. cbn [fst snd] in *. apply reached_den; try assumption.
  pose proof (R0_pos r0 Hr) as P. pose proof (pp_pos mu r0 v0 M Hh) as PP. pose proof (pp_eq mu r0 v0 M Hr) as PE.
  assert (A : 0 < al mu r0 v0) by (rewrite al_en by assumption; apply Rdiv_lt_0_compat; lra).
  destruct (sq_pos mu r0 v0 M Hh) as [S1 S2]. unfold den. set (q := sqrt (pp mu r0 v0)) in *. set (p := pp mu r0 v0) in *. set (g := sg mu r0 v0) in *. set (a := al mu r0 v0) in *. set (R := R0 r0) in *.
  pose proof (sin2_cos2 u) as I. unfold Rsqr in I. set (c := cos u) in *. set (n := sin u) in *. set (x := p - R). set (y := q * g).
  assert (N2 : x * x + y * y = R * R * (1 - a * p)).
  { unfold x, y. transitivity ((p - R) * (p - R) + (q * q) * (g * g)); [ring|]. rewrite S2. replace (g * g) with (2 * R - a * R * R - p) by lra. ring. }
  assert (L : x * x + y * y < R * R) by (rewrite N2; assert (0 < R * R * (a * p)) by (apply Rmult_lt_0_compat; apply Rmult_lt_0_compat; assumption); lra).
  assert (C : (x * c - y * n) * (x * c - y * n) <= x * x + y * y).
  { replace (x * x + y * y) with ((x * x + y * y) * (n * n + c * c)) by (rewrite I; ring).
    assert (Z : 0 <= (x * n + y * c) * (x * n + y * c)) by apply Rle_0_sqr. lra. }
  assert (HH : Rabs (x * c - y * n) < R).
  { apply Rnot_le_lt. intros Q. pose proof (Rabs_pos (x * c - y * n)) as AP.
    assert (QQ : R * R <= Rabs (x * c - y * n) * Rabs (x * c - y * n)) by nra. rewrite <- Rabs_mult in QQ. rewrite Rabs_right in QQ; [lra|]. apply Rle_ge, Rle_0_sqr. }
  apply Rabs_def2 in HH. destruct HH as [_ HH]. lra.
Qed.

Lemma T_sign mu r0 v0 s : 0 < mu -> r0 <> vzero -> cross r0 v0 <> vzero -> (0 <= s -> 0 <= T mu r0 v0 s) /\ (s <= 0 -> T mu r0 v0 s <= 0) /\ (0 < s <-> 0 < T mu r0 v0 s).
Proof.
  intros M Hr Hh. pose proof (T_0 mu r0 v0) as Z. pose proof (T_incr mu r0 v0 M Hr Hh) as I.
  destruct (Rtotal_order s 0) as [L|[E|L]].
  - pose proof (I _ _ L). lra.
  - subst. lra.
  - pose proof (I _ _ L). lra.
Qed.
Lemma time_of mu s x : 0 < mu -> T mu (fst s) (snd s) x = sqrt mu * (T mu (fst s) (snd s) x / sqrt mu).
Proof. intros M. destruct (sqmu mu M). field. lra. Qed.
Lemma div_sqrt_sign mu x : 0 < mu -> (0 <= x -> 0 <= x / sqrt mu) /\ (x <= 0 -> x / sqrt mu <= 0).
Proof.
  intros M. destruct (sqmu mu M) as [S _]. assert (0 < / sqrt mu) by (apply Rinv_0_lt_compat; exact S). unfold Rdiv. split; intros; nra.
Qed.

Lemma theta_ok mu s theta : regular mu s -> (forall u, between 0 theta u -> reached mu s u) ->
  exists s' t, theta_row mu s theta = Some s' /\ sweeps mu s theta t s' /\ flow_at mu s t s' /\ (0 <= theta -> 0 <= t) /\ (theta <= 0 -> t <= 0).
Proof.
  intros Rg Re. destruct (regular_r _ _ Rg) as [M [Hr Hh]]. destruct s as [r0 v0]. cbn [fst snd] in *.
  destruct (Th_onto mu r0 v0 M Hr Hh theta) as [x [E [S1 S2]]]. { intros u Hu. apply reached_den; auto. }
  pose proof (time_of mu (r0, v0) x M) as TE. cbn [fst snd] in TE. set (t := T mu r0 v0 x / sqrt mu) in *.
  exists (ustate mu r0 v0 x), t. rewrite <- E. split; [apply (row_at mu r0 v0 M Hr Hh)|]. split; [apply (sweeps_at mu r0 v0 M Hr Hh); exact TE|].
  split; [apply (ustate_flow mu r0 v0 M Hr Hh); exact TE|]. destruct (T_sign mu r0 v0 x M Hr Hh) as [A [B _]]. destruct (div_sqrt_sign mu (T mu r0 v0 x) M) as [C D]. rewrite E. fold t in C, D. split; auto.
Qed.
Lemma theta_elliptic mu s theta : elliptic mu s ->
  exists s' t, theta_row mu s theta = Some s' /\ sweeps mu s theta t s' /\ flow_at mu s t s' /\ (0 <= theta -> 0 <= t) /\ (theta <= 0 -> t <= 0).
Proof. intros El. apply theta_ok; [exact (proj1 El)|]. intros u _. apply ellipse_reached, El. Qed.
Lemma theta_complete mu s t s' : regular mu s -> flow_at mu s t s' -> exists theta, theta_row mu s theta = Some s' /\ sweeps mu s theta t s' /\ forall u, between 0 theta u -> reached mu s u.
Proof.
  intros Rg F. destruct (regular_r _ _ Rg) as [M [Hr Hh]]. destruct s as [r0 v0]. cbn [fst snd] in *.
  destruct (T_onto mu r0 v0 M Hr Hh (sqrt mu * t)) as [x E]. rewrite (flow_functional _ _ _ _ _ F (ustate_flow mu r0 v0 M Hr Hh t x E)).
  exists (Th mu r0 v0 x). split; [apply (row_at mu r0 v0 M Hr Hh)|]. split; [apply (sweeps_at mu r0 v0 M Hr Hh); exact E|].
  intros u Hu. apply reached_den; try assumption. unfold between in Hu.
  assert (exists y, Th mu r0 v0 y = u) as [y Y].
  { destruct (Rle_lt_dec 0 x) as [L|L].
    - assert (Z : 0 <= Th mu r0 v0 x). { destruct (Req_dec x 0) as [->|]; [rewrite Th_0; lra|]. pose proof (Th_incr mu r0 v0 M Hr Hh 0 x ltac:(lra)) as Q. rewrite Th_0 in Q. lra. }
      rewrite Rmin_left, Rmax_right in Hu by lra. destruct (Th_ivt mu r0 v0 M Hr Hh 0 x u L) as [y [_ Y]]; [rewrite Th_0; lra|exists y; exact Y].
    - pose proof (Th_incr mu r0 v0 M Hr Hh x 0 L) as Q. rewrite Th_0 in Q.
      rewrite Rmin_right, Rmax_left in Hu by lra. destruct (Th_ivt mu r0 v0 M Hr Hh x 0 u ltac:(lra)) as [y [_ Y]]; [rewrite Th_0; lra|exists y; exact Y]. }
  pose proof (den_rho mu r0 v0 M Hr Hh y) as D. rewrite Y in D. pose proof (rho_pos mu r0 v0 M Hr Hh y). pose proof (R0_pos r0 Hr). pose proof (pp_pos mu r0 v0 M Hh).
  apply Rnot_le_lt. intros N. assert (0 < pp mu r0 v0 * R0 r0) by (apply Rmult_lt_0_compat; assumption). nra.
Qed.

(** the position of a row, wherever it is defined *)
Lemma norm_dir s u : fst s <> vzero -> ang_mom s <> vzero -> norm (dir s u) = 1.
Proof.
  destruct s as [r0 v0]. intros Hr Hh. cbn [fst] in Hr. change (cross r0 v0 <> vzero) in Hh. rewrite (dir_eq r0 v0 Hr Hh).
  assert (HP : 0 < norm (cross r0 v0)) by (apply norm_pos; exact Hh). pose proof (R0_pos r0 Hr) as P. apply norm_unique; [lra|].
  pose proof (norm_sq (cross r0 v0)) as L. rewrite lagrange_identity in L. pose proof (norm_sq r0) as N. fold (R0 r0) in N. rewrite <- N in L. set (h := norm (cross r0 v0)) in *. set (k := dot r0 v0) in *. set (R := R0 r0) in *.
  assert (E : forall c d, dot (vadd (vscal c r0) (vscal d v0)) (vadd (vscal c r0) (vscal d v0)) = c * c * dot r0 r0 + 2 * (c * d) * k + d * d * dot v0 v0).
  { intros. unfold k, dot, vadd, vscal; cbn [vx vy vz]; ring. }
  rewrite E, <- N. pose proof (sin2_cos2 u) as I. unfold Rsqr in I.
  transitivity (cos u * cos u + sin u * sin u * ((R * R * dot v0 v0 - k * k) / (h * h))); [rewrite <- L; field_simplify; [lra|lra]|field; lra].
Qed.
Lemma row_pos mu r0 v0 u : 0 < mu -> r0 <> vzero -> cross r0 v0 <> vzero -> den mu r0 v0 u <> 0 ->
  exists s', theta_row mu (r0, v0) u = Some s' /\ fst s' = vscal (pp mu r0 v0 * R0 r0 / den mu r0 v0 u) (dir (r0, v0) u).
Proof.
  intros M Hr Hh D. eexists. split; [apply (row_gen mu r0 v0 M Hr Hh u D)|]. cbn [fst]. rewrite (dir_eq r0 v0 Hr Hh), (h_eq mu r0 v0 M Hh).
  destruct (sq_pos mu r0 v0 M Hh) as [A B]. destruct (sqmu mu M) as [C E]. pose proof (R0_pos r0 Hr) as P. pose proof (pp_pos mu r0 v0 M Hh) as PP.
  assert (SG : dot r0 v0 = sg mu r0 v0 * sqrt mu) by (unfold sg; field; lra). rewrite SG.
  assert (DE : den mu r0 v0 u - R0 r0 * (1 - cos u) = pp mu r0 v0 * cos u - sqrt (pp mu r0 v0) * sg mu r0 v0 * sin u) by (unfold den; ring).
  set (d := den mu r0 v0 u) in *. set (q := sqrt (pp mu r0 v0)) in *. set (p := pp mu r0 v0) in *. set (g := sg mu r0 v0) in *. clearbody d q p g.
  assert (c1 : 1 - p * R0 r0 / d / p * (1 - cos u) = p * R0 r0 / d * (cos u / R0 r0 - sin u * (g * sqrt mu) / (q * sqrt mu * R0 r0))).
  { transitivity ((d - R0 r0 * (1 - cos u)) / d); [field; lra|]. rewrite DE. rewrite <- B. field. lra. }
  rewrite c1. apply vec_eq; unfold vadd, vscal; cbn [vx vy vz]; field; lra.
Qed.
Lemma orbit_eq mu s t s' : regular mu s -> flow_at mu s t s' -> norm (fst s') + dot (ecc_vec mu s) (fst s') = dot (ang_mom s) (ang_mom s) / mu.
Proof.
  intros Rg F. destruct (regular_r _ _ Rg) as [M [Hr Hh]]. destruct s as [r0 v0]. cbn [fst snd] in *.
  destruct (T_onto mu r0 v0 M Hr Hh (sqrt mu * t)) as [x E]. rewrite (flow_functional _ _ _ _ _ F (ustate_flow mu r0 v0 M Hr Hh t x E)).
  rewrite (unorm mu r0 v0 M Hr Hh), (pos_dir mu r0 v0 M Hr Hh). pose proof (den_reached mu r0 v0 M Hr Hh (Th mu r0 v0 x)) as D. pose proof (den_rho mu r0 v0 M Hr Hh x) as DR. pose proof (R0_pos r0 Hr) as P.
  replace (dot (ecc_vec mu (r0, v0)) (vscal (rho mu r0 v0 x) (dir (r0, v0) (Th mu r0 v0 x)))) with (rho mu r0 v0 x * dot (ecc_vec mu (r0, v0)) (dir (r0, v0) (Th mu r0 v0 x))) by (unfold dot, vscal; cbn [vx vy vz]; ring).
  replace (dot (ecc_vec mu (r0, v0)) (dir (r0, v0) (Th mu r0 v0 x))) with (den mu r0 v0 (Th mu r0 v0 x) / R0 r0 - 1) by lra.
  change (dot (ang_mom (r0, v0)) (ang_mom (r0, v0)) / mu) with (pp mu r0 v0).
  transitivity (den mu r0 v0 (Th mu r0 v0 x) * rho mu r0 v0 x / R0 r0); [field; lra|]. rewrite DR. field. lra.
Qed.
Lemma theta_beyond mu s u : regular mu s -> 1 + dot (ecc_vec mu s) (dir s u) < 0 -> exists s', theta_row mu s u = Some s' /\ forall t, ~ flow_at mu s t s'.
Proof.
  intros Rg N. pose proof Rg as Rg'. destruct (regular_r _ _ Rg) as [M [Hr Hh]]. destruct s as [r0 v0]. cbn [fst snd] in *.
  pose proof (den_reached mu r0 v0 M Hr Hh u) as D. pose proof (R0_pos r0 Hr) as P. pose proof (pp_pos mu r0 v0 M Hh) as PP.
  assert (Dn : den mu r0 v0 u < 0). { apply Rnot_le_lt. intros Q. assert (0 <= den mu r0 v0 u / R0 r0) by (apply Rdiv_le_0_compat; lra). lra. }
  destruct (row_pos mu r0 v0 u M Hr Hh ltac:(lra)) as [s' [E X]]. exists s'. split; [exact E|]. intros t F. pose proof (orbit_eq _ _ _ _ Rg' F) as O. rewrite X in O.
  set (Rf := pp mu r0 v0 * R0 r0 / den mu r0 v0 u) in *. rewrite norm_vscal, (norm_dir (r0, v0) u Hr Hh) in O.
  assert (Rn : Rf < 0).
  { unfold Rf. assert (0 < pp mu r0 v0 * R0 r0) by (apply Rmult_lt_0_compat; assumption). assert (/ den mu r0 v0 u < 0) by (apply Rinv_lt_0_compat; exact Dn). unfold Rdiv. nra. }
  replace (dot (ecc_vec mu (r0, v0)) (vscal Rf (dir (r0, v0) u))) with (Rf * dot (ecc_vec mu (r0, v0)) (dir (r0, v0) u)) in O by (unfold dot, vscal; cbn [vx vy vz]; ring).
  replace (dot (ecc_vec mu (r0, v0)) (dir (r0, v0) u)) with (den mu r0 v0 u / R0 r0 - 1) in O by lra.
  change (dot (ang_mom (r0, v0)) (ang_mom (r0, v0)) / mu) with (pp mu r0 v0) in O. rewrite Rabs_left in O by exact Rn.
  assert (RD : Rf * (den mu r0 v0 u / R0 r0) = pp mu r0 v0) by (unfold Rf; field; lra). nra.
Qed.
Lemma theta_none mu s u : regular mu s -> 1 + dot (ecc_vec mu s) (dir s u) = 0 -> theta_row mu s u = None.
Proof.
  intros Rg N. destruct (regular_r _ _ Rg) as [M [Hr Hh]]. destruct s as [r0 v0]. cbn [fst snd] in *.
  pose proof (den_reached mu r0 v0 M Hr Hh u) as D. pose proof (R0_pos r0 Hr) as P. pose proof (pp_pos mu r0 v0 M Hh) as PP. rewrite N in D.
  assert (Dn : den mu r0 v0 u = 0) by (apply Rmult_eq_reg_r with (/ R0 r0); [unfold Rdiv in D; lra|apply Rinv_neq_0_compat; lra]).
  destruct (sqmu mu M) as [C E]. unfold theta_row. rewrite psqrt_some by lra. cbn [obind]. rewrite pdiv_some by lra. cbn [obind]. rewrite pdiv_some by lra. cbn [obind].
  assert (Ep : norm (cross r0 v0) * norm (cross r0 v0) / mu = pp mu r0 v0) by (rewrite norm_sq; reflexivity). rewrite Ep. rewrite psqrt_some by lra. cbn [obind].
  fold (R0 r0). change (dot r0 v0 / sqrt mu) with (sg mu r0 v0). fold (den mu r0 v0 u). rewrite Dn, pdiv_none. reflexivity.
Qed.

(** ** Tables *)
Lemma all_some_ok {A B : Type} (f : A -> option B) l (Q : A -> B -> Prop) : (forall a, In a l -> exists b, f a = Some b /\ Q a b) ->
  exists m, all_some (map f l) = Some m /\ Forall2 Q l m.
Proof.
  induction l as [|a l IH]; intros H; [exists []; split; [reflexivity|constructor]|].
  destruct (H a (or_introl eq_refl)) as [b [E Q1]]. destruct IH as [m [Em Fm]]; [intros x Hx; apply H; right; exact Hx|].
  exists (b :: m). split; [cbn [map all_some]; rewrite E; cbn [obind]; rewrite Em; reflexivity|constructor; assumption].
Qed.
Lemma Forall2_nth {A B : Type} (Q : A -> B -> Prop) l m i a : Forall2 Q l m -> nth_error l i = Some a -> exists b, nth_error m i = Some b /\ Q a b.
Proof.
  intros F. revert i. induction F as [|x y l m H F IH]; intros [|i] E; cbn in *; try discriminate; [injection E as <-; exists y; auto|apply IH; exact E].
Qed.
Lemma F2_length {A B : Type} (Q : A -> B -> Prop) l m : Forall2 Q l m -> length l = length m.
Proof. intros F. induction F; cbn; congruence. Qed.
Lemma theta_table mu s thetas : (forall th, In th thetas -> regular mu s /\ forall u, between 0 th u -> reached mu s u) ->
  exists rows, theta_v s thetas mu false = Ret (Some rows) /\ Forall2 (fun th s' => exists t, sweeps mu s th t s') thetas rows.
Proof.
  intros H. destruct (all_some_ok (theta_row mu s) thetas (fun th s' => exists t, sweeps mu s th t s')) as [m [E F]].
  - intros th Hi. destruct (H th Hi) as [Rg Re]. destruct (theta_ok mu s th Rg Re) as [s' [t [E [S _]]]]. exists s'. split; [exact E|exists t; exact S].
  - exists m. split; [unfold theta_v; rewrite E; reflexivity|exact F].
Qed.
Lemma linspace_ok a b N : (2 <= N)%Z -> exists g, linspace a b N = Ret g /\ length g = Z.to_nat N /\ forall i, (i < Z.to_nat N)%nat -> nth_error g i = Some (a + INR i * ((b - a) / IZR (N - 1))).
Proof.
  intros HN. unfold linspace. destruct (Z.ltb_spec N 0); [lia|]. destruct (Z.eqb_spec N 1); [lia|]. eexists. split; [reflexivity|].
  split; [rewrite map_length, seq_length; reflexivity|]. intros i Hi.
  rewrite (map_nth_error (fun i => a + INR i * ((b - a) / IZR (N - 1))) i (seq 0 (Z.to_nat N)) (d := i)); [reflexivity|].
  rewrite (nth_error_nth' _ 0%nat) by (rewrite seq_length; exact Hi). rewrite seq_nth by exact Hi. reflexivity.
Qed.
Lemma vdiv_some units r : units <> 0 -> vdiv units r = Some (vscal (/ units) r).
Proof. intros U. unfold vdiv. rewrite !pdiv_some by exact U. cbn [obind]. f_equal. apply vec_eq; unfold vscal, Rdiv; cbn [vx vy vz]; ring. Qed.
Lemma vdiv_all units (l : list state) : units <> 0 -> all_some (map (fun s => vdiv units (fst s)) l) = Some (map (fun s => vscal (/ units) (fst s)) l).
Proof. intros U. induction l as [|a l IH]; [reflexivity|]. cbn [map all_some]. rewrite vdiv_some by exact U. cbn [obind]. rewrite IH. reflexivity. Qed.
(** the i-th of N >= 2 points between 0 and b *)
Lemma grid_range b N i : (2 <= N)%Z -> (i < Z.to_nat N)%nat -> 0 <= b -> 0 <= 0 + INR i * ((b - 0) / IZR (N - 1)) <= b.
Proof.
  intros HN Hi Hb. assert (P : 0 < IZR (N - 1)) by (apply IZR_lt; lia). assert (I0 : 0 <= INR i) by apply pos_INR.
  assert (I1 : INR i <= IZR (N - 1)) by (rewrite INR_IZR_INZ; apply IZR_le; lia). rewrite Rminus_0_r. split.
  - assert (0 <= b / IZR (N - 1)) by (apply Rdiv_le_0_compat; lra). nra.
  - replace (0 + INR i * (b / IZR (N - 1))) with (b * (INR i / IZR (N - 1))) by (field; lra).
    assert (INR i / IZR (N - 1) <= 1) by (apply Rmult_le_reg_r with (IZR (N - 1)); [exact P|]; unfold Rdiv; rewrite Rmult_assoc, Rinv_l by lra; lra). nra.
Qed.
Lemma grid_last a b N : (2 <= N)%Z -> a + INR (Z.to_nat N - 1) * ((b - a) / IZR (N - 1)) = b.
Proof.
  intros HN. assert (P : 0 < IZR (N - 1)) by (apply IZR_lt; lia). replace (INR (Z.to_nat N - 1)) with (IZR (N - 1)); [field; lra|].
  rewrite INR_IZR_INZ. f_equal. lia.
Qed.

(** ** add_lambert *)
Lemma no_return mu r0 v0 x : 0 < mu -> r0 <> vzero -> cross r0 v0 <> vzero -> 0 <= energy mu (r0, v0) -> 0 < x -> ustate mu r0 v0 x <> (r0, v0).
Proof.
  intros M Hr Hh En Hx E. pose proof (rho_pos mu r0 v0 M Hr Hh x) as P. pose proof (R0_pos r0 Hr) as P0. destruct (sqmu mu M) as [S1 S2].
  assert (V2 : snd (ustate mu r0 v0 x) = v0) by (rewrite E; reflexivity). unfold ustate in V2. cbn [snd] in V2.
  assert (X : vscal (uFt mu r0 v0 x) (cross r0 v0) = vzero).
  { transitivity (cross (vadd (vscal (uFt mu r0 v0 x) r0) (vscal (uGt mu r0 v0 x) v0)) v0).
    - apply vec_eq; unfold cross, vadd, vscal; cbn [vx vy vz]; ring.
    - rewrite V2. apply vec_eq; unfold cross, vzero; cbn [vx vy vz]; ring. }
  assert (F0 : uFt mu r0 v0 x = 0).
  { destruct (Req_dec (uFt mu r0 v0 x) 0) as [Z|NZ]; [exact Z|]. exfalso. apply Hh. apply norm_zero.
    assert (Y : norm (vscal (uFt mu r0 v0 x) (cross r0 v0)) = 0) by (rewrite X; unfold norm, dot, vzero; cbn [vx vy vz]; replace (0 * 0 + 0 * 0 + 0 * 0) with 0 by ring; apply sqrt_0).
    rewrite norm_vscal in Y. apply Rmult_integral in Y. destruct Y as [Y|Y]; [|exact Y]. exfalso. apply Rabs_no_R0 in NZ. contradiction. }
  assert (U : U1 (al mu r0 v0) x = 0).
  { unfold uFt in F0. assert (D : 0 < rho mu r0 v0 x * R0 r0) by (apply Rmult_lt_0_compat; assumption).
    assert (Q : sqrt mu * U1 (al mu r0 v0) x = 0).
    { transitivity (- (- sqrt mu * U1 (al mu r0 v0) x / (rho mu r0 v0 x * R0 r0)) * (rho mu r0 v0 x * R0 r0)); [field; lra|rewrite F0; ring]. }
    apply Rmult_integral in Q. destruct Q; [lra|assumption]. }
  assert (A : al mu r0 v0 <= 0).
  { rewrite al_en by assumption. assert (0 <= energy mu (r0, v0) / mu) by (apply Rdiv_le_0_compat; lra). unfold Rdiv in *. lra. }
  destruct A as [A|A].
  - rewrite U1_neg in U by exact A. set (k := sqrt (- al mu r0 v0)) in *. assert (K : 0 < k) by (apply sqrt_lt_R0; lra).
    assert (0 < sinh (k * x)). { rewrite <- sinh_0. apply sinh_lt. nra. }
    assert (0 < sinh (k * x) / k) by (apply Rdiv_lt_0_compat; assumption). lra.
  - rewrite A, U1_zero in U. lra.
Qed.
Lemma acos_0_2PI u : 0 < u < 2 * PI -> (if Rlt_dec (sin u) 0 then 2 * PI - acos (cos u) else acos (cos u)) = u.
Proof.
  intros [A B]. destruct (Rlt_dec (sin u) 0) as [N|N].
  - assert (P : PI < u). { apply Rnot_le_lt. intros L. pose proof (sin_ge_0 u). lra. }
    replace (cos u) with (cos (2 * PI - u)); [rewrite acos_cos by lra; lra|]. rewrite cos_minus, cos_2PI, sin_2PI. ring.
  - rewrite acos_cos; [reflexivity|]. split; [lra|]. apply Rnot_lt_le. intros L. apply N. replace u with ((u - PI) + PI) by ring. rewrite neg_sin. pose proof (sin_gt_0 (u - PI)). lra.
Qed.
Lemma dot_dir r0 v0 u : r0 <> vzero -> cross r0 v0 <> vzero -> dot r0 (dir (r0, v0) u) = norm r0 * cos u.
Proof.
  intros Hr Hh. rewrite (dir_eq r0 v0 Hr Hh). assert (HP : 0 < norm (cross r0 v0)) by (apply norm_pos; exact Hh). pose proof (R0_pos r0 Hr) as P.
  assert (E : forall c d, dot r0 (vadd (vscal c r0) (vscal d v0)) = c * dot r0 r0 + d * dot r0 v0) by (intros; unfold dot, vadd, vscal; cbn [vx vy vz]; ring).
  rewrite E, <- norm_sq. change (norm r0) with (R0 r0). field. lra.
Qed.
Lemma cross_dir r0 v0 u : r0 <> vzero -> cross r0 v0 <> vzero -> cross r0 (dir (r0, v0) u) = vscal (sin u * norm r0 / norm (cross r0 v0)) (cross r0 v0).
Proof. intros Hr Hh. rewrite (dir_eq r0 v0 Hr Hh). change (norm r0) with (R0 r0). apply vec_eq; unfold cross, vadd, vscal; cbn [vx vy vz]; ring. Qed.

Lemma arc_core mu r0 v0 t r1 v1 : 0 < mu -> flow_at mu (r0, v0) t (r1, v1) -> 0 < t -> cross r0 v0 <> vzero ->
  (energy mu (r0, v0) < 0 -> t < period mu (r0, v0)) ->
  exists theta, 0 < theta < 2 * PI /\ (r0 <> vzero /\ 0 < norm r1 /\ r1 = vscal (norm r1) (dir (r0, v0) theta) /\ dot r0 r1 = norm r0 * norm r1 * cos theta /\ vz (cross r0 r1) = sin theta * (norm r0 * norm r1 / norm (cross r0 v0) * vz (cross r0 v0))) /\ sweeps mu (r0, v0) theta t (r1, v1) /\ theta_row mu (r0, v0) theta = Some (r1, v1) /\
    forall u, 0 <= u <= theta -> exists tu su, 0 <= tu <= t /\ theta_row mu (r0, v0) u = Some su /\ sweeps mu (r0, v0) u tu su.
Proof.
  intros M F Ht Hh Pd.
  destruct (regular_r mu (r0, v0) (conj M Hh)) as [_ [Hr _]]. cbn [fst snd] in Hr. destruct (sqmu mu M) as [S1 S2].
  destruct (T_onto mu r0 v0 M Hr Hh (sqrt mu * t)) as [x E]. pose proof (flow_functional _ _ _ _ _ F (ustate_flow mu r0 v0 M Hr Hh t x E)) as EU.
  assert (Xp : 0 < x). { apply (T_sign mu r0 v0 x M Hr Hh). rewrite E. apply Rmult_lt_0_compat; assumption. }
  set (th := Th mu r0 v0 x). assert (Th0 : 0 < th). { unfold th. rewrite <- (Th_0 mu r0 v0). apply (Th_incr mu r0 v0 M Hr Hh). exact Xp. }
  assert (Th1 : th < 2 * PI).
  { apply Rnot_le_lt. intros L. destruct (Th_ivt mu r0 v0 M Hr Hh 0 x (2 * PI)) as [y [Hy Ey]]; [lra|rewrite Th_0; pose proof PI_RGT_0; fold th; lra|].
    assert (Yp : 0 < y). { destruct (Req_dec y 0) as [Z|]; [|lra]. rewrite Z, Th_0 in Ey. pose proof PI_RGT_0. lra. }
    assert (Back : ustate mu r0 v0 y = (r0, v0)).
    { pose proof (row_at mu r0 v0 M Hr Hh y) as A. pose proof (row_at mu r0 v0 M Hr Hh 0) as B. rewrite Ey in A. rewrite Th_0, (ustate_0 mu r0 v0 M Hr) in B. unfold theta_row in A, B. rewrite cos_2PI, sin_2PI in A. rewrite cos_0, sin_0 in B. rewrite A in B.
      congruence. }
    destruct (Rle_lt_dec 0 (energy mu (r0, v0))) as [En|En].
    - exact (no_return mu r0 v0 y M Hr Hh En Yp Back).
    - pose proof (time_of mu (r0, v0) y M) as TE. cbn [fst snd] in TE. set (t2 := T mu r0 v0 y / sqrt mu) in *.
      pose proof (ustate_flow mu r0 v0 M Hr Hh t2 y TE) as F2. rewrite Back in F2.
      destruct (least_period mu (r0, v0) t2 (conj (conj M Hh) En) F2) as [k Ek].
      assert (T2p : 0 < t2). { apply (T_sign mu r0 v0 y M Hr Hh) in Yp. unfold t2. apply Rdiv_lt_0_compat; assumption. }
      assert (T2l : t2 <= t).
      { apply Rmult_le_reg_l with (sqrt mu); [exact S1|]. rewrite <- TE, <- E. destruct (Req_dec y x) as [->|]; [lra|]. apply Rlt_le, (T_incr mu r0 v0 M Hr Hh). lra. }
      pose proof (Pd En) as Lt. assert (Pp : 0 < period mu (r0, v0)) by lra.
      assert (K : (1 <= k)%Z). { cut (0 < k)%Z; [lia|]. apply lt_IZR. apply Rnot_le_lt. intros Q. rewrite Ek in T2p. nra. }
      apply IZR_le in K. rewrite Ek in T2l. nra. }
  assert (RP : r1 = vscal (rho mu r0 v0 x) (dir (r0, v0) th)).
  { unfold th. rewrite <- (pos_dir mu r0 v0 M Hr Hh x). rewrite <- EU. reflexivity. }
  assert (RN : norm r1 = rho mu r0 v0 x) by (rewrite <- (unorm mu r0 v0 M Hr Hh x), <- EU; reflexivity).
  pose proof (rho_pos mu r0 v0 M Hr Hh x) as P. pose proof (R0_pos r0 Hr) as PR. unfold R0 in PR.
  assert (Dt : dot r0 r1 = norm r0 * norm r1 * cos th).
  { rewrite RN, RP. transitivity (rho mu r0 v0 x * dot r0 (dir (r0, v0) th)); [unfold dot, vscal; cbn [vx vy vz]; ring|]. rewrite (dot_dir r0 v0 th Hr Hh). ring. }
  assert (HP : 0 < norm (cross r0 v0)) by (apply norm_pos; exact Hh).
  assert (Cz : vz (cross r0 r1) = sin th * (norm r0 * norm r1 / norm (cross r0 v0) * vz (cross r0 v0))).
  { rewrite RN, RP. transitivity (rho mu r0 v0 x * vz (cross r0 (dir (r0, v0) th))); [unfold cross, vscal; cbn [vx vy vz]; ring|]. rewrite (cross_dir r0 v0 th Hr Hh). unfold vscal; cbn [vz]. field. lra. }
  exists th. split; [split; assumption|]. split; [|split; [|split]].
  - split; [exact Hr|]. split; [rewrite RN; exact P|]. split; [rewrite RN; exact RP|]. split; assumption.
  - rewrite EU. apply (sweeps_at mu r0 v0 M Hr Hh). exact E.
  - rewrite EU. apply (row_at mu r0 v0 M Hr Hh).
  - intros u Hu. destruct (Th_ivt mu r0 v0 M Hr Hh 0 x u) as [y [Hy Ey]]; [lra|rewrite Th_0; exact Hu|].
    pose proof (time_of mu (r0, v0) y M) as TE. cbn [fst snd] in TE. set (tu := T mu r0 v0 y / sqrt mu) in *.
    exists tu, (ustate mu r0 v0 y). split; [|split; [rewrite <- Ey; apply (row_at mu r0 v0 M Hr Hh)|rewrite <- Ey; apply (sweeps_at mu r0 v0 M Hr Hh); exact TE]].
    split; [apply (div_sqrt_sign mu); [exact M|]; apply (T_sign mu r0 v0 y M Hr Hh); lra|].
    apply Rmult_le_reg_l with (sqrt mu); [exact S1|]. rewrite <- TE, <- E. destruct (Req_dec y x) as [->|]; [lra|]. apply Rlt_le, (T_incr mu r0 v0 M Hr Hh). lra.
Qed.
Lemma angle_cases th r0 r1 : 0 < norm r0 -> 0 < norm r1 -> dot r0 r1 = norm r0 * norm r1 * cos th ->
  lambert_angle r0 r1 = Some (if Rlt_dec (vz (cross r0 r1)) 0 then 2 * PI - acos (cos th) else acos (cos th)).
Proof.
  intros P0 P1 Dt. unfold lambert_angle. rewrite pdiv_some by nra. cbn [obind]. rewrite Dt. replace (norm r0 * norm r1 * cos th / (norm r0 * norm r1)) with (cos th) by (field; lra).
  pose proof (COS_bound th) as [C1 C2]. unfold clip1. rewrite Rmax_left by lra. rewrite Rmin_left by lra. rewrite pacos_some by lra. reflexivity.
Qed.
Lemma lambert_arc mu r0 v0 t r1 v1 : 0 < mu -> flow_at mu (r0, v0) t (r1, v1) -> 0 < t -> 0 < vz (ang_mom (r0, v0)) ->
  (energy mu (r0, v0) < 0 -> t < period mu (r0, v0)) ->
  exists theta, 0 < theta < 2 * PI /\ lambert_angle r0 r1 = Some theta /\ sweeps mu (r0, v0) theta t (r1, v1) /\ theta_row mu (r0, v0) theta = Some (r1, v1) /\
    forall u, 0 <= u <= theta -> exists tu su, 0 <= tu <= t /\ theta_row mu (r0, v0) u = Some su /\ sweeps mu (r0, v0) u tu su.
Proof.
  intros M F Ht Hz Pd. change (0 < vz (cross r0 v0)) in Hz.
  assert (Hh : cross r0 v0 <> vzero) by (intro Z; rewrite Z in Hz; cbn in Hz; lra). assert (HP : 0 < norm (cross r0 v0)) by (apply norm_pos; exact Hh).
  destruct (arc_core mu r0 v0 t r1 v1 M F Ht Hh Pd) as [th [Tr [[Hr [P1 [RP [Dt Cz]]]] [Sw [Row Arc]]]]]. assert (PR : 0 < norm r0) by (apply norm_pos; exact Hr).
  exists th. split; [exact Tr|]. split; [|split; [exact Sw|split; [exact Row|exact Arc]]].
  rewrite (angle_cases th r0 r1 PR P1 Dt). f_equal. pose proof (acos_0_2PI th Tr) as AC. rewrite Cz.
  assert (Kp : 0 < norm r0 * norm r1 / norm (cross r0 v0) * vz (cross r0 v0)).
  { apply Rmult_lt_0_compat; [|exact Hz]. apply Rdiv_lt_0_compat; [|exact HP]. apply Rmult_lt_0_compat; assumption. }
  set (kk := norm r0 * norm r1 / norm (cross r0 v0) * vz (cross r0 v0)) in *.
  destruct (Rlt_dec (sin th * kk) 0) as [N|N], (Rlt_dec (sin th) 0) as [N'|N']; try exact AC; exfalso; nra.
Qed.
(** a clockwise transfer: the angle is measured the wrong way round *)
Lemma lambert_clockwise mu r0 v0 t r1 v1 : flow_at mu (r0, v0) t (r1, v1) -> 0 < t < period mu (r0, v0) -> elliptic mu (r0, v0) -> vz (ang_mom (r0, v0)) < 0 -> vz (cross r0 r1) <> 0 ->
  exists theta s', lambert_angle r0 r1 = Some theta /\ sweeps mu (r0, v0) (2 * PI - theta) t (r1, v1) /\ theta_row mu (r0, v0) theta = Some s' /\ fst s' <> r1.
Proof.
  intros F Ht El Hz Hc. change (vz (cross r0 v0) < 0) in Hz. destruct (regular_r _ _ (proj1 El)) as [M [_ Hh]]. cbn [fst snd] in Hh.
  assert (HP : 0 < norm (cross r0 v0)) by (apply norm_pos; exact Hh).
  destruct (arc_core mu r0 v0 t r1 v1 M F (proj1 Ht) Hh (fun _ => proj2 Ht)) as [th [Tr [[Hr [P1 [RP [Dt Cz]]]] [Sw [Row Arc]]]]]. assert (PR : 0 < norm r0) by (apply norm_pos; exact Hr).
  assert (Kp : norm r0 * norm r1 / norm (cross r0 v0) * vz (cross r0 v0) < 0).
  { assert (0 < norm r0 * norm r1 / norm (cross r0 v0)) by (apply Rdiv_lt_0_compat; [apply Rmult_lt_0_compat; assumption|exact HP]). nra. }
  assert (S0 : sin th <> 0) by (intro Z; apply Hc; rewrite Cz, Z; ring).
  assert (LA : lambert_angle r0 r1 = Some (2 * PI - th)).
  { rewrite (angle_cases th r0 r1 PR P1 Dt). f_equal. pose proof (acos_0_2PI th Tr) as AC. rewrite Cz. set (kk := norm r0 * norm r1 / norm (cross r0 v0) * vz (cross r0 v0)) in *.
    destruct (Rlt_dec (sin th * kk) 0) as [N|N], (Rlt_dec (sin th) 0) as [N'|N']; try lra; exfalso; nra. }
  pose proof (ellipse_reached mu (r0, v0) (2 * PI - th) El) as Re. apply (reached_den mu r0 v0 _ M Hr Hh) in Re.
  destruct (row_pos mu r0 v0 (2 * PI - th) M Hr Hh ltac:(lra)) as [s' [E X]]. exists (2 * PI - th), s'. split; [exact LA|]. split; [replace (2 * PI - (2 * PI - th)) with th by ring; exact Sw|]. split; [exact E|].
  intros Q. rewrite X in Q. pose proof (pp_pos mu r0 v0 M Hh) as PP. pose proof (R0_pos r0 Hr) as PR0. set (Rf := pp mu r0 v0 * R0 r0 / den mu r0 v0 (2 * PI - th)) in *.
  assert (RfP : 0 < Rf) by (apply Rdiv_lt_0_compat; [apply Rmult_lt_0_compat; assumption|exact Re]).
  assert (C : vz (cross r0 r1) = - (sin th * (norm r0 * Rf / norm (cross r0 v0) * vz (cross r0 v0)))).
  { rewrite <- Q. transitivity (Rf * vz (cross r0 (dir (r0, v0) (2 * PI - th)))); [unfold cross, vscal; cbn [vx vy vz]; ring|]. rewrite (cross_dir r0 v0 _ Hr Hh). unfold vscal; cbn [vz].
    rewrite sin_minus, cos_2PI, sin_2PI. field. lra. }
  rewrite Cz in C. assert (norm r0 * Rf / norm (cross r0 v0) * vz (cross r0 v0) < 0).
  { assert (0 < norm r0 * Rf / norm (cross r0 v0)) by (apply Rdiv_lt_0_compat; [apply Rmult_lt_0_compat; assumption|exact HP]). nra. }
  set (k1 := norm r0 * norm r1 / norm (cross r0 v0) * vz (cross r0 v0)) in *. set (k2 := norm r0 * Rf / norm (cross r0 v0) * vz (cross r0 v0)) in *.
  assert (sin th * (k1 + k2) = 0) by lra. apply Rmult_integral in H0. destruct H0; [contradiction|lra].
Qed.
Lemma py_nth_ok {A : Type} (l : list A) i x : (0 <= i)%Z -> nth_error l (Z.to_nat i) = Some x -> py_nth l i = Ret x.
Proof.
  intros Hi E. assert (L : (Z.to_nat i < length l)%nat) by (apply nth_error_Some; congruence). unfold py_nth.
  destruct (Z.ltb_spec i 0); [lia|]. destruct (Z.ltb_spec i 0); [lia|]. destruct (Z.leb_spec (Z.of_nat (length l)) i); [lia|]. cbn [orb]. rewrite E. reflexivity.
Qed.

Lemma plot_lambert l N units v0 v1 t : (2 <= N)%Z -> units <> 0 -> (0 <= lp_nmax l)%Z -> nth_error (lp_v0 l) 0 = Some v0 ->
  let mu := lp_mu l in let s := (lp_r0 l, v0) in
  0 < mu -> flow_at mu s t (lp_r1 l, v1) -> 0 < t -> 0 < vz (ang_mom s) -> (energy mu s < 0 -> t < period mu s) ->
  exists pts theta, add_lambert l N 0 units = Ret (Some pts) /\ length pts = Z.to_nat N /\ 0 < theta < 2 * PI /\ sweeps mu s theta t (lp_r1 l, v1) /\
    nth_error pts 0 = Some (vscal (/ units) (lp_r0 l)) /\ nth_error pts (Z.to_nat N - 1) = Some (vscal (/ units) (lp_r1 l)) /\
    forall i, (i < Z.to_nat N)%nat -> exists ti si, 0 <= ti <= t /\ sweeps mu s (INR i * theta / IZR (N - 1)) ti si /\ nth_error pts i = Some (vscal (/ units) (fst si)).
Proof.
  intros HN U Nm E0 mu s M F Ht Hz Pd. destruct (lambert_arc mu (lp_r0 l) v0 t (lp_r1 l) v1 M F Ht Hz Pd) as [th [Tr [LA [Sw [Row Arc]]]]].
  destruct (linspace_ok 0 th N HN) as [g [G [Gl Gn]]].
  destruct (all_some_ok (theta_row mu s) g (fun u su => theta_row mu s u = Some su /\ exists tu, 0 <= tu <= t /\ sweeps mu s u tu su)) as [rows [Er Fr]].
  { intros u Hu. apply In_nth_error in Hu. destruct Hu as [i Ei]. assert (Hi : (i < Z.to_nat N)%nat) by (rewrite <- Gl; apply nth_error_Some; congruence).
    rewrite Gn in Ei by exact Hi. injection Ei as <-. destruct (Arc _ (grid_range th N i HN Hi (Rlt_le _ _ (proj1 Tr)))) as [tu [su [A [B C]]]]. exists su. split; [exact B|]. split; [exact B|]. exists tu. auto. }
  assert (Run : add_lambert l N 0 units = Ret (Some (map (fun s => vscal (/ units) (fst s)) rows))).
  { unfold add_lambert. destruct (Z.ltb_spec (lp_nmax l * 2) 0); [lia|]. rewrite (py_nth_ok _ 0 v0) by (lia || exact E0). cbn [bind]. rewrite LA. cbn [Z.eqb]. rewrite G. cbn [bind].
    unfold theta_v. fold s. fold mu. rewrite Er. cbn [bind obind]. rewrite vdiv_all by exact U. reflexivity. }
  assert (PT : forall i, (i < Z.to_nat N)%nat -> exists su, nth_error (map (fun s => vscal (/ units) (fst s)) rows) i = Some (vscal (/ units) (fst su)) /\
     theta_row mu s (0 + INR i * ((th - 0) / IZR (N - 1))) = Some su /\ exists tu, 0 <= tu <= t /\ sweeps mu s (0 + INR i * ((th - 0) / IZR (N - 1))) tu su).
  { intros i Hi. destruct (Forall2_nth _ _ _ i _ Fr (Gn i Hi)) as [su [Es [Rs Qs]]]. exists su. split; [apply (map_nth_error (fun s : state => vscal (/ units) (fst s))); exact Es|]. split; assumption. }
  eexists _, th. split; [exact Run|]. split; [exact (eq_trans (map_length _ rows) (eq_trans (eq_sym (F2_length _ _ _ Fr)) Gl))|]. split; [exact Tr|]. split; [exact Sw|]. split; [|split].
  - destruct (PT 0%nat ltac:(lia)) as [su [Es [Rs _]]]. rewrite Es. f_equal. f_equal. cbn [INR] in Rs.
    assert (Rg : regular mu s). { split; [exact M|]. intros Zz. rewrite Zz in Hz. cbn in Hz. lra. }
    destruct (regular_r mu s Rg) as [_ [Hr Hh]]. unfold s in Hr, Hh. cbn [fst snd] in Hr, Hh.
    pose proof (row_at mu (lp_r0 l) v0 M Hr Hh 0) as R0e. rewrite Th_0 in R0e. replace (0 + 0 * ((th - 0) / IZR (N - 1))) with 0 in Rs by ring. unfold s in Rs. rewrite Rs in R0e. injection R0e as ->.
    rewrite (ustate_0 mu (lp_r0 l) v0 M Hr). reflexivity.
  - destruct (PT (Z.to_nat N - 1)%nat ltac:(lia)) as [su [Es [Rs _]]]. rewrite Es. f_equal. f_equal. rewrite grid_last in Rs by exact HN. unfold s in Rs. rewrite Row in Rs. injection Rs as <-. reflexivity.
  - intros i Hi. destruct (PT i Hi) as [su [Es [_ [tu [A B]]]]]. exists tu, su. split; [exact A|]. split; [|exact Es].
    replace (INR i * th / IZR (N - 1)) with (0 + INR i * ((th - 0) / IZR (N - 1))); [exact B|]. assert (0 < IZR (N - 1)) by (apply IZR_lt; lia). field. lra.
Qed.
(** the other solutions: the whole ellipse *)
Lemma plot_lambert_orbit l N sol units v0 : (2 <= N)%Z -> units <> 0 -> sol <> 0%Z -> (sol <= 2 * lp_nmax l)%Z -> py_nth (lp_v0 l) sol = Ret v0 ->
  let mu := lp_mu l in let s := (lp_r0 l, v0) in elliptic mu s ->
  exists pts, add_lambert l N sol units = Ret (Some pts) /\ length pts = Z.to_nat N /\
    nth_error pts 0 = Some (vscal (/ units) (lp_r0 l)) /\ nth_error pts (Z.to_nat N - 1) = Some (vscal (/ units) (lp_r0 l)) /\
    forall i, (i < Z.to_nat N)%nat -> exists ti si, sweeps mu s (INR i * (2 * PI) / IZR (N - 1)) ti si /\ nth_error pts i = Some (vscal (/ units) (fst si)).
Proof.
  intros HN U S0 S1 E0 mu s El. destruct (linspace_ok 0 (2 * PI) N HN) as [g [G [Gl Gn]]]. destruct (regular_r _ _ (proj1 El)) as [M [Hr Hh]]. unfold s in Hr, Hh. cbn [fst snd] in Hr, Hh.
  destruct (all_some_ok (theta_row mu s) g (fun u su => theta_row mu s u = Some su /\ exists tu, sweeps mu s u tu su)) as [rows [Er Fr]].
  { intros u Hu. destruct (theta_elliptic mu s u El) as [su [tu [A [B _]]]]. exists su. split; [exact A|]. split; [exact A|]. exists tu. exact B. }
  assert (Run : add_lambert l N sol units = Ret (Some (map (fun s => vscal (/ units) (fst s)) rows))).
  { unfold add_lambert. destruct (Z.ltb_spec (lp_nmax l * 2) sol); [lia|]. rewrite E0. cbn [bind]. destruct (Z.eqb_spec sol 0); [contradiction|]. rewrite G. cbn [bind].
    unfold theta_v. fold s. fold mu. rewrite Er. cbn [bind obind]. rewrite vdiv_all by exact U. reflexivity. }
  assert (PT : forall i, (i < Z.to_nat N)%nat -> exists su, nth_error (map (fun s => vscal (/ units) (fst s)) rows) i = Some (vscal (/ units) (fst su)) /\
     theta_row mu s (0 + INR i * ((2 * PI - 0) / IZR (N - 1))) = Some su /\ exists tu, sweeps mu s (0 + INR i * ((2 * PI - 0) / IZR (N - 1))) tu su).
  { intros i Hi. destruct (Forall2_nth _ _ _ i _ Fr (Gn i Hi)) as [su [Es [Rs Qs]]]. exists su. split; [apply (map_nth_error (fun s : state => vscal (/ units) (fst s))); exact Es|]. split; assumption. }
  pose proof (row_at mu (lp_r0 l) v0 M Hr Hh 0) as R0e. rewrite Th_0, (ustate_0 mu (lp_r0 l) v0 M Hr) in R0e.
  eexists. split; [exact Run|]. split; [exact (eq_trans (map_length _ rows) (eq_trans (eq_sym (F2_length _ _ _ Fr)) Gl))|]. split; [|split].
  - destruct (PT 0%nat ltac:(lia)) as [su [Es [Rs _]]]. rewrite Es. f_equal. f_equal. cbn [INR] in Rs. replace (0 + 0 * ((2 * PI - 0) / IZR (N - 1))) with 0 in Rs by ring. unfold s in Rs. rewrite Rs in R0e. injection R0e as ->. reflexivity.
  - destruct (PT (Z.to_nat N - 1)%nat ltac:(lia)) as [su [Es [Rs _]]]. rewrite Es. f_equal. f_equal. rewrite grid_last in Rs by exact HN.
    unfold theta_row in Rs, R0e. rewrite cos_2PI, sin_2PI in Rs. rewrite cos_0, sin_0 in R0e. unfold s in Rs. rewrite Rs in R0e. injection R0e as ->. reflexivity.
  - intros i Hi. destruct (PT i Hi) as [su [Es [_ [tu B]]]]. exists tu, su. split; [|exact Es].
    replace (INR i * (2 * PI) / IZR (N - 1)) with (0 + INR i * ((2 * PI - 0) / IZR (N - 1))); [exact B|]. assert (0 < IZR (N - 1)) by (apply IZR_lt; lia). field. lra.
Qed.

Lemma plot_clockwise l N units v0 v1 t : (2 <= N)%Z -> units <> 0 -> (0 <= lp_nmax l)%Z -> nth_error (lp_v0 l) 0 = Some v0 ->
  let mu := lp_mu l in let s := (lp_r0 l, v0) in
  flow_at mu s t (lp_r1 l, v1) -> 0 < t < period mu s -> elliptic mu s -> vz (ang_mom s) < 0 -> vz (cross (lp_r0 l) (lp_r1 l)) <> 0 ->
  exists pts p, add_lambert l N 0 units = Ret (Some pts) /\ nth_error pts (Z.to_nat N - 1) = Some p /\ p <> vscal (/ units) (lp_r1 l).
Proof.
  intros HN U Nm E0 mu s F Ht El Hz Hc. destruct (lambert_clockwise mu (lp_r0 l) v0 t (lp_r1 l) v1 F Ht El Hz Hc) as [th [s' [LA [_ [Row Ne]]]]].
  destruct (linspace_ok 0 th N HN) as [g [G [Gl Gn]]].
  destruct (all_some_ok (theta_row mu s) g (fun u su => theta_row mu s u = Some su)) as [rows [Er Fr]].
  { intros u _. destruct (theta_elliptic mu s u El) as [su [tu [A _]]]. exists su. auto. }
  destruct (Forall2_nth _ _ _ _ _ Fr (Gn (Z.to_nat N - 1)%nat ltac:(lia))) as [su [Es Rs]]. rewrite grid_last in Rs by exact HN. unfold s in Rs. rewrite Row in Rs. injection Rs as <-.
  exists (map (fun s : state => vscal (/ units) (fst s)) rows), (vscal (/ units) (fst s')). split; [|split].
  - unfold add_lambert. destruct (Z.ltb_spec (lp_nmax l * 2) 0); [lia|]. rewrite (py_nth_ok _ 0 v0) by (lia || exact E0). cbn [bind]. rewrite LA. cbn [Z.eqb]. rewrite G. cbn [bind].
    unfold theta_v. fold s. fold mu. rewrite Er. cbn [bind obind]. rewrite vdiv_all by exact U. reflexivity.
  - apply (map_nth_error (fun s : state => vscal (/ units) (fst s))). exact Es.
  - intros Q. apply Ne. assert (Q' : vscal units (vscal (/ units) (fst s')) = vscal units (vscal (/ units) (lp_r1 l))) by (rewrite Q; reflexivity).
    assert (I : forall r, vscal units (vscal (/ units) r) = r) by (intros r; apply vec_eq; unfold vscal; cbn [vx vy vz]; field; exact U). rewrite !I in Q'. exact Q'.
Qed.

(** ** add_ballistic_arc *)
Lemma arc_points_ok newton mu units : units <> 0 -> newton_ok newton -> forall n rv dt, elliptic mu rv ->
  exists pts, arc_points newton n rv dt mu units = Ret pts /\ length pts = n /\ forall i, (i < n)%nat -> exists si, flow_at mu rv (INR i * dt) si /\ nth_error pts i = Some (vscal (/ units) (fst si)).
Proof.
  intros U NK. induction n as [|n IH]; intros rv dt El; [exists []; repeat split; intros i Hi; lia|].
  destruct (ellipse_flow newton mu rv dt false NK El) as [s1 [m [E F]]]. destruct (flow_integrals mu rv dt s1 (proj1 El) F) as [SI _].
  destruct (IH s1 dt (proj1 (proj2 (same_regular _ _ _ SI)) El)) as [pts [Ep [Lp Hp]]].
  exists (vscal (/ units) (fst rv) :: pts). split; [cbn [arc_points]; rewrite vdiv_some by exact U; rewrite E; cbn [bind fst]; rewrite Ep; reflexivity|]. split; [cbn; rewrite Lp; reflexivity|].
  intros [|i] Hi; [exists rv; split; [cbn [INR]; rewrite Rmult_0_l; apply flow_0; exact (proj1 El)|reflexivity]|].
  destruct (Hp i ltac:(lia)) as [si [Fi Ei]]. exists si. split; [|exact Ei]. replace (INR (Datatypes.S i) * dt) with (dt + INR i * dt) by (rewrite S_INR; ring).
  exact (flow_comp mu rv dt s1 (INR i * dt) si (proj1 (proj1 El)) F Fi).
Qed.
Lemma arc_points_sound newton mu units : units <> 0 -> newton_sound newton -> forall n rv dt pts, regular mu rv -> energy mu rv <> 0 -> arc_points newton n rv dt mu units = Ret pts ->
  length pts = n /\ forall i, (i < n)%nat -> exists si, flow_at mu rv (INR i * dt) si /\ nth_error pts i = Some (vscal (/ units) (fst si)).
Proof.
  intros U NK. induction n as [|n IH]; intros rv dt pts Rg En H; cbn [arc_points] in H; [injection H as <-; split; [reflexivity|intros i Hi; lia]|].
  rewrite vdiv_some in H by exact U. destruct (propagate_lagrangian newton rv dt mu false) as [[s1 m]| |] eqn:E; cbn [bind fst] in H; try discriminate.
  destruct (arc_points newton n s1 dt mu units) as [l| |] eqn:El; cbn [bind] in H; try discriminate. injection H as <-.
  pose proof (lag_sound newton mu rv dt false s1 m NK Rg En E) as F. destruct (flow_integrals mu rv dt s1 Rg F) as [SI _].
  destruct (IH s1 dt l (proj1 (same_regular _ _ _ SI) Rg)) as [Ll Hl]; [rewrite (proj1 SI); exact En|exact El|]. split; [cbn; rewrite Ll; reflexivity|].
  intros [|i] Hi; [exists rv; split; [cbn [INR]; rewrite Rmult_0_l; apply flow_0; exact Rg|reflexivity]|].
  destruct (Hl i ltac:(lia)) as [si [Fi Ei]]. exists si. split; [|exact Ei]. replace (INR (Datatypes.S i) * dt) with (dt + INR i * dt) by (rewrite S_INR; ring).
  exact (flow_comp mu rv dt s1 (INR i * dt) si (proj1 Rg) F Fi).
Qed.
Lemma ballistic_ok newton mu units rv tof N : newton_ok newton -> units <> 0 -> elliptic mu rv -> (2 <= N)%Z ->
  exists pts, add_ballistic_arc newton rv tof mu units N = Ret pts /\ length pts = Z.to_nat N /\
    forall i, (i < Z.to_nat N)%nat -> exists si, flow_at mu rv (INR i * tof / IZR (N - 1)) si /\ nth_error pts i = Some (vscal (/ units) (fst si)).
Proof.
  intros NK U El HN. destruct (arc_points_ok newton mu units U NK (Z.to_nat N) rv (tof / IZR (N - 1)) El) as [pts [E [L P]]]. exists pts.
  split; [unfold add_ballistic_arc; destruct (Z.eqb_spec N 1); [lia|exact E]|]. split; [exact L|]. intros i Hi. destruct (P i Hi) as [si [F Q]]. exists si. split; [|exact Q].
  replace (INR i * tof / IZR (N - 1)) with (INR i * (tof / IZR (N - 1))) by (unfold Rdiv; ring). exact F.
Qed.
Lemma ballistic_sound newton mu units rv tof N pts : newton_sound newton -> units <> 0 -> regular mu rv -> energy mu rv <> 0 -> add_ballistic_arc newton rv tof mu units N = Ret pts ->
  N <> 1%Z /\ length pts = Z.to_nat N /\ forall i, (i < Z.to_nat N)%nat -> exists si, flow_at mu rv (INR i * tof / IZR (N - 1)) si /\ nth_error pts i = Some (vscal (/ units) (fst si)).
Proof.
  intros NK U Rg En H. unfold add_ballistic_arc in H. destruct (Z.eqb_spec N 1); [discriminate|]. split; [assumption|].
  destruct (arc_points_sound newton mu units U NK _ _ _ _ Rg En H) as [L P]. split; [exact L|]. intros i Hi. destruct (P i Hi) as [si [F Q]]. exists si. split; [|exact Q].
  replace (INR i * tof / IZR (N - 1)) with (INR i * (tof / IZR (N - 1))) by (unfold Rdiv; ring). exact F.
Qed.

(** ** add_planet_orbit *)
(** eph_v returns the states of eph, one per date *)
Definition rows_ok (p : ppla) : Prop := forall l, (exists m, pp_eph_v p l = Ret m /\ Forall2 (fun t s => pp_eph p t = Ret s) l m).
Lemma planet_orbit_range p a b units N : rows_ok p -> units <> 0 -> (2 <= N)%Z ->
  exists pts, add_planet_orbit p (Some (a, b)) units N = Ret (Some pts) /\ length pts = Z.to_nat N /\
    forall i, (i < Z.to_nat N)%nat -> exists s, pp_eph p (a + INR i * (b - a) / IZR (N - 1)) = Ret s /\ nth_error pts i = Some (vscal (/ units) (fst s)).
Proof.
  intros Rk U HN. destruct (linspace_ok a b N HN) as [g [G [Gl Gn]]]. destruct (Rk g) as [m [Em Fm]]. exists (map (fun s : state => vscal (/ units) (fst s)) m).
  split; [unfold add_planet_orbit; rewrite G; cbn [bind]; rewrite Em; cbn [bind]; rewrite vdiv_all by exact U; reflexivity|].
  split; [exact (eq_trans (map_length _ m) (eq_trans (eq_sym (F2_length _ _ _ Fm)) Gl))|].
  intros i Hi. destruct (Forall2_nth _ _ _ i _ Fm (Gn i Hi)) as [s [Es Q]]. exists s. split; [|apply (map_nth_error (fun s : state => vscal (/ units) (fst s))); exact Es].
  replace (a + INR i * (b - a) / IZR (N - 1)) with (a + INR i * ((b - a) / IZR (N - 1))) by (unfold Rdiv; ring). exact Q.
Qed.
Lemma planet_orbit_default p T units N : pp_period p = Ret T -> add_planet_orbit p None units N = add_planet_orbit p (Some (0, T / 86400)) units N.
Proof. intros E. unfold add_planet_orbit. rewrite E. cbn [bind]. replace (T * (1 / 86400)) with (T / 86400) by (unfold Rdiv; ring). reflexivity. Qed.
(** a planet on an ellipse: the default range closes the curve *)
Lemma planet_orbit_closed p mu s0 units N : rows_ok p -> units <> 0 -> (2 <= N)%Z -> elliptic mu s0 -> pp_period p = Ret (period mu s0) ->
  (forall t, exists s, pp_eph p t = Ret s /\ flow_at mu s0 (t * 86400) s) ->
  exists pts, add_planet_orbit p None units N = Ret (Some pts) /\ length pts = Z.to_nat N /\
    (forall i, (i < Z.to_nat N)%nat -> exists si, flow_at mu s0 (INR i * period mu s0 / IZR (N - 1)) si /\ nth_error pts i = Some (vscal (/ units) (fst si))) /\
    nth_error pts 0 = Some (vscal (/ units) (fst s0)) /\ nth_error pts (Z.to_nat N - 1) = Some (vscal (/ units) (fst s0)).
Proof.
  intros Rk U HN El Pe Fl. destruct (planet_orbit_range p 0 (period mu s0 / 86400) units N Rk U HN) as [pts [E [L P]]]. rewrite <- (planet_orbit_default p _ units N Pe) in E.
  assert (NP : 0 < IZR (N - 1)) by (apply IZR_lt; lia).
  assert (Q : forall i, (i < Z.to_nat N)%nat -> exists si, flow_at mu s0 (INR i * period mu s0 / IZR (N - 1)) si /\ nth_error pts i = Some (vscal (/ units) (fst si))).
  { intros i Hi. destruct (P i Hi) as [s [Es Qs]]. destruct (Fl (0 + INR i * (period mu s0 / 86400 - 0) / IZR (N - 1))) as [s' [Es' F]]. rewrite Es in Es'. injection Es' as <-. exists s. split; [|exact Qs].
    replace (INR i * period mu s0 / IZR (N - 1)) with ((0 + INR i * (period mu s0 / 86400 - 0) / IZR (N - 1)) * 86400) by (field; lra). exact F. }
  exists pts. split; [exact E|]. split; [exact L|]. split; [exact Q|]. split.
  - destruct (Q 0%nat ltac:(lia)) as [si [F Es]]. rewrite Es. f_equal. f_equal. f_equal. cbn [INR] in F. replace (0 * period mu s0 / IZR (N - 1)) with 0 in F by (field; lra).
    exact (flow_functional _ _ _ _ _ F (flow_0 mu s0 (proj1 El))).
  - destruct (Q (Z.to_nat N - 1)%nat ltac:(lia)) as [si [F Es]]. rewrite Es. f_equal. f_equal. f_equal.
    replace (INR (Z.to_nat N - 1) * period mu s0 / IZR (N - 1)) with (period mu s0) in F.
    2:{ replace (INR (Z.to_nat N - 1)) with (IZR (N - 1)); [field; lra|]. rewrite INR_IZR_INZ. f_equal. lia. }
    apply (flow_functional _ _ _ _ _ F). rewrite <- (Rmult_1_l (period mu s0)). exact (flow_period mu s0 1 El).
Qed.
