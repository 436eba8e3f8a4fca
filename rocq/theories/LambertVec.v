(** * The terminal velocities of the Lambert solver: one conic, traversed in the requested direction *)
From Coq Require Import Reals ZArith Lra Lia Bool.
From Coquelicot Require Import Coquelicot.
From Verif Require Import Outcome PartialReal RealLib KepProofs Vec3 TwoBodySpec FlowProofs LagProofs ElemProofs LambertModel LambertReal LambertProofs LambertSpec LambertGeo LambertTime.
Open Scope R_scope.

Lemma cross_cross a b c : cross (cross a b) c = vsub (vscal (dot a c) b) (vscal (dot b c) a). Proof. vring. Qed.
Lemma cross_cross' a b c : cross a (cross b c) = vsub (vscal (dot a c) b) (vscal (dot a b) c). Proof. vring. Qed.

Ltac inst H := repeat match type of H with ?P -> _ => let h := fresh in assert (h : P) by assumption; specialize (H h); clear h end.
Lemma ortho_ecc a b p q t : dot a a = 1 -> dot b b = 1 -> dot a b = 0 -> cross (vadd (vscal p a) (vscal q b)) (vscal t (cross a b)) = vadd (vscal (t * q) a) (vscal (- (t * p)) b).
Proof.
  intros A B AB. replace (cross (vadd (vscal p a) (vscal q b)) (vscal t (cross a b))) with (vadd (vscal (t * p) (cross a (cross a b))) (vscal (t * q) (cross b (cross a b)))) by vring.
  rewrite !cross_cross', A, B, (dot_comm b a), AB. vring.
Qed.
(** ** operations of the real arithmetic on numbers *)
Notation RA := real_arith.
Lemma nat_r n : nat_ RA n = Some (IZR n). Proof. unfold nat_. cbn. f_equal. field. Qed.
Lemma add_r a b : f_add RA (Some a) (Some b) = Some (a + b). Proof. reflexivity. Qed.
Lemma sub_r a b : f_sub RA (Some a) (Some b) = Some (a - b). Proof. reflexivity. Qed.
Lemma mul_r a b : f_mul RA (Some a) (Some b) = Some (a * b). Proof. reflexivity. Qed.
Lemma opp_r a : f_opp RA (Some a) = Some (- a). Proof. reflexivity. Qed.
Lemma abs_r a : f_abs RA (Some a) = Some (Rabs a). Proof. reflexivity. Qed.
Lemma div_r a b : b <> 0 -> f_div RA (Some a) (Some b) = Some (a / b). Proof. intros H. cbn. apply pdiv_some, H. Qed.
Lemma sqrt_r a : 0 <= a -> f_sqrt RA (Some a) = Some (sqrt a). Proof. intros H. cbn. apply psqrt_some, H. Qed.
Lemma lt_r a b : f_lt RA (Some a) (Some b) = if Rlt_dec a b then true else false. Proof. reflexivity. Qed.
Lemma le_r a b : f_le RA (Some a) (Some b) = if Rle_dec a b then true else false. Proof. reflexivity. Qed.
Lemma eq_r a b : LambertModel.f_eq RA (Some a) (Some b) = if Req_EM_T a b then true else false. Proof. reflexivity. Qed.
Lemma norm_r v : f_norm RA (sv v) = Some (norm v). Proof. destruct v. reflexivity. Qed.
Lemma v3sub_r a b : v3sub RA (sv a) (sv b) = sv (vsub a b). Proof. reflexivity. Qed.
Lemma v3div_r a d : d <> 0 -> v3div RA (sv a) (Some d) = sv (vscal (/ d) a).
Proof. intros H. unfold sv, v3div. rewrite !div_r by exact H. unfold vscal. cbn [vx vy vz]. unfold Rdiv. rewrite !(Rmult_comm (/ d)). reflexivity. Qed.
Lemma v3opp_r a : v3opp RA (sv a) = sv (vneg a). Proof. reflexivity. Qed.
Lemma v3cross_r a b : v3cross RA (sv a) (sv b) = sv (cross a b).
Proof. unfold sv, v3cross. rewrite !mul_r, !sub_r. unfold cross. cbn [vx vy vz]. f_equal; [f_equal|]; f_equal; ring. Qed.
Lemma v3lin_r p a q b : v3lin RA (Some p) (sv a) (Some q) (sv b) = sv (vadd (vscal p a) (vscal q b)). Proof. reflexivity. Qed.
Lemma v3z_r a : v3z (sv a) = Some (vz a). Proof. reflexivity. Qed.
Ltac ev := repeat first [rewrite mul_r | rewrite add_r | rewrite sub_r | rewrite opp_r].
Section Vec.
Variables (r0 r1 : vec) (cw : bool).
Hypothesis Hc : vz (cross r0 r1) <> 0.
Let Rs := norm r0. Let Rf := norm r1. Let c := norm (vsub r1 r0). Let s := (c + Rs + Rf) / 2.
Let u := vscal (/ Rs) r0. Let f := vscal (/ Rf) r1.
Let nn := norm (cross u f). Let ih := vscal (/ nn) (cross u f).
Let g : R := if xorb (if Rlt_dec (vz ih) 0 then true else false) cw then -1 else 1.
Let lam := g * sqrt (1 - c / s).
Let w := vscal g (cross ih u). Let wf := vscal g (cross ih f).
Let rho := (Rs - Rf) / c. Let sig := sqrt (1 - rho * rho).
Let C := dot u f. Let S := g * nn.
Let k := sqrt (s / 2).

Lemma cr_nz : cross r0 r1 <> vzero. Proof. intros H. rewrite H in Hc. apply Hc. reflexivity. Qed.
Lemma Rs_pos : 0 < Rs. Proof. apply norm_pos. intros H. apply cr_nz. rewrite H. vring. Qed.
Lemma Rf_pos : 0 < Rf. Proof. apply norm_pos. intros H. apply cr_nz. rewrite H. vring. Qed.
Lemma d_lt : dot r0 r1 * dot r0 r1 < (Rs * Rs) * (Rf * Rf).
Proof. unfold Rs, Rf. rewrite !norm_sq. pose proof (dot_pos _ cr_nz) as H. rewrite lagrange_identity in H. lra. Qed.
Lemma c_sq : c * c = Rs * Rs + Rf * Rf - 2 * dot r0 r1.
Proof. unfold c, Rs, Rf. rewrite !norm_sq. unfold dot, vsub. cbn [vx vy vz]. ring. Qed.
Lemma c_bounds : (Rs - Rf) * (Rs - Rf) < c * c /\ c * c < (Rs + Rf) * (Rs + Rf).
Proof.
  pose proof Rs_pos. pose proof Rf_pos. pose proof d_lt as D. assert (P : 0 < Rs * Rf) by (apply Rmult_lt_0_compat; assumption).
  assert (A : Rabs (dot r0 r1) < Rs * Rf). { rewrite <- (Rabs_right (Rs * Rf)) by lra. apply Rsqr_lt_abs_0. unfold Rsqr. nra. }
  apply Rabs_def2 in A. rewrite c_sq. nra.
Qed.
Lemma c_pos : 0 < c.
Proof. destruct (norm_nonneg (vsub r1 r0)) as [H|H]; [exact H|]. exfalso. destruct c_bounds as [B _]. unfold c in B. rewrite <- H in B. pose proof (Rle_0_sqr (Rs - Rf)) as Q. unfold Rsqr in Q. lra. Qed.
Lemma c_lt : c < Rs + Rf.
Proof. pose proof Rs_pos. pose proof Rf_pos. pose proof c_pos. apply Rsqr_incrst_0; [unfold Rsqr; apply c_bounds|lra|lra]. Qed.
Lemma s_pos : 0 < s. Proof. unfold s. pose proof Rs_pos. pose proof Rf_pos. pose proof c_pos. lra. Qed.
Lemma l2_pos : 0 < 1 - c / s < 1.
Proof.
  pose proof s_pos. pose proof c_pos. pose proof c_lt. assert (c / s < 1) by (apply (Rmult_lt_reg_r s); [assumption|]; replace (c / s * s) with c by (field; lra); unfold s; lra).
  assert (0 < c / s) by (apply Rdiv_lt_0_compat; assumption). lra.
Qed.
Lemma g_sq : g * g = 1. Proof. unfold g. destruct (xorb _ _); ring. Qed.
Lemma lam_sq : lam * lam = 1 - c / s.
Proof. unfold lam. pose proof l2_pos. transitivity ((g * g) * (sqrt (1 - c / s) * sqrt (1 - c / s))); [ring|]. rewrite g_sq, sqrt_sqrt by lra. ring. Qed.
Lemma rho_lt : rho * rho < 1.
Proof.
  pose proof c_pos. destruct c_bounds as [B _]. apply (Rmult_lt_reg_r (c * c)); [nra|]. replace (rho * rho * (c * c)) with ((Rs - Rf) * (Rs - Rf)) by (unfold rho; field; lra). lra.
Qed.
Lemma sig_pos : 0 < sig /\ rho * rho + sig * sig = 1.
Proof. pose proof rho_lt. split; [apply sqrt_lt_R0; lra|]. unfold sig. rewrite sqrt_sqrt by lra. ring. Qed.
Lemma k_sq : 0 < k /\ k * k = s / 2.
Proof. pose proof s_pos. split; [apply sqrt_lt_R0; lra|]. unfold k. apply sqrt_sqrt. lra. Qed.
Lemma u_unit : dot u u = 1.
Proof. unfold u. rewrite dot_scal_l, dot_scal_r, <- norm_sq. fold Rs. pose proof Rs_pos. field. lra. Qed.
Lemma f_unit : dot f f = 1.
Proof. unfold f. rewrite dot_scal_l, dot_scal_r, <- norm_sq. fold Rf. pose proof Rf_pos. field. lra. Qed.
Lemma uf_cross : cross u f = vscal (/ (Rs * Rf)) (cross r0 r1).
Proof. pose proof Rs_pos. pose proof Rf_pos. unfold u, f. apply vec_eq; unfold vscal, cross; cbn [vx vy vz]; field; lra. Qed.
Lemma inv_pos : 0 < / (Rs * Rf). Proof. apply Rinv_0_lt_compat, Rmult_lt_0_compat; [exact Rs_pos|exact Rf_pos]. Qed.
Lemma nn_sq : nn * nn + C * C = 1.
Proof. unfold nn, C. rewrite norm_sq, lagrange_identity, u_unit, f_unit. ring. Qed.
Lemma nn_pos : 0 < nn.
Proof. apply norm_pos. rewrite uf_cross. intros H. apply Hc. apply (f_equal vz) in H. unfold vscal, vzero in H. cbn [vz] in H. pose proof inv_pos. apply Rmult_integral in H. destruct H; [lra|assumption]. Qed.
Lemma ih_z : vz ih = / nn * (/ (Rs * Rf) * vz (cross r0 r1)). Proof. unfold ih. rewrite uf_cross. reflexivity. Qed.
Lemma ih_sign : 0 < / nn * / (Rs * Rf). Proof. apply Rmult_lt_0_compat; [apply Rinv_0_lt_compat, nn_pos|apply inv_pos]. Qed.
Lemma ih_z_nz : vz ih <> 0.
Proof. rewrite ih_z, <- Rmult_assoc. pose proof ih_sign. apply Rmult_integral_contrapositive_currified; [lra|exact Hc]. Qed.
Lemma ih_u : cross ih u = vscal (/ nn) (vsub f (vscal C u)).
Proof.
  unfold ih, C. replace (cross (vscal (/ nn) (cross u f)) u) with (vscal (/ nn) (cross (cross u f) u)) by vring.
  rewrite cross_cross, u_unit, vscal_1, (dot_comm f u). reflexivity.
Qed.
Lemma ih_f : cross ih f = vscal (/ nn) (vsub (vscal C f) u).
Proof.
  unfold ih, C. replace (cross (vscal (/ nn) (cross u f)) f) with (vscal (/ nn) (cross (cross u f) f)) by vring.
  rewrite cross_cross, f_unit, vscal_1. reflexivity.
Qed.
Lemma ih_u_norm : norm (cross ih u) = 1.
Proof.
  pose proof nn_pos. apply norm_1. rewrite ih_u, dot_scal_l, dot_scal_r, dot_sub_l, !dot_sub_r, !dot_scal_l, !dot_scal_r, u_unit, f_unit, (dot_comm f u). fold C.
  apply (Rmult_eq_reg_r (nn * nn)); [|nra]. pose proof nn_sq. transitivity (1 - C * C); [field; lra|lra].
Qed.
Lemma ih_f_norm : norm (cross ih f) = 1.
Proof.
  pose proof nn_pos. apply norm_1. rewrite ih_f, dot_scal_l, dot_scal_r, dot_sub_l, !dot_sub_r, !dot_scal_l, !dot_scal_r, u_unit, f_unit, (dot_comm f u). fold C.
  apply (Rmult_eq_reg_r (nn * nn)); [|nra]. pose proof nn_sq. transitivity (1 - C * C); [field; lra|lra].
Qed.
Lemma w_unit : dot w w = 1.
Proof. unfold w. rewrite dot_scal_l, dot_scal_r, <- (norm_sq (cross ih u)), ih_u_norm. pose proof g_sq. lra. Qed.
Lemma uw : dot u w = 0.
Proof. unfold w. rewrite dot_scal_r, cross_perp_r. ring. Qed.
Lemma f_eq : f = vadd (vscal C u) (vscal S w).
Proof.
  pose proof nn_pos as P. unfold w, S. rewrite ih_u.
  assert (A : forall a b, a = C * b + g * nn * (g * (/ nn * (a - C * b)))). { intros a b. transitivity (C * b + (g * g) * (a - C * b)); [rewrite g_sq; ring|field; lra]. }
  apply vec_eq; unfold vadd, vscal, vsub; cbn [vx vy vz]; apply A.
Qed.
Lemma wf_eq : wf = vadd (vscal (- S) u) (vscal C w).
Proof.
  pose proof nn_pos as P. unfold wf, w, S. rewrite ih_u, ih_f.
  assert (A : forall a b, g * (/ nn * (C * a - b)) = - (g * nn) * b + C * (g * (/ nn * (a - C * b)))).
  { intros a b. apply (Rmult_eq_reg_r nn); [|lra]. transitivity (g * (C * a - b)); [field; lra|]. transitivity (g * (C * a - (nn * nn + C * C) * b)); [rewrite nn_sq; ring|field; lra]. }
  apply vec_eq; unfold vadd, vscal, vsub; cbn [vx vy vz]; apply A.
Qed.
Lemma uw_cross : cross u w = vscal g ih.
Proof.
  unfold w. replace (cross u (vscal g (cross ih u))) with (vscal g (cross u (cross ih u))) by vring. rewrite cross_cross', u_unit.
  assert (Z : dot u ih = 0) by (unfold ih; rewrite dot_scal_r, cross_perp_l; ring). rewrite Z. vring.
Qed.
(** the direction of motion *)
Lemma dir_z : 0 < (if cw then -1 else 1) * (g * vz ih).
Proof. pose proof ih_z_nz. unfold g. destruct (Rlt_dec (vz ih) 0), cw; cbn [xorb]; lra. Qed.
(** scalars *)
Lemma ERs : Rs = k * k * ((1 + lam * lam) + rho * (1 - lam * lam)).
Proof. destruct k_sq as [_ ->]. rewrite lam_sq. pose proof s_pos. pose proof c_pos. unfold rho. unfold s in *. field. lra. Qed.
Lemma ERf : Rf = k * k * ((1 + lam * lam) - rho * (1 - lam * lam)).
Proof. destruct k_sq as [_ ->]. rewrite lam_sq. pose proof s_pos. pose proof c_pos. unfold rho. unfold s in *. field. lra. Qed.
Lemma ES : Rs * Rf * S = 4 * k * k * k * k * lam * sig * (1 - lam * lam).
Proof.
  destruct k_sq as [_ K]. pose proof s_pos. pose proof c_pos. pose proof Rs_pos. pose proof Rf_pos. destruct sig_pos as [SP SE]. pose proof nn_pos. pose proof l2_pos as L.
  transitivity (4 * (k * k) * (k * k) * lam * sig * (1 - lam * lam)); [|ring]. rewrite K, lam_sq. unfold lam, S.
  transitivity (g * (s * c * sqrt (1 - c / s) * sig)); [|field; lra]. transitivity (g * (Rs * Rf * nn)); [ring|]. f_equal.
  assert (A : 0 <= Rs * Rf * nn) by (apply Rmult_le_pos; [apply Rmult_le_pos; lra|lra]).
  assert (B : 0 <= s * c * sqrt (1 - c / s) * sig) by (apply Rmult_le_pos; [|lra]; apply Rmult_le_pos; [nra|apply sqrt_pos]).
  apply Rsqr_inj; [exact A|exact B|]. unfold Rsqr.
  transitivity ((Rs * Rf) * (Rs * Rf) * (nn * nn)); [ring|]. transitivity (s * s * (c * c) * (sqrt (1 - c / s) * sqrt (1 - c / s)) * (sig * sig)); [|ring]. rewrite sqrt_sqrt by lra.
  replace (nn * nn) with (1 - C * C) by (pose proof nn_sq; lra). replace (sig * sig) with (1 - rho * rho) by lra.
  assert (EC : Rs * Rf * C = dot r0 r1) by (unfold C, u, f; rewrite dot_scal_l, dot_scal_r; field; lra).
  transitivity ((Rs * Rf) * (Rs * Rf) - (Rs * Rf * C) * (Rs * Rf * C)); [ring|]. rewrite EC. replace (dot r0 r1) with ((Rs * Rs + Rf * Rf - c * c) / 2) by (rewrite c_sq; field).
  unfold rho. transitivity (s * (s - c) * (c * c - (Rs - Rf) * (Rs - Rf))); [|field; lra]. unfold s. field.
Qed.
Lemma EC : Rs * Rf * C = (Rs * Rs + Rf * Rf - 4 * k * k * k * k * (1 - lam * lam) * (1 - lam * lam)) / 2.
Proof.
  destruct k_sq as [_ K]. pose proof s_pos. pose proof Rs_pos. pose proof Rf_pos. replace (4 * k * k * k * k * (1 - lam * lam) * (1 - lam * lam)) with (4 * (k * k) * (k * k) * ((1 - lam * lam) * (1 - lam * lam))) by ring. rewrite K, lam_sq.
  replace (Rs * Rf * C) with (dot r0 r1) by (unfold C, u, f; rewrite dot_scal_l, dot_scal_r; field; lra).
  transitivity ((Rs * Rs + Rf * Rf - c * c) / 2); [rewrite c_sq; field|field; lra].
Qed.

(** ** the velocities *)
Variables (mu x : R).
Hypothesis Mu : 0 < mu.
Let y := sqrt (1 - lam * lam + lam * lam * x * x).
Let m := sqrt mu.
Let vrs := m * k * ((lam * y - x) - rho * (lam * y + x)) / Rs.
Let vrf := - (m * k) * ((lam * y - x) + rho * (lam * y + x)) / Rf.
Let vt := m * k * sig * (y + lam * x).
Definition lv0 : vec := vadd (vscal vrs u) (vscal (vt / Rs) w).
Definition lv1 : vec := vadd (vscal vrf f) (vscal (vt / Rf) wf).
Lemma m_sq : 0 < m /\ m * m = mu. Proof. split; [apply sqrt_lt_R0; exact Mu|apply sqrt_sqrt; lra]. Qed.
Lemma y_arg : 0 < 1 - lam * lam + lam * lam * x * x.
Proof. pose proof l2_pos. pose proof lam_sq as E. assert (0 <= lam * lam * x * x) by (replace (lam * lam * x * x) with ((lam * x) * (lam * x)) by ring; apply Rle_0_sqr). lra. Qed.
Lemma y_sq : 0 < y /\ y * y = 1 - lam * lam + lam * lam * x * x.
Proof. pose proof y_arg. split; [apply sqrt_lt_R0; assumption|apply sqrt_sqrt; lra]. Qed.
Lemma ylx : 0 < y + lam * x /\ 0 < y - lam * x.
Proof.
  destruct y_sq as [P Q]. pose proof l2_pos. pose proof lam_sq. assert (A : Rabs (lam * x) < y). { rewrite <- (Rabs_right y) by lra. apply Rsqr_lt_abs_0. unfold Rsqr. nra. }
  apply Rabs_def2 in A. lra.
Qed.
Lemma vt_pos : 0 < vt.
Proof. destruct m_sq as [? _]. destruct k_sq as [? _]. destruct sig_pos as [? _]. destruct ylx. unfold vt. repeat apply Rmult_lt_0_compat; assumption. Qed.
Lemma r0_u : r0 = vscal Rs u. Proof. pose proof Rs_pos. unfold u. rewrite vscal_vscal. replace (Rs * / Rs) with 1 by (field; lra). rewrite vscal_1. reflexivity. Qed.
Lemma r1_f : r1 = vscal Rf f. Proof. pose proof Rf_pos. unfold f. rewrite vscal_vscal. replace (Rf * / Rf) with 1 by (field; lra). rewrite vscal_1. reflexivity. Qed.
Lemma lam_h0 : ang_mom (r0, lv0) = vscal (vt * g) ih.
Proof.
  pose proof Rs_pos. unfold ang_mom, lv0. cbn [fst snd]. rewrite r0_u. replace (cross (vscal Rs u) (vadd (vscal vrs u) (vscal (vt / Rs) w))) with (vscal (Rs * (vt / Rs)) (cross u w)) by vring.
  replace (Rs * (vt / Rs)) with vt by (field; lra). rewrite uw_cross, vscal_vscal. reflexivity.
Qed.
Lemma fwf_cross : cross f wf = cross u w.
Proof.
  rewrite f_eq, wf_eq. replace (cross (vadd (vscal C u) (vscal S w)) (vadd (vscal (- S) u) (vscal C w))) with (vscal (C * C + S * S) (cross u w)) by vring.
  replace (C * C + S * S) with 1; [apply vscal_1|]. unfold S. pose proof nn_sq. pose proof g_sq as G. transitivity (C * C + g * g * (nn * nn)); [rewrite G; lra|ring].
Qed.
Lemma lam_h1 : ang_mom (r1, lv1) = vscal (vt * g) ih.
Proof.
  pose proof Rf_pos. unfold ang_mom, lv1. cbn [fst snd]. rewrite r1_f. replace (cross (vscal Rf f) (vadd (vscal vrf f) (vscal (vt / Rf) wf))) with (vscal (Rf * (vt / Rf)) (cross f wf)) by vring.
  replace (Rf * (vt / Rf)) with vt by (field; lra). rewrite fwf_cross, uw_cross, vscal_vscal. reflexivity.
Qed.
Lemma h_nz : ang_mom (r0, lv0) <> vzero.
Proof.
  rewrite lam_h0. intros H. apply (f_equal vz) in H. unfold vscal, vzero in H. cbn [vz] in H. pose proof dir_z as D. pose proof vt_pos. apply (Rmult_lt_compat_l vt) in D; [|assumption]. destruct cw; lra.
Qed.
Lemma h_dir : 0 < (if cw then -1 else 1) * vz (ang_mom (r0, lv0)).
Proof. rewrite lam_h0. unfold vscal. cbn [vz]. pose proof dir_z as D. pose proof vt_pos. apply (Rmult_lt_compat_l vt) in D; [|assumption]. lra. Qed.
Lemma wf_unit : dot wf wf = 1. Proof. unfold wf. rewrite dot_scal_l, dot_scal_r, <- (norm_sq (cross ih f)), ih_f_norm. pose proof g_sq. lra. Qed.
Lemma fwf : dot f wf = 0. Proof. unfold wf. rewrite dot_scal_r, cross_perp_r. ring. Qed.
Lemma en0 : energy mu (r0, lv0) = - mu * (1 - x * x) / s.
Proof.
  destruct m_sq as [M1 M2]. destruct k_sq as [K1 K2]. destruct y_sq as [_ Ey]. destruct sig_pos as [_ Es]. unfold energy. cbn [fst snd]. fold Rs.
  assert (D : dot lv0 lv0 = vrs * vrs + vt / Rs * (vt / Rs)). { unfold lv0. rewrite dot_add_l, !dot_add_r, !dot_scal_l, !dot_scal_r, (dot_comm w u), uw, u_unit, w_unit. ring. }
  rewrite D. pose proof (en_s m k lam rho sig x y Rs) as H. pose proof ERs. pose proof Rs_pos. inst H. fold vrs vt in H. rewrite K2, M2 in H. rewrite H. pose proof s_pos. field. lra.
Qed.
Lemma en1 : energy mu (r1, lv1) = - mu * (1 - x * x) / s.
Proof.
  destruct m_sq as [M1 M2]. destruct k_sq as [K1 K2]. destruct y_sq as [_ Ey]. destruct sig_pos as [_ Es]. unfold energy. cbn [fst snd]. fold Rf.
  assert (D : dot lv1 lv1 = vrf * vrf + vt / Rf * (vt / Rf)). { unfold lv1. rewrite dot_add_l, !dot_add_r, !dot_scal_l, !dot_scal_r, (dot_comm wf f), fwf, f_unit, wf_unit. ring. }
  rewrite D. pose proof (en_f m k lam rho sig x y Rf) as H. pose proof ERf. pose proof Rf_pos. inst H. fold vrf vt in H. rewrite K2, M2 in H. rewrite H. pose proof s_pos. field. lra.
Qed.
Lemma ecc0 : ecc_vec mu (r0, lv0) = vadd (vscal (vt / Rs * vt / mu - 1) u) (vscal (- (vrs * vt / mu)) w).
Proof.
  pose proof Rs_pos. unfold ecc_vec. cbn [fst snd]. rewrite lam_h0, <- vscal_vscal, <- uw_cross. unfold lv0. rewrite (ortho_ecc u w _ _ _ u_unit w_unit uw). fold Rs. fold u. apply vec_eq; unfold vadd, vsub, vscal; cbn [vx vy vz]; field; lra.
Qed.
Lemma ecc1 : ecc_vec mu (r1, lv1) = vadd (vscal (vt / Rf * vt / mu - 1) f) (vscal (- (vrf * vt / mu)) wf).
Proof.
  pose proof Rf_pos. unfold ecc_vec. cbn [fst snd]. rewrite lam_h1, <- vscal_vscal, <- uw_cross, <- fwf_cross. unfold lv1. rewrite (ortho_ecc f wf _ _ _ f_unit wf_unit fwf). fold Rf. fold f. apply vec_eq; unfold vadd, vsub, vscal; cbn [vx vy vz]; field; lra.
Qed.
Lemma ecc_same : ecc_vec mu (r1, lv1) = ecc_vec mu (r0, lv0).
Proof.
  rewrite ecc0, ecc1. destruct m_sq as [M1 M2]. destruct k_sq as [K1 K2]. destruct y_sq as [_ Ey]. destruct sig_pos as [_ Es].
  pose proof ERs. pose proof ERf. pose proof ES. pose proof EC. pose proof Rs_pos. pose proof Rf_pos.
  pose proof (ecc_u m k lam rho sig x y Rs Rf C S) as Q1. inst Q1. pose proof (ecc_w m k lam rho sig x y Rs Rf C S) as Q2. inst Q2. fold vrs vrf vt in Q1, Q2. rewrite M2 in Q1, Q2. rewrite Q1, Q2, wf_eq. rewrite f_eq at 1.
  apply vec_eq; unfold vadd, vscal; cbn [vx vy vz]; ring.
Qed.
Theorem same_conic : same_integrals mu (r0, lv0) (r1, lv1).
Proof. split; [rewrite en0, en1; reflexivity|]. split; [rewrite lam_h0, lam_h1; reflexivity|exact ecc_same]. Qed.

(** ** propagation by a universal anomaly *)
Let a1 := 2 * k * (y - lam * x) * (x * y + lam * (1 - x * x)).
Let a2 := 2 * (k * k) * ((y - lam * x) * (y - lam * x)).
Let alp := al mu r0 lv0.
Lemma alp_eq : alp = (1 - x * x) / (k * k).
Proof.
  pose proof Rs_pos. pose proof s_pos. destruct k_sq as [K1 K2]. unfold alp, al, R0. fold Rs. pose proof en0 as E. unfold energy in E. cbn [fst snd] in E. fold Rs in E.
  replace (dot lv0 lv0) with (2 * (- mu * (1 - x * x) / s + mu / Rs)) by (rewrite <- E; field; lra). rewrite K2. field. lra.
Qed.
Lemma r_dot_v : dot r0 lv0 = Rs * vrs.
Proof. rewrite r0_u at 1. unfold lv0. rewrite dot_scal_l, dot_add_r, !dot_scal_r, u_unit, uw. ring. Qed.
Lemma sg_eq : sg mu r0 lv0 = Rs * vrs / m.
Proof. unfold sg. rewrite r_dot_v. reflexivity. Qed.
Lemma ustate_arrives chi : U1 alp chi = a1 -> U2 alp chi = a2 -> U0 alp chi = 1 - alp * U2 alp chi -> ustate mu r0 lv0 chi = (r1, lv1).
Proof.
  intros E1 E2 E0. destruct m_sq as [M1 M2]. destruct k_sq as [K1 K2]. destruct y_sq as [_ Ey]. destruct sig_pos as [_ Es].
  pose proof ERs. pose proof ERf. pose proof ES. pose proof EC. pose proof Rs_pos. pose proof Rf_pos.
  pose proof (prop_rf m k lam rho sig x y Rs Rf) as P0. inst P0. pose proof (prop_u m k lam rho sig x y Rs Rf C) as P1. inst P1. pose proof (prop_w m k lam rho sig x y Rs Rf S) as P2. inst P2.
  pose proof (prop_vu m k lam rho sig x y Rs Rf C S) as P3. inst P3. pose proof (prop_vw m k lam rho sig x y Rs Rf C S) as P4. inst P4.
  fold vrs vrf vt a1 a2 in P0, P1, P2, P3, P4. rewrite <- alp_eq in P0.
  assert (RH : FlowProofs.rho mu r0 lv0 chi = Rf). { unfold FlowProofs.rho. fold alp. rewrite E0, E1, E2, sg_eq. unfold R0. fold Rs. exact P0. }
  unfold ustate. f_equal.
  - unfold uF, uG. fold alp. rewrite E1, E2, sg_eq. unfold R0. fold Rs. fold m. rewrite r1_f, f_eq. rewrite r0_u at 1. unfold lv0.
    apply vec_eq; unfold vadd, vscal; cbn [vx vy vz].
    + transitivity (((1 - a2 / Rs) * Rs + (Rs * a1 + Rs * vrs / m * a2) / m * vrs) * vx u + (Rs * a1 + Rs * vrs / m * a2) / m * (vt / Rs) * vx w); [ring|]. rewrite <- P1, <- P2. ring.
    + transitivity (((1 - a2 / Rs) * Rs + (Rs * a1 + Rs * vrs / m * a2) / m * vrs) * vy u + (Rs * a1 + Rs * vrs / m * a2) / m * (vt / Rs) * vy w); [ring|]. rewrite <- P1, <- P2. ring.
    + transitivity (((1 - a2 / Rs) * Rs + (Rs * a1 + Rs * vrs / m * a2) / m * vrs) * vz u + (Rs * a1 + Rs * vrs / m * a2) / m * (vt / Rs) * vz w); [ring|]. rewrite <- P1, <- P2. ring.
  - unfold uFt, uGt. rewrite RH. fold alp. rewrite E1, E2. unfold R0. fold Rs. fold m. unfold lv1. rewrite f_eq, wf_eq. rewrite r0_u at 1. unfold lv0.
    apply vec_eq; unfold vadd, vscal; cbn [vx vy vz].
    + transitivity ((- m * a1 / (Rf * Rs) * Rs + (1 - a2 / Rf) * vrs) * vx u + (1 - a2 / Rf) * (vt / Rs) * vx w); [ring|]. rewrite <- P3, <- P4. ring.
    + transitivity ((- m * a1 / (Rf * Rs) * Rs + (1 - a2 / Rf) * vrs) * vy u + (1 - a2 / Rf) * (vt / Rs) * vy w); [ring|]. rewrite <- P3, <- P4. ring.
    + transitivity ((- m * a1 / (Rf * Rs) * Rs + (1 - a2 / Rf) * vrs) * vz u + (1 - a2 / Rf) * (vt / Rs) * vz w); [ring|]. rewrite <- P3, <- P4. ring.
Qed.
Lemma time_of chi : U1 alp chi = a1 -> U2 alp chi = a2 ->
  T mu r0 lv0 chi = 2 * (k * k * k) * (y - lam * x) * ((1 + lam * lam) * (x * y + lam * (1 - x * x)) + (lam * y - x) * (y - lam * x)) + U3 alp chi.
Proof.
  intros E1 E2. destruct m_sq as [M1 M2]. destruct k_sq as [K1 K2]. destruct y_sq as [_ Ey]. destruct sig_pos as [_ Es]. pose proof ERs. pose proof Rs_pos.
  pose proof (prop_t m k lam rho sig x y Rs) as P. inst P. fold vrs a1 a2 in P. unfold T. fold alp. rewrite E1, E2, sg_eq. unfold R0. fold Rs. rewrite P. reflexivity.
Qed.
(** ** the constructor computes these velocities *)
Lemma semi_r : semi RA (sv r0) (sv r1) = Some s.
Proof. unfold semi. rewrite v3sub_r, !norm_r, nat_r, !add_r, div_r by lra. reflexivity. Qed.
Lemma lam2_r : lam2 RA (sv r0) (sv r1) = Some (1 - c / s).
Proof. unfold lam2. rewrite semi_r, v3sub_r, norm_r, nat_r, div_r, sub_r by (pose proof s_pos; lra). reflexivity. Qed.
Lemma plane_r : plane RA (sv r0) (sv r1) = sv ih.
Proof. pose proof Rs_pos. pose proof Rf_pos. pose proof nn_pos. unfold plane. cbv zeta. rewrite !norm_r, !v3div_r by (unfold Rs, Rf in *; lra). rewrite v3cross_r, norm_r, v3div_r; [reflexivity|]. unfold nn, u, f, Rs, Rf in *. lra. Qed.
Lemma frame_r : frame RA (sv r0) (sv r1) cw = (Some lam, sv w, sv wf).
Proof.
  pose proof Rs_pos. pose proof Rf_pos. pose proof l2_pos. unfold frame. cbv zeta. rewrite plane_r, !norm_r, !v3div_r by (unfold Rs, Rf in *; lra). fold Rs Rf. fold u f. rewrite !v3cross_r, !norm_r, ih_u_norm, ih_f_norm, !v3div_r by lra.
  rewrite lam2_r, sqrt_r, v3z_r, nat_r, lt_r by lra. rewrite Rinv_1, !vscal_1. unfold lam, w, wf, g. case (Rlt_dec (vz ih) 0); intros _; case cw; cbn [xorb flip]; rewrite ?opp_r, ?v3opp_r.
  - f_equal; [f_equal|]; [f_equal; ring|f_equal; vring|f_equal; vring].
  - f_equal; [f_equal|]; [f_equal; ring|f_equal; vring|f_equal; vring].
  - f_equal; [f_equal|]; [f_equal; ring|f_equal; vring|f_equal; vring].
  - f_equal; [f_equal|]; [f_equal; ring|f_equal; vring|f_equal; vring].
Qed.
Lemma vels_r : vels RA (sv r0) (sv r1) (Some mu) cw (Some x) = (sv lv0, sv lv1).
Proof.
  pose proof Rs_pos as P1. pose proof Rf_pos as P2. pose proof l2_pos as P3. pose proof c_pos as P4. pose proof s_pos as P5. pose proof rho_lt as P6. pose proof y_arg as P7. rewrite lam_sq in P7.
  unfold vels. rewrite frame_r. cbv zeta. rewrite lam2_r, semi_r, v3sub_r, !norm_r, !nat_r. fold Rs Rf c.
  ev. rewrite !div_r by lra. fold rho. ev.
  rewrite (sqrt_r (1 - rho * rho)), (sqrt_r (mu * s / 2)), (sqrt_r (1 - (1 - c / s) + (1 - c / s) * x * x)) by first [lra | apply Rlt_le, Rdiv_lt_0_compat; [apply Rmult_lt_0_compat; lra|lra]]. fold sig.
  replace (sqrt (mu * s / 2)) with (m * k) by (unfold m, k; rewrite <- sqrt_mult by lra; f_equal; field).
  replace (sqrt (1 - (1 - c / s) + (1 - c / s) * x * x)) with y by (unfold y; rewrite lam_sq; reflexivity).
  ev. rewrite !div_r, !v3div_r by lra. fold u f. rewrite !v3lin_r. reflexivity.
Qed.
Lemma lam_eq : lam = transfer_lambda r0 r1 cw.
Proof.
  unfold transfer_lambda. cbv zeta. change (norm (vsub r1 r0)) with c. change (semiperimeter r0 r1) with s. unfold lam, g. pose proof ih_z as Z. rewrite <- Rmult_assoc in Z. pose proof ih_sign as P. rewrite Z. set (q := / nn * / (Rs * Rf)) in *.
  case (Rlt_dec (q * vz (cross r0 r1)) 0); intros A; case cw; cbn [xorb]; match goal with |- context [Rlt_dec 0 ?e] => case (Rlt_dec 0 e); intros B end; try ring; exfalso.
  - assert (vz (cross r0 r1) < 0) by nra. lra.
  - assert (vz (cross r0 r1) < 0) by nra. lra.
  - assert (~ vz (cross r0 r1) < 0) by nra. lra.
  - assert (~ vz (cross r0 r1) < 0) by nra. lra.
Qed.
Theorem arrives N : -1 < x -> (0 <= N)%Z -> (1 <= x -> N = 0%Z) -> flow_at mu (r0, lv0) (tau lam N x * time_unit r0 r1 mu) (r1, lv1).
Proof.
  intros X HN HN1. destruct k_sq as [K1 K2]. destruct m_sq as [M1 M2]. pose proof s_pos as SP.
  assert (L2 : lam * lam < 1) by (rewrite lam_sq; pose proof l2_pos; lra).
  assert (EY : lam_y lam x = y) by (unfold lam_y, y; f_equal; ring).
  destruct (anomaly lam L2 x k N K1 X HN HN1) as [chi [_ [E1 [E2 E3]]]]. rewrite EY in E1, E2, E3. rewrite <- alp_eq in E1, E2, E3. fold a1 in E1. fold a2 in E2.
  rewrite <- (ustate_arrives chi E1 E2 (U0_U2 alp chi)). apply (ustate_flow mu r0 lv0 Mu).
  - intros Z. apply cr_nz. rewrite Z. vring.
  - exact h_nz.
  - rewrite (time_of chi E1 E2), E3. unfold time_unit. change (semiperimeter r0 r1) with s.
    replace (s * s * s / (2 * mu)) with ((2 * (k * k * k) / m) * (2 * (k * k * k) / m)) by (transitivity (4 * (k * k) * (k * k) * (k * k) / (m * m)); [field; lra|rewrite K2, M2; field; lra]).
    rewrite sqrt_square; [fold m; field; lra|]. apply Rlt_le, Rdiv_lt_0_compat; [|exact M1]. repeat apply Rmult_lt_0_compat; lra.
Qed.
(** ** the only way to get from r0 to r1 with the velocity lv0 *)
Lemma lag_r1 : r1 = vadd (vscal (1 - a2 / Rs) r0) (vscal ((Rs * a1 + Rs * vrs / m * a2) / m) lv0).
Proof.
  destruct m_sq as [M1 M2]. destruct k_sq as [K1 K2]. destruct y_sq as [_ Ey]. destruct sig_pos as [_ Es].
  pose proof ERs. pose proof ERf. pose proof ES. pose proof EC. pose proof Rs_pos. pose proof Rf_pos.
  pose proof (prop_u m k lam rho sig x y Rs Rf C) as P1. inst P1. pose proof (prop_w m k lam rho sig x y Rs Rf S) as P2. inst P2. fold vrs vrf vt a1 a2 in P1, P2.
  rewrite r1_f, f_eq at 1. rewrite r0_u at 1. unfold lv0. apply vec_eq; unfold vadd, vscal; cbn [vx vy vz].
  + transitivity (((1 - a2 / Rs) * Rs + (Rs * a1 + Rs * vrs / m * a2) / m * vrs) * vx u + (Rs * a1 + Rs * vrs / m * a2) / m * (vt / Rs) * vx w); [|ring]. rewrite <- P1, <- P2. ring.
  + transitivity (((1 - a2 / Rs) * Rs + (Rs * a1 + Rs * vrs / m * a2) / m * vrs) * vy u + (Rs * a1 + Rs * vrs / m * a2) / m * (vt / Rs) * vy w); [|ring]. rewrite <- P1, <- P2. ring.
  + transitivity (((1 - a2 / Rs) * Rs + (Rs * a1 + Rs * vrs / m * a2) / m * vrs) * vz u + (Rs * a1 + Rs * vrs / m * a2) / m * (vt / Rs) * vz w); [|ring]. rewrite <- P1, <- P2. ring.
Qed.
Lemma indep a b a' b' p q : cross p q <> vzero -> vadd (vscal a p) (vscal b q) = vadd (vscal a' p) (vscal b' q) -> a = a' /\ b = b'.
Proof.
  intros N E. assert (A : vscal (a - a') (cross p q) = vzero).
  { replace (vscal (a - a') (cross p q)) with (vsub (cross (vadd (vscal a p) (vscal b q)) q) (cross (vadd (vscal a' p) (vscal b' q)) q)) by vring. rewrite E. vring. }
  assert (B : vscal (b - b') (cross p q) = vzero).
  { replace (vscal (b - b') (cross p q)) with (vsub (cross p (vadd (vscal a p) (vscal b q))) (cross p (vadd (vscal a' p) (vscal b' q)))) by vring. rewrite E. vring. }
  assert (Z : forall t, vscal t (cross p q) = vzero -> t = 0). { intros t Ht. destruct (Req_dec t 0) as [|Nt]; [assumption|]. exfalso. apply N. replace (cross p q) with (vscal (/ t) (vscal t (cross p q))) by (rewrite vscal_vscal, Rinv_l by exact Nt; apply vscal_1). rewrite Ht. vring. }
  apply Z in A. apply Z in B. lra.
Qed.
Lemma arrives_only chi : fst (ustate mu r0 lv0 chi) = r1 -> U1 alp chi = a1 /\ U2 alp chi = a2.
Proof.
  intros E. rewrite lag_r1 in E. unfold ustate in E. cbn [fst] in E. destruct (indep _ _ _ _ _ _ h_nz E) as [A B]. unfold uF, uG in A, B. fold alp in A, B. unfold R0 in A, B. fold Rs in A, B. rewrite sg_eq in B. fold m in B. destruct m_sq as [M1 M2]. pose proof Rs_pos as RP.
  assert (E2 : U2 alp chi = a2). { apply (Rmult_eq_reg_r (/ Rs)); [|apply Rinv_neq_0_compat; lra]. unfold Rdiv in A. lra. }
  split; [|exact E2]. rewrite E2 in B. apply (Rmult_eq_reg_l (Rs / m)); [|apply Rgt_not_eq, Rdiv_lt_0_compat; assumption]. unfold Rdiv in *. lra.
Qed.
(** the angular momentum: its direction, and how its size depends on x *)
Definition hdir : vec := vscal (m * k * sig * g) ih.
Lemma h0_dir : ang_mom (r0, lv0) = vscal (lam_y (transfer_lambda r0 r1 cw) x + transfer_lambda r0 r1 cw * x) hdir.
Proof. rewrite lam_h0. unfold hdir. rewrite vscal_vscal. f_equal. unfold vt. rewrite <- lam_eq. replace (lam_y lam x) with y by (unfold lam_y, y; f_equal; ring). ring. Qed.
Lemma hdir_z : 0 < (if cw then -1 else 1) * vz hdir.
Proof. pose proof dir_z as D. destruct m_sq as [M1 _]. destruct k_sq as [K1 _]. destruct sig_pos as [S1 _]. unfold hdir. cbn [vscal vz]. assert (0 < m * k * sig) by (repeat apply Rmult_lt_0_compat; assumption). replace ((if cw then -1 else 1) * (m * k * sig * g * vz ih)) with (m * k * sig * ((if cw then -1 else 1) * (g * vz ih))) by ring. apply Rmult_lt_0_compat; assumption. Qed.
Lemma hdir_par : exists q, hdir = vscal q (cross r0 r1).
Proof. unfold hdir, ih. rewrite uf_cross. rewrite !vscal_vscal. eexists. reflexivity. Qed.
Lemma arrives_time chi t N : U1 alp chi = a1 -> U2 alp chi = a2 -> T mu r0 lv0 chi = sqrt mu * t ->
  2 * (k * k * k) * (y - lam * x) * ((1 + lam * lam) * (x * y + lam * (1 - x * x)) + (lam * y - x) * (y - lam * x)) + U3 alp chi = 2 * (k * k * k) * tau lam N x -> t = tau (transfer_lambda r0 r1 cw) N x * time_unit r0 r1 mu.
Proof.
  intros E1 E2 ET E3. destruct k_sq as [K1 K2]. destruct m_sq as [M1 M2]. pose proof s_pos as SP. rewrite <- lam_eq. rewrite (time_of chi E1 E2), E3 in ET. fold m in ET.
  unfold time_unit. change (semiperimeter r0 r1) with s.
  replace (s * s * s / (2 * mu)) with ((2 * (k * k * k) / m) * (2 * (k * k * k) / m)) by (transitivity (4 * (k * k) * (k * k) * (k * k) / (m * m)); [field; lra|rewrite K2, M2; field; lra]).
  rewrite sqrt_square; [apply (Rmult_eq_reg_l m); [|lra]; rewrite <- ET; field; lra|]. apply Rlt_le, Rdiv_lt_0_compat; [|exact M1]. repeat apply Rmult_lt_0_compat; lra.
Qed.
Theorem arrives_back chi t : 0 < chi -> fst (ustate mu r0 lv0 chi) = r1 -> T mu r0 lv0 chi = sqrt mu * t ->
  -1 < x /\ exists N, (0 <= N)%Z /\ (1 <= x -> N = 0%Z) /\ t = tau (transfer_lambda r0 r1 cw) N x * time_unit r0 r1 mu.
Proof.
  intros HX A ET. destruct (arrives_only chi A) as [E1 E2]. destruct k_sq as [K1 K2]. assert (L2 : lam * lam < 1) by (rewrite lam_sq; pose proof l2_pos; lra).
  assert (EY : lam_y lam x = y) by (unfold lam_y, y; f_equal; ring). pose proof (anomaly_only lam L2 x k chi K1 HX) as Q. cbv zeta in Q. rewrite EY, <- alp_eq in Q. fold a1 a2 in Q. destruct (Q E1 E2) as [X [N [HN [HN1 E3]]]].
  split; [exact X|]. exists N. split; [exact HN|]. split; [exact HN1|]. exact (arrives_time chi t N E1 E2 ET E3).
Qed.
End Vec.
