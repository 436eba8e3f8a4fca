(** * The derivatives used by the Householder and Halley iterations *)
From Coq Require Import Reals ZArith Lra Lia Nsatz.
From Coquelicot Require Import Coquelicot.
From Verif Require Import Outcome PartialReal RealLib Vec3 ElemProofs LambertModel LambertReal LambertProofs LambertSpec LambertTime LambertVec LambertTof.
Open Scope R_scope.

Lemma der_acos x : -1 < x < 1 -> is_derive acos x (- / sqrt (1 - x * x)).
Proof.
  intros H. apply is_derive_Reals. pose proof (derive_pt_acos x H) as E. unfold derive_pt in E. destruct (derivable_pt_acos x H) as [l Hl]. cbn in E. unfold derivable_pt_abs in Hl. rewrite E in Hl.
  unfold Rsqr in Hl. replace (- / sqrt (1 - x * x)) with (-1 / sqrt (1 - x * x)); [exact Hl|]. unfold Rdiv. ring.
Qed.
Lemma der_local (f g : R -> R) x l (P : R -> Prop) : locally x P -> (forall t, P t -> f t = g t) -> is_derive f x l -> is_derive g x l.
Proof. intros LP E D. apply (is_derive_ext_loc f); [|exact D]. apply (filter_imp P); [exact E|exact LP]. Qed.
Section Der.
Variable lam : R.
Hypothesis L : lam * lam < 1.
Let y (x : R) := lam_y lam x.
Lemma y_derive (x : R) : is_derive y x (lam * lam * x / y x).
Proof.
  pose proof (ly_arg lam L x) as A. destruct (ly_sq lam L x) as [P _]. fold (y x) in P. unfold y, lam_y.
  eapply der_to; [apply (der_sqrt (fun x => 1 - lam * lam * (1 - x * x))); [|exact A]; apply der_minus; [apply der_const|]; apply der_scal; apply der_minus; [apply der_const|apply der_mult; apply der_id]|].
  cbn beta. set (q := sqrt (1 - lam * lam * (1 - x * x))). assert (0 < q) by exact P. field. lra.
Qed.
Definition D1 (T x : R) : R := (3 * T * x - 2 + 2 * (lam * lam * lam) * x / y x) / (1 - x * x).
Definition D2 (T x : R) : R := (3 * T + 5 * x * D1 T x + 2 * (1 - lam * lam) * (lam * lam * lam) / (y x * y x * y x)) / (1 - x * x).
Definition D3 (T x : R) : R := (7 * x * D2 T x + 8 * D1 T x - 6 * (1 - lam * lam) * (lam * lam) * (lam * lam * lam) * x / (y x * y x * y x) / (y x * y x)) / (1 - x * x).
Lemma dTdx_r x T : x * x <> 1 -> dTdx RA (Some lam) (Some x) (Some T) = (Some (D1 T x), Some (D2 T x), Some (D3 T x)).
Proof.
  intros X. assert (X' : 1 - x * x <> 0) by lra. pose proof (ly_arg lam L x) as A. destruct (ly_sq lam L x) as [P _]. fold (y x) in P. unfold dTdx. cbv zeta. rewrite !nat_r. ev. rewrite (sqrt_r (1 - lam * lam * (1 - x * x))) by lra. change (sqrt (1 - lam * lam * (1 - x * x))) with (y x).
  assert (Y2 : y x * y x <> 0) by nra. assert (Y3 : y x * y x * y x <> 0) by (apply Rgt_not_eq; repeat apply Rmult_lt_0_compat; exact P).
  ev. rewrite !(div_r 1 (1 - x * x)) by exact X'. rewrite !(div_r _ (y x)) by lra. ev. rewrite !(div_r _ (y x * y x * y x)) by exact Y3. ev. rewrite !(div_r _ (y x * y x)) by exact Y2. ev.
  f_equal; [f_equal|]; f_equal.
  - unfold D1. field. lra.
  - unfold D2, D1. field. lra.
  - unfold D3, D2, D1. field. lra.
Qed.
(** second and third derivatives follow from the first *)
Lemma d2_of (T : R -> R) x : x * x <> 1 -> is_derive T x (D1 (T x) x) -> is_derive (fun t => D1 (T t) t) x (D2 (T x) x).
Proof.
  intros X D. assert (X' : 1 - x * x <> 0) by lra. destruct (ly_sq lam L x) as [P Y2]. fold (y x) in P, Y2. unfold D1 at 1.
  eapply der_to.
  - apply der_div; [|apply der_minus; [apply der_const|apply der_mult; apply der_id]|exact X'].
    apply der_plus; [apply der_minus; [apply der_mult; [apply der_scal; exact D|apply der_id]|apply der_const]|]. apply der_div; [apply der_scal, der_id|apply y_derive|lra].
  - cbn beta. unfold D2. set (d := D1 (T x) x) in *. assert (Ed : d * (1 - x * x) = 3 * T x * x - 2 + 2 * (lam * lam * lam) * x / y x) by (unfold d, D1; field; lra).
    apply (Rmult_eq_reg_r ((1 - x * x) * (1 - x * x))); [|apply Rmult_integral_contrapositive_currified; exact X'].
    transitivity ((3 * d * x + 3 * T x * 1 + (2 * (lam * lam * lam) * (y x * y x) - 2 * (lam * lam * lam) * x * (lam * lam * x)) / (y x * y x * y x)) * (1 - x * x) + 2 * x * (3 * T x * x - 2 + 2 * (lam * lam * lam) * x / y x)); [field; lra|].
    rewrite <- Ed. transitivity ((3 * T x + 5 * x * d + 2 * (1 - lam * lam) * (lam * lam * lam) / (y x * y x * y x)) * (1 - x * x)); [|field; lra].
    replace (2 * (lam * lam * lam) * (y x * y x) - 2 * (lam * lam * lam) * x * (lam * lam * x)) with (2 * (1 - lam * lam) * (lam * lam * lam)) by (rewrite Y2; ring). ring.
Qed.
Lemma d3_of (T : R -> R) x : x * x <> 1 -> is_derive T x (D1 (T x) x) -> is_derive (fun t => D2 (T t) t) x (D3 (T x) x).
Proof.
  intros X D. assert (X' : 1 - x * x <> 0) by lra. destruct (ly_sq lam L x) as [P Y2]. fold (y x) in P, Y2. pose proof (d2_of T x X D) as E. unfold D2 at 1.
  assert (Y3 : y x * y x * y x <> 0) by (apply Rgt_not_eq; repeat apply Rmult_lt_0_compat; exact P).
  eapply der_to.
  - apply der_div; [|apply der_minus; [apply der_const|apply der_mult; apply der_id]|exact X'].
    apply der_plus; [apply der_plus; [apply der_scal; exact D|apply (der_mult (fun t => 5 * t) (fun t => D1 (T t) t)); [apply der_scal, der_id|exact E]]|]. apply der_div; [apply der_const| |exact Y3]. apply der_mult; [apply der_mult; apply y_derive|apply y_derive].
  - cbn beta. unfold D3. set (d := D1 (T x) x) in *. set (e := D2 (T x) x) in *. assert (Ee : e * (1 - x * x) = 3 * T x + 5 * x * d + 2 * (1 - lam * lam) * (lam * lam * lam) / (y x * y x * y x)) by (unfold e, D2; fold d; field; lra).
    apply (Rmult_eq_reg_r ((1 - x * x) * (1 - x * x))); [|apply Rmult_integral_contrapositive_currified; exact X'].
    transitivity ((3 * d + (5 * 1 * d + 5 * x * e) - 6 * (1 - lam * lam) * (lam * lam * lam) * (lam * lam * x) / (y x * y x * y x) / (y x * y x)) * (1 - x * x) + 2 * x * (3 * T x + 5 * x * d + 2 * (1 - lam * lam) * (lam * lam * lam) / (y x * y x * y x))); [field; lra|].
    rewrite <- Ee. field. lra.
Qed.
(** the first derivative *)
Lemma half_angle_derive x : -1 < x < 1 -> is_derive (half_angle lam) x (- ((y x - lam * x) / (sqrt (1 - x * x) * y x))).
Proof.
  intros XE. destruct (ly_sq lam L x) as [P Y2]. pose proof (cp_bd lam L x XE) as CB. pose proof (cp_sp lam L x XE) as CS. pose proof (sp_pos lam L x XE) as SP. destruct (w_sq x XE) as [WP W]. destruct (ly_lx lam L x) as [_ EP]. fold (y x) in P, Y2, CB, CS, SP, EP. set (w := sqrt (1 - x * x)) in *.
  assert (DC : is_derive (fun t => t * y t + lam * (1 - t * t)) x ((y x - lam * x) * (y x - lam * x) / y x)).
  { eapply der_to; [apply der_plus; [apply der_mult; [apply der_id|apply y_derive]|apply der_scal, der_minus; [apply der_const|apply der_mult; apply der_id]]|]. cbn beta. field. lra. }
  assert (SQ : sqrt (1 - (x * y x + lam * (1 - x * x)) * (x * y x + lam * (1 - x * x))) = w * (y x - lam * x)). { replace (1 - (x * y x + lam * (1 - x * x)) * (x * y x + lam * (1 - x * x))) with ((w * (y x - lam * x)) * (w * (y x - lam * x))) by lra. apply sqrt_square. lra. }
  unfold half_angle. eapply der_to; [apply (der_comp acos (fun t => t * y t + lam * (1 - t * t))); [apply der_acos; exact CB|exact DC]|]. rewrite SQ. field. lra.
Qed.
Lemma half_hangle_derive x : 1 < x -> is_derive (half_hangle lam) x ((y x - lam * x) / (sqrt (x * x - 1) * y x)).
Proof.
  intros XH. destruct (ly_sq lam L x) as [P Y2]. pose proof (cph_pos lam L x XH) as CP. pose proof (sph_pos lam L x XH) as SP. destruct (wh_sq x XH) as [WP W]. fold (y x) in P, Y2, CP, SP. set (w := sqrt (x * x - 1)) in *.
  assert (DW : is_derive (fun t => sqrt (t * t - 1)) x (x / w)). { eapply der_to; [apply (der_sqrt (fun t => t * t - 1)); [apply der_minus; [apply der_mult; apply der_id|apply der_const]|nra]|]. cbn beta. fold w. field. lra. }
  assert (DC : is_derive (fun t => sqrt (t * t - 1) * (y t - lam * t) + (t * y t - lam * (t * t - 1))) x ((y x - lam * x) / (w * y x) * (w * (y x - lam * x) + (x * y x - lam * (x * x - 1))))).
  { eapply der_to; [apply der_plus; [apply der_mult; [exact DW|apply der_minus; [apply y_derive|apply der_scal, der_id]]|apply der_minus; [apply der_mult; [apply der_id|apply y_derive]|apply der_scal, der_minus; [apply der_mult; apply der_id|apply der_const]]]|]. cbn beta. fold w.
    replace (x * x - 1) with (w * w) by exact W. field. lra. }
  unfold half_hangle. eapply der_to; [apply (der_comp ln (fun t => sqrt (t * t - 1) * (y t - lam * t) + (t * y t - lam * (t * t - 1)))); [apply is_derive_ln; fold w; lra|exact DC]|]. cbn beta. fold w. field. lra.
Qed.
Lemma loc_ell x : -1 < x < 1 -> locally x (fun t => -1 < t < 1).
Proof. intros X. apply (open_and (fun t => -1 < t) (fun t => t < 1)); [apply open_gt|apply open_lt|exact X]. Qed.
Lemma loc_hyp x : 1 < x -> locally x (fun t => 1 < t). Proof. intros X. apply (open_gt 1). exact X. Qed.
Theorem tau_derive N x : -1 < x -> x <> 1 -> is_derive (tau lam N) x (D1 (tau lam N x) x).
Proof.
  intros XM X1. destruct (ly_sq lam L x) as [P Y2]. fold (y x) in P, Y2. destruct (Rlt_le_dec x 1) as [H|H].
  - assert (XE : -1 < x < 1) by lra. destruct (w_sq x XE) as [WP W].
    apply (der_local (fun t => ((half_angle lam t + IZR N * PI) / sqrt (1 - t * t) - t + lam * y t) / (1 - t * t)) _ x _ (fun t => -1 < t < 1) (loc_ell x XE)); [intros t Ht; symmetry; apply tau_ell; exact Ht|].
    rewrite (tau_ell lam x XE N). fold (y x).
    assert (DW : is_derive (fun t => sqrt (1 - t * t)) x (- x / sqrt (1 - x * x))). { eapply der_to; [apply (der_sqrt (fun t => 1 - t * t)); [apply der_minus; [apply der_const|apply der_mult; apply der_id]|nra]|]. cbn beta. field. lra. }
    eapply der_to; [apply der_div; [apply der_plus; [apply der_minus; [apply der_div; [apply der_plus; [apply (half_angle_derive x XE)|apply der_const]|exact DW|lra]|apply der_id]|apply der_scal, y_derive]|apply der_minus; [apply der_const|apply der_mult; apply der_id]|nra]|].
    cbn beta. unfold D1. set (w := sqrt (1 - x * x)) in *. set (A := half_angle lam x + IZR N * PI). rewrite <- W.
    apply (Rmult_eq_reg_r (w * w * w * w * w * y x)); [|apply Rgt_not_eq; repeat apply Rmult_lt_0_compat; assumption].
    transitivity (3 * x * A * y x + w * (- (y x - lam * x) + (lam * lam * lam * x - y x) * (w * w) + 2 * x * (lam * y x - x) * y x)); [field; lra|].
    transitivity (3 * x * A * y x + w * (3 * x * (lam * y x - x) * y x + (- 2 * y x + 2 * (lam * lam * lam) * x) * (w * w))); [|field; lra]. do 2 f_equal. clear - W Y2. nsz.
  - assert (XH : 1 < x) by lra. destruct (wh_sq x XH) as [WP W].
    apply (der_local (fun t => (t - lam * y t - half_hangle lam t / sqrt (t * t - 1)) / (t * t - 1)) _ x _ (fun t => 1 < t) (loc_hyp x XH)); [intros t Ht; symmetry; apply tau_hyp; exact Ht|].
    rewrite (tau_hyp lam x XH N). fold (y x).
    assert (DW : is_derive (fun t => sqrt (t * t - 1)) x (x / sqrt (x * x - 1))). { eapply der_to; [apply (der_sqrt (fun t => t * t - 1)); [apply der_minus; [apply der_mult; apply der_id|apply der_const]|nra]|]. cbn beta. field. lra. }
    eapply der_to; [apply der_div; [apply der_minus; [apply der_minus; [apply der_id|apply der_scal, y_derive]|apply der_div; [apply (half_hangle_derive x XH)|exact DW|lra]]|apply der_minus; [apply der_mult; apply der_id|apply der_const]|nra]|].
    cbn beta. unfold D1. set (w := sqrt (x * x - 1)) in *. set (A := half_hangle lam x). replace (1 - x * x) with (- (w * w)) by lra. replace (x * x - 1) with (w * w) by lra.
    apply (Rmult_eq_reg_r (w * w * w * w * w * y x)); [|apply Rgt_not_eq; repeat apply Rmult_lt_0_compat; assumption].
    transitivity (3 * x * A * y x + w * (- (y x - lam * x) + (y x - lam * lam * lam * x) * (w * w) - 2 * x * (x - lam * y x) * y x)); [field; lra|].
    transitivity (3 * x * A * y x + w * (- (3 * x * (x - lam * y x) * y x) - (- 2 * y x + 2 * (lam * lam * lam) * x) * (w * w))); [|field; lra]. do 2 f_equal. clear - W Y2. nsz.
Qed.
Theorem code_derivatives N x : -1 < x -> x <> 1 -> exists f1 f2 f3 : R -> R,
  dTdx RA (Some lam) (Some x) (Some (tau lam N x)) = (Some (f1 x), Some (f2 x), Some (f3 x)) /\
  (forall t, -1 < t -> t <> 1 -> is_derive (tau lam N) t (f1 t) /\ is_derive f1 t (f2 t) /\ is_derive f2 t (f3 t)).
Proof.
  intros XM X1. exists (fun t => D1 (tau lam N t) t), (fun t => D2 (tau lam N t) t), (fun t => D3 (tau lam N t) t). assert (Q : forall t, -1 < t -> t <> 1 -> t * t <> 1) by (intros t A B C; apply B; nra).
  split; [apply dTdx_r, Q; assumption|]. intros t A B. pose proof (tau_derive N t A B) as E. split; [exact E|]. split; [apply d2_of|apply d3_of]; try exact E; apply Q; assumption.
Qed.
End Der.
