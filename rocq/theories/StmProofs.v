(** * The state transition matrix of propagate_lagrangian *)
From Coq Require Import Reals Lra Lia.
From Coquelicot Require Import Coquelicot.
From Coq Require Import List.
From Verif Require Import Outcome RealLib KepModel KepSpec KepProofs AnomProofs Vec3 TwoBodyModel TwoBodySpec FlowProofs LagProofs FlowMain BracketProofs TwoBodyProofs.
Import ListNotations.
Open Scope R_scope.

Ltac ders :=
  cbv beta;
  lazymatch goal with
  | |- is_derive (fun _ => ?c) _ _ => apply der_const
  | |- is_derive (fun t => t) _ _ => apply der_id
  | |- is_derive (fun t => @?f t + @?g t) ?x _ => eapply (der_plus f g x); ders
  | |- is_derive (fun t => @?f t - @?g t) ?x _ => eapply (der_minus f g x); ders
  | |- is_derive (fun t => @?f t * @?g t) ?x _ => eapply (der_mult f g x); ders
  | |- is_derive (fun t => @?f t / @?g t) ?x _ => eapply (der_div f g x); [ders|ders|cbv beta]
  | |- is_derive (fun t => - @?f t) ?x _ => eapply (der_opp f x); ders
  | |- is_derive (fun t => / @?f t) ?x _ => eapply (der_inv f x); [ders|cbv beta]
  | |- is_derive (fun t => sqrt (@?f t)) ?x _ => eapply (der_sqrt f x); [ders|cbv beta]
  | |- is_derive (fun t => sin (@?f t)) ?x _ => eapply (der_comp sin f x); [apply der_sin|ders]
  | |- is_derive (fun t => cos (@?f t)) ?x _ => eapply (der_comp cos f x); [apply der_cos|ders]
  | |- is_derive (fun t => sinh (@?f t)) ?x _ => eapply (der_comp sinh f x); [apply der_sinh|ders]
  | |- is_derive (fun t => cosh (@?f t)) ?x _ => eapply (der_comp cosh f x); [apply der_cosh|ders]
  | |- _ => eassumption
  end.

(** rows applied to a displacement *)
Definition rapply (g : row6) (d : state) : R := dot (fst g) (fst d) + dot (snd g) (snd d).
Lemma ra_add g h d : rapply (radd g h) d = rapply g d + rapply h d. Proof. unfold rapply, radd, dot, vadd. cbn. ring. Qed.
Lemma ra_sub g h d : rapply (rsub g h) d = rapply g d - rapply h d. Proof. unfold rapply, rsub, dot, vsub. cbn. ring. Qed.
Lemma ra_scal k g d : rapply (rscal k g) d = k * rapply g d. Proof. unfold rapply, rscal, dot, vscal. cbn. ring. Qed.
Lemma ra_dr u d : rapply (dot_dr0 u) d = dot u (fst d). Proof. unfold rapply, dot_dr0, dot, vzero. cbn. ring. Qed.
Lemma ra_dv u d : rapply (dot_dv0 u) d = dot u (snd d). Proof. unfold rapply, dot_dv0, dot, vzero. cbn. ring. Qed.
Ltac rapp := repeat (rewrite ra_add || rewrite ra_sub || rewrite ra_scal || rewrite ra_dr || rewrite ra_dv).

(** ** The scalar derivatives: radius, semi-major axis, sigma and anomaly move with e *)
Section Ell.
Variables (R_ A_ S_ D_ : R -> R) (R' A' S' D' mu tof s0 c0 : R).
Hypothesis (HR : is_derive R_ 0 R') (HA : is_derive A_ 0 A') (HS : is_derive S_ 0 S') (HD : is_derive D_ 0 D').
Hypothesis (PR : 0 < R_ 0) (PA : 0 < A_ 0) (PM : 0 < mu).
Let lag e := lag_ellipse mu (R_ e) (A_ e) (S_ e) s0 c0 (D_ e).
Hypothesis PF : 0 < lRf (lag 0).
Let c := cos (D_ 0). Let s := sin (D_ 0). Let k := sqrt (A_ 0).
Definition dRf_e : R := (1 - c + 0.5 / k * S_ 0 * s) * A' + c * R' + (S_ 0 * k * c - (R_ 0 - A_ 0) * s) * D' + k * s * S'.
Definition dF_e : R := - (1 - c) / R_ 0 * A' + A_ 0 / R_ 0 / R_ 0 * (1 - c) * R' - A_ 0 / R_ 0 * s * D'.
Definition dG_e : R := / sqrt mu * ((1 - lF (lag 0)) * (R_ 0 * S' + S_ 0 * R') - S_ 0 * R_ 0 * dF_e + k * R_ 0 * c * D' + k * s * R' + 0.5 * R_ 0 * s / k * A').
Definition dFt_e : R := let Rf := lRf (lag 0) in
  sqrt mu * (- k / R_ 0 / Rf * c * D' - 0.5 / k / R_ 0 / Rf * s * A' + k / Rf / R_ 0 / R_ 0 * s * R' + k / Rf / Rf / R_ 0 * s * dRf_e).
Definition dGt_e : R := let Rf := lRf (lag 0) in - (1 - c) / Rf * A' + A_ 0 / Rf / Rf * (1 - c) * dRf_e - A_ 0 / Rf * s * D'.
Lemma ksq : 0 < k /\ k * k = A_ 0. Proof. split; [apply sqrt_lt_R0, PA|apply sqrt_sqrt; lra]. Qed.
Lemma d_Rf_e : is_derive (fun e => lRf (lag e)) 0 dRf_e.
Proof.
  unfold lag, lag_ellipse. cbn [lRf]. destruct ksq as [K1 K2]. eapply der_to; [ders; assumption|]. unfold dRf_e. fold c s k. replace 0.5 with (1 / 2) by lra. field. lra.
Qed.
Lemma d_F_e : is_derive (fun e => lF (lag e)) 0 dF_e.
Proof. unfold lag, lag_ellipse. cbn [lF]. eapply der_to; [ders; lra|]. unfold dF_e. fold c s. field. lra. Qed.
Lemma d_G_e : is_derive (fun e => lG (lag e)) 0 dG_e.
Proof.
  pose proof (sqrt_lt_R0 mu PM) as Q. destruct ksq as [K1 K2].
  apply (der_ext (fun e => A_ e * S_ e / sqrt mu * (1 - cos (D_ e)) + R_ e * (sqrt (A_ e) / sqrt mu) * sin (D_ e))).
  - intros e. unfold lag, lag_ellipse. cbn [lG]. rewrite sqrt_div_alt by exact PM. reflexivity.
  - eapply der_to; [ders; lra|]. unfold dG_e, dF_e. unfold lag, lag_ellipse. cbn [lF]. fold c s k. replace 0.5 with (1 / 2) by lra. rewrite <- K2. field. lra.
Qed.
Lemma d_Ft_e : is_derive (fun e => lFt (lag e)) 0 dFt_e.
Proof.
  pose proof (sqrt_lt_R0 mu PM) as Q. destruct ksq as [K1 K2]. pose proof d_Rf_e as DR.
  apply (der_ext (fun e => - (sqrt mu * sqrt (A_ e)) / (lRf (lag e) * R_ e) * sin (D_ e))).
  - intros e. unfold lag, lag_ellipse. cbn [lFt lRf]. rewrite sqrt_mult_alt by lra. reflexivity.
  - eapply der_to; [ders; [lra|]|]. { apply Rmult_integral_contrapositive_currified; lra. }
    unfold dFt_e. fold c s k. set (Rf := lRf (lag 0)) in *. replace 0.5 with (1 / 2) by lra. cbv zeta. field. lra.
Qed.
Lemma d_Gt_e : is_derive (fun e => lGt (lag e)) 0 dGt_e.
Proof.
  pose proof d_Rf_e as DR.
  apply (der_ext (fun e => 1 - A_ e / lRf (lag e) * (1 - cos (D_ e)))); [intros e; reflexivity|].
  eapply der_to; [ders; lra|]. unfold dGt_e. fold c s. set (Rf := lRf (lag 0)) in *. cbv zeta. field. lra.
Qed.
End Ell.

Section Hyp.
Variables (R_ A_ S_ D_ : R -> R) (R' A' S' D' mu tof s0 c0 : R).
Hypothesis (HR : is_derive R_ 0 R') (HA : is_derive A_ 0 A') (HS : is_derive S_ 0 S') (HD : is_derive D_ 0 D').
Hypothesis (PR : 0 < R_ 0) (PA : A_ 0 < 0) (PM : 0 < mu).
Let lag e := lag_hyperbola mu (R_ e) (A_ e) (S_ e) s0 c0 (D_ e).
Hypothesis PF : 0 < lRf (lag 0).
Let c := cosh (D_ 0). Let s := sinh (D_ 0). Let k := sqrt (- A_ 0).
Definition dRf_h : R := (1 - c - 0.5 / k * S_ 0 * s) * A' + c * R' + (S_ 0 * k * c + (R_ 0 - A_ 0) * s) * D' + k * s * S'.
Definition dF_h : R := - (1 - c) / R_ 0 * A' + A_ 0 / R_ 0 / R_ 0 * (1 - c) * R' + A_ 0 / R_ 0 * s * D'.
Definition dG_h : R := / sqrt mu * ((1 - lF (lag 0)) * (R_ 0 * S' + S_ 0 * R') - S_ 0 * R_ 0 * dF_h + k * R_ 0 * c * D' + k * s * R' - 0.5 * R_ 0 * s / k * A').
Definition dFt_h : R := let Rf := lRf (lag 0) in
  sqrt mu * (- k / R_ 0 / Rf * c * D' + 0.5 / k / R_ 0 / Rf * s * A' + k / Rf / R_ 0 / R_ 0 * s * R' + k / Rf / Rf / R_ 0 * s * dRf_h).
Definition dGt_h : R := let Rf := lRf (lag 0) in - (1 - c) / Rf * A' + A_ 0 / Rf / Rf * (1 - c) * dRf_h + A_ 0 / Rf * s * D'.
Lemma ksqh : 0 < k /\ - (k * k) = A_ 0. Proof. split; [apply sqrt_lt_R0; lra|]. unfold k. rewrite sqrt_sqrt; lra. Qed.
Lemma d_Rf_h : is_derive (fun e => lRf (lag e)) 0 dRf_h.
Proof.
  unfold lag, lag_hyperbola. cbn [lRf]. destruct ksqh as [K1 K2]. eapply der_to; [ders; lra|]. unfold dRf_h. fold c s k. replace 0.5 with (1 / 2) by lra. field. lra.
Qed.
Lemma d_F_h : is_derive (fun e => lF (lag e)) 0 dF_h.
Proof. unfold lag, lag_hyperbola. cbn [lF]. eapply der_to; [ders; lra|]. unfold dF_h. fold c s. field. lra. Qed.
Lemma d_G_h : is_derive (fun e => lG (lag e)) 0 dG_h.
Proof.
  pose proof (sqrt_lt_R0 mu PM) as Q. destruct ksqh as [K1 K2].
  apply (der_ext (fun e => A_ e * S_ e / sqrt mu * (1 - cosh (D_ e)) + R_ e * (sqrt (- A_ e) / sqrt mu) * sinh (D_ e))).
  - intros e. unfold lag, lag_hyperbola. cbn [lG]. rewrite sqrt_div_alt by exact PM. reflexivity.
  - eapply der_to; [ders; lra|]. unfold dG_h, dF_h. unfold lag, lag_hyperbola. cbn [lF]. fold c s k. replace 0.5 with (1 / 2) by lra. rewrite <- K2. field. lra.
Qed.
Lemma d_Ft_h : is_derive (fun e => lFt (lag e)) 0 dFt_h.
Proof.
  pose proof (sqrt_lt_R0 mu PM) as Q. destruct ksqh as [K1 K2]. pose proof d_Rf_h as DR.
  apply (der_ext (fun e => - (sqrt mu * sqrt (- A_ e)) / (lRf (lag e) * R_ e) * sinh (D_ e))).
  - intros e. unfold lag, lag_hyperbola. cbn [lFt lRf]. replace (- mu * A_ e) with (mu * - A_ e) by ring. rewrite sqrt_mult_alt by lra. reflexivity.
  - eapply der_to; [ders; [lra|]|]. { apply Rmult_integral_contrapositive_currified; lra. }
    unfold dFt_h. fold c s k. set (Rf := lRf (lag 0)) in *. replace 0.5 with (1 / 2) by lra. cbv zeta. field. lra.
Qed.
Lemma d_Gt_h : is_derive (fun e => lGt (lag e)) 0 dGt_h.
Proof.
  pose proof d_Rf_h as DR.
  apply (der_ext (fun e => 1 - A_ e / lRf (lag e) * (1 - cosh (D_ e)))); [intros e; reflexivity|].
  eapply der_to; [ders; lra|]. unfold dGt_h. fold c s. set (Rf := lRf (lag 0)) in *. cbv zeta. field. lra.
Qed.
End Hyp.

(** the rows of stm_ellipse and stm_hyperbola, applied *)
Section RowsE.
Variables (tof mu R0 Rf sigma0 a s0 c0 DX F : R) (gR gS gA : row6) (d : state).
Let x := rapply gR d. Let y := rapply gS d. Let z := rapply gA d.
Let dl := stm_ellipse tof mu R0 Rf sigma0 a s0 c0 DX F gR gS gA.
Let D := / (1 + s0 * sin DX - c0 * cos DX) * (-1.5 * sqrt mu * tof / sqrt a ^ 5 * z - (1 - cos DX) * (/ sqrt a * y - 0.5 * sigma0 / sqrt a / sqrt a / sqrt a * z) + sin DX * (-1 / a * x + R0 / a / a * z)).
Let Df := - (1 - cos DX) / R0 * z + a / R0 / R0 * (1 - cos DX) * x - a / R0 * sin DX * D.
Let Dr := (1 - cos DX + 0.5 / sqrt a * sigma0 * sin DX) * z + cos DX * x + (sigma0 * sqrt a * cos DX - (R0 - a) * sin DX) * D + sqrt a * sin DX * y.
Lemma rows_e : rapply (dF dl) d = Df /\
  rapply (dG dl) d = / sqrt mu * ((1 - F) * (R0 * y + sigma0 * x) - sigma0 * R0 * Df + sqrt a * R0 * cos DX * D + sqrt a * sin DX * x + 0.5 * R0 * sin DX / sqrt a * z) /\
  rapply (dFt dl) d = sqrt mu * (- sqrt a / R0 / Rf * cos DX * D - 0.5 / sqrt a / R0 / Rf * sin DX * z + sqrt a / Rf / R0 / R0 * sin DX * x + sqrt a / Rf / Rf / R0 * sin DX * Dr) /\
  rapply (dGt dl) d = - (1 - cos DX) / Rf * z + a / Rf / Rf * (1 - cos DX) * Dr - a / Rf * sin DX * D.
Proof. unfold dl, stm_ellipse. cbv zeta. cbn [dF dG dFt dGt]. unfold Df, Dr, D. rapp. fold x y z. repeat split; reflexivity. Qed.
End RowsE.
Section RowsH.
Variables (tof mu R0 Rf sigma0 a s0 c0 DX F : R) (gR gS gA : row6) (d : state).
Let x := rapply gR d. Let y := rapply gS d. Let z := rapply gA d.
Let dl := stm_hyperbola tof mu R0 Rf sigma0 a s0 c0 DX F gR gS gA.
Let k := sqrt (- a).
Let D := / (s0 * sinh DX + c0 * cosh DX - 1) * (1.5 * sqrt mu * tof / k ^ 5 * z - (cosh DX - 1) * (/ k * y + 0.5 * sigma0 / k / k / k * z) - sinh DX * (-1 / a * x + R0 / a / a * z)).
Let Df := - (1 - cosh DX) / R0 * z + a / R0 / R0 * (1 - cosh DX) * x + a / R0 * sinh DX * D.
Let Dr := (1 - cosh DX - 0.5 / k * sigma0 * sinh DX) * z + cosh DX * x + (sigma0 * k * cosh DX + (R0 - a) * sinh DX) * D + k * sinh DX * y.
Lemma rows_h : rapply (dF dl) d = Df /\
  rapply (dG dl) d = / sqrt mu * ((1 - F) * (R0 * y + sigma0 * x) - sigma0 * R0 * Df + k * R0 * cosh DX * D + k * sinh DX * x - 0.5 * R0 * sinh DX / k * z) /\
  rapply (dFt dl) d = sqrt mu * (- k / R0 / Rf * cosh DX * D + 0.5 / k / R0 / Rf * sinh DX * z + k / Rf / R0 / R0 * sinh DX * x + k / Rf / Rf / R0 * sinh DX * Dr) /\
  rapply (dGt dl) d = - (1 - cosh DX) / Rf * z + a / Rf / Rf * (1 - cosh DX) * Dr + a / Rf * sinh DX * D.
Proof. unfold dl, stm_hyperbola. cbv zeta. cbn [dF dG dFt dGt]. unfold Df, Dr, D, k. rapp. fold x y z. repeat split; reflexivity. Qed.
End RowsH.

(** ** Neighbourhoods *)
Definition near (P : R -> Prop) : Prop := exists d, 0 < d /\ forall e, Rabs e < d -> P e.
Lemma near_and P Q : near P -> near Q -> near (fun e => P e /\ Q e).
Proof.
  intros [d1 [D1 H1]] [d2 [D2 H2]]. exists (Rmin d1 d2). split; [apply Rmin_pos; assumption|]. intros e He.
  pose proof (Rmin_l d1 d2). pose proof (Rmin_r d1 d2). split; [apply H1|apply H2]; lra.
Qed.
Lemma near_imp (P Q : R -> Prop) : near P -> (forall e, P e -> Q e) -> near Q.
Proof. intros [d [D H]] I. exists d. split; [exact D|]. intros e He. apply I, H, He. Qed.
Lemma near_at P : near P -> P 0. Proof. intros [d [D H]]. apply H. rewrite Rabs_R0. exact D. Qed.
Lemma near_gt (f : R -> R) l c : is_derive f 0 l -> c < f 0 -> near (fun e => c < f e).
Proof.
  intros D H. pose proof (is_derive_cont f 0 l D) as C. destruct (C (f 0 - c) ltac:(lra)) as [d [Hd L]]. exists d. split; [exact Hd|].
  intros e He. destruct (Req_dec e 0) as [->|N]; [exact H|]. specialize (L e). unfold dist in L; cbn in L. unfold R_dist in L.
  assert (Q : Rabs (f e - f 0) < f 0 - c). { apply L. split; [split; [exact I|intros E; apply N; symmetry; exact E]|rewrite Rminus_0_r; exact He]. }
  apply Rabs_def2 in Q. lra.
Qed.
Lemma near_lt (f : R -> R) l c : is_derive f 0 l -> f 0 < c -> near (fun e => f e < c).
Proof. intros D H. apply (near_imp (fun e => - c < - f e)); [|intros e; lra]. eapply (near_gt (fun e => - f e)); [apply der_opp; exact D|lra]. Qed.

(** joint continuity of h1 (e) * h2 (x) *)
Lemma cont2 (f g : R -> R) x : continuity_pt f x -> continuity_pt g 0 -> continuity_2d_pt (fun u w => g u * f w) 0 x.
Proof.
  intros F G. apply continuity_2d_pt_mult.
  - apply (continuity_1d_2d_pt_comp g (fun u w => u)); [exact G|apply continuity_2d_pt_id1].
  - apply (continuity_1d_2d_pt_comp f (fun u w => w)); [exact F|apply continuity_2d_pt_id2].
Qed.
Lemma cont2_use (h : R -> R -> R) x : continuity_2d_pt h 0 x -> forall eps, 0 < eps ->
  exists d, 0 < d /\ forall e y, Rabs (e - 0) < d -> Rabs (y - x) < d -> Rabs (h e y - h 0 x) < eps.
Proof. intros H eps E. destruct (H (mkposreal eps E)) as [d L]. exists d. split; [apply cond_pos|]. intros e y A B. exact (L e y A B). Qed.

(** the six rows of a matrix given as a list *)
Section Rows.
Variables (g0 g1 g2 g3 g4 g5 : row6) (x : state).
Lemma rows_apply0 : row_apply (row_list g0 ++ row_list g1 ++ row_list g2 ++ row_list g3 ++ row_list g4 ++ row_list g5) 0 x = rapply g0 x. Proof. unfold row_apply, mat_entry, row_list, rapply, dot. cbn [nth app Nat.mul Nat.add]. ring. Qed.
Lemma rows_apply1 : row_apply (row_list g0 ++ row_list g1 ++ row_list g2 ++ row_list g3 ++ row_list g4 ++ row_list g5) 1 x = rapply g1 x. Proof. unfold row_apply, mat_entry, row_list, rapply, dot. cbn [nth app Nat.mul Nat.add]. ring. Qed.
Lemma rows_apply2 : row_apply (row_list g0 ++ row_list g1 ++ row_list g2 ++ row_list g3 ++ row_list g4 ++ row_list g5) 2 x = rapply g2 x. Proof. unfold row_apply, mat_entry, row_list, rapply, dot. cbn [nth app Nat.mul Nat.add]. ring. Qed.
Lemma rows_apply3 : row_apply (row_list g0 ++ row_list g1 ++ row_list g2 ++ row_list g3 ++ row_list g4 ++ row_list g5) 3 x = rapply g3 x. Proof. unfold row_apply, mat_entry, row_list, rapply, dot. cbn [nth app Nat.mul Nat.add]. ring. Qed.
Lemma rows_apply4 : row_apply (row_list g0 ++ row_list g1 ++ row_list g2 ++ row_list g3 ++ row_list g4 ++ row_list g5) 4 x = rapply g4 x. Proof. unfold row_apply, mat_entry, row_list, rapply, dot. cbn [nth app Nat.mul Nat.add]. ring. Qed.
Lemma rows_apply5 : row_apply (row_list g0 ++ row_list g1 ++ row_list g2 ++ row_list g3 ++ row_list g4 ++ row_list g5) 5 x = rapply g5 x. Proof. unfold row_apply, mat_entry, row_list, rapply, dot. cbn [nth app Nat.mul Nat.add]. ring. Qed.
End Rows.

Section Curve.
Variables (mu tof : R) (c : R -> state) (d : state).
Hypothesis Mu : 0 < mu.
Hypothesis Hc : sderive c 0 d.
Hypothesis Rg : regular mu (c 0).
Let r e := fst (c e). Let v e := snd (c e).
Let Hr : r 0 <> vzero := proj1 (proj2 (regular_r _ _ Rg)).
Definition Rc (e : R) : R := norm (r e).
Definition Ec (e : R) : R := energy mu (r e, v e).
Definition Ac (e : R) : R := lag_a mu (Ec e).
Definition Sc (e : R) : R := sg mu (r e) (v e).
Definition R'c : R := rapply (d_R0 (r 0) (Rc 0)) d.
Definition E'c : R := rapply (d_energy mu (Rc 0) (d_V02 (v 0)) (d_R0 (r 0) (Rc 0))) d.
Definition A'c : R := rapply (d_a mu (Ec 0) (d_energy mu (Rc 0) (d_V02 (v 0)) (d_R0 (r 0) (Rc 0)))) d.
Definition S'c : R := rapply (d_sigma0 (r 0) (v 0) (sqrt mu)) d.
Lemma curve_eq e : c e = (r e, v e). Proof. unfold r, v. destruct (c e); reflexivity. Qed.
Lemma Rc_pos : 0 < Rc 0. Proof. apply norm_pos, Hr. Qed.
Lemma dRc : is_derive Rc 0 R'c.
Proof.
  unfold Rc, R'c, d_R0. rapp. pose proof (der_norm r 0 (fst d) (proj1 Hc) Hr) as DN. eapply der_to; [exact DN|]. pose proof Rc_pos as P. fold (Rc 0). field. lra.
Qed.
Lemma dEc : is_derive Ec 0 E'c.
Proof.
  pose proof dRc as DR. pose proof Rc_pos as P. unfold Ec, energy. cbn [fst snd]. fold (Rc). pose proof (der_dot v v 0 _ _ (proj2 Hc) (proj2 Hc)) as DV.
  apply (der_ext (fun e => dot (v e) (v e) / 2 - mu / Rc e)); [reflexivity|].
  eapply der_to; [ders; lra|]. unfold E'c, d_energy, d_V02. rapp. fold R'c. rewrite (dot_comm (snd d)). replace 0.5 with (1 / 2) by lra. field. lra.
Qed.
Lemma dSc : is_derive Sc 0 S'c.
Proof.
  pose proof (der_dot r v 0 _ _ (proj1 Hc) (proj2 Hc)) as DV. pose proof (sqrt_lt_R0 mu Mu) as Q.
  apply (der_ext (fun e => dot (r e) (v e) / sqrt mu)); [reflexivity|].
  eapply der_to; [ders; lra|]. unfold S'c, d_sigma0. rapp. rewrite (dot_comm (fst d)). field. lra.
Qed.
Lemma dAc : Ec 0 <> 0 -> is_derive Ac 0 A'c.
Proof.
  intros NE. pose proof dEc as DE. apply (der_ext (fun e => - mu / 2 / Ec e)); [reflexivity|].
  eapply der_to; [ders; lra|]. unfold A'c, d_a. rapp. fold E'c. field. lra.
Qed.
Lemma near_regular : near (fun e => regular mu (r e, v e)).
Proof.
  pose proof (vder_cross r v 0 _ _ (proj1 Hc) (proj2 Hc)) as DX. pose proof (der_dot _ _ 0 _ _ DX DX) as DD. cbv beta in DD.
  apply (near_imp (fun e => 0 < dot (cross (r e) (v e)) (cross (r e) (v e)))).
  - eapply near_gt; [exact DD|]. apply dot_pos. exact (proj2 (proj2 (regular_r _ _ Rg))).
  - intros e He. split; [exact Mu|]. unfold ang_mom. cbn [fst snd]. intros Z. rewrite Z in He. unfold dot, vzero in He. cbn in He. lra.
Qed.
Lemma near_sign : (Ec 0 < 0 -> near (fun e => Ec e < 0)) /\ (0 < Ec 0 -> near (fun e => 0 < Ec e)).
Proof. split; intros H; [eapply near_lt|eapply near_gt]; try exact dEc; exact H. Qed.

(** the final state *)
Lemma lag_state_der (l : R -> lagrange) (F' G' Ft' Gt' : R) :
  is_derive (fun e => lF (l e)) 0 F' -> is_derive (fun e => lG (l e)) 0 G' -> is_derive (fun e => lFt (l e)) 0 Ft' -> is_derive (fun e => lGt (l e)) 0 Gt' ->
  sderive (fun e => lag_state (c e) (l e)) 0
    (vadd (vadd (vscal F' (r 0)) (vscal (lF (l 0)) (fst d))) (vadd (vscal G' (v 0)) (vscal (lG (l 0)) (snd d))),
     vadd (vadd (vscal Ft' (r 0)) (vscal (lFt (l 0)) (fst d))) (vadd (vscal Gt' (v 0)) (vscal (lGt (l 0)) (snd d)))).
Proof.
  intros DF DG DFt DGt. split; cbn [fst snd].
  - apply (vder_ext (fun e => vadd (vscal (lF (l e)) (r e)) (vscal (lG (l e)) (v e)))); [intros e; unfold lag_state; rewrite curve_eq; reflexivity|].
    apply vder_add; [exact (vder_scal (fun e => lF (l e)) r 0 _ _ DF (proj1 Hc))|exact (vder_scal (fun e => lG (l e)) v 0 _ _ DG (proj2 Hc))].
  - apply (vder_ext (fun e => vadd (vscal (lFt (l e)) (r e)) (vscal (lGt (l e)) (v e)))); [intros e; unfold lag_state; rewrite curve_eq; reflexivity|].
    apply vder_add; [exact (vder_scal (fun e => lFt (l e)) r 0 _ _ DFt (proj1 Hc))|exact (vder_scal (fun e => lGt (l e)) v 0 _ _ DGt (proj2 Hc))].
Qed.
Lemma assemble_apply (s : state) (l : lagrange) (dl : dlagrange) (x : state) :
  mat_apply (stm_assemble s l dl) x =
    (vadd (vadd (vscal (rapply (dF dl) x) (fst s)) (vscal (lF l) (fst x))) (vadd (vscal (rapply (dG dl) x) (snd s)) (vscal (lG l) (snd x))),
     vadd (vadd (vscal (rapply (dFt dl) x) (fst s)) (vscal (lFt l) (fst x))) (vadd (vscal (rapply (dGt dl) x) (snd s)) (vscal (lGt l) (snd x)))).
Proof.
  destruct s as [r0 v0]. unfold mat_apply, stm_assemble. rewrite rows_apply0, rows_apply1, rows_apply2, rows_apply3, rows_apply4, rows_apply5.
  cbn [fst snd]. unfold stm_row. apply f_equal2; apply vec_eq; unfold vadd, vscal; cbn [vx vy vz]; rapp; unfold ex, ey, ez, dot; cbn [vx vy vz]; ring.
Qed.
End Curve.

(** ** Ellipses *)
Section EllCurve.
Variables (mu tof : R) (c : R -> state) (d : state).
Hypothesis Mu : 0 < mu.
Hypothesis Hc : sderive c 0 d.
Hypothesis El : elliptic mu (c 0).
Let Rg : regular mu (c 0) := proj1 El.
Let R_ := Rc c. Let A_ := Ac mu c. Let S_ := Sc mu c. Let E_ := Ec mu c.
Let R' := R'c c d. Let A' := A'c mu c d. Let S' := S'c mu c d.
Let Neg : E_ 0 < 0.
Proof. unfold E_, Ec. rewrite <- (surjective_pairing (c 0)). apply El. Qed.
Let HR : is_derive R_ 0 R' := dRc mu c d Hc Rg.
Let HA : is_derive A_ 0 A' := dAc mu c d Hc Rg (Rlt_not_eq _ _ Neg).
Let HS : is_derive S_ 0 S' := dSc mu c d Mu Hc.
Let PR : 0 < R_ 0 := Rc_pos mu c Rg.
Let PA : 0 < A_ 0 := a_pos mu (fst (c 0)) (snd (c 0)) Mu Neg.
Definition De (e : R) : R := gsol mu (fst (c e)) (snd (c e)) tof / sqrt (Ac mu c e).
Lemma near_ell : near (fun e => elliptic mu (c e)).
Proof.
  apply (near_imp _ _ (near_and _ _ (near_regular mu c d Mu Hc Rg) (proj1 (near_sign mu c d Hc Rg) Neg))).
  intros e [A B]. rewrite (surjective_pairing (c e)). split; [exact A|exact B].
Qed.
Lemma De_T e : elliptic mu (c e) -> T mu (fst (c e)) (snd (c e)) (sqrt (A_ e) * De e) = sqrt mu * tof.
Proof.
  intros [Rge Ne]. destruct (regular_r _ _ Rge) as [_ [Hr Hh]]. rewrite (surjective_pairing (c e)) in Ne.
  pose proof (a_pos mu (fst (c e)) (snd (c e)) Mu Ne) as P. pose proof (sqrt_lt_R0 _ P) as Q.
  replace (sqrt (A_ e) * De e) with (gsol mu (fst (c e)) (snd (c e)) tof); [apply gsol_solves; assumption|].
  unfold De, A_. field. change (Ac mu c e) with (lag_a mu (energy mu (fst (c e), snd (c e)))). lra.
Qed.
Definition Ke (x e : R) : R := x + S_ e / sqrt (A_ e) * (1 - cos x) - (1 - R_ e / A_ e) * sin x - lag_DM mu (A_ e) tof.
Definition Kxe (x e : R) : R := 1 + S_ e / sqrt (A_ e) * sin x - (1 - R_ e / A_ e) * cos x.
Lemma De_K e : elliptic mu (c e) -> Ke (De e) e = 0.
Proof.
  intros Ele. pose proof (De_T e Ele) as HT. destruct Ele as [Rge Ne]. destruct (regular_r _ _ Rge) as [_ [Hr Hh]]. rewrite (surjective_pairing (c e)) in Ne.
  pose proof (T_ellipse mu (fst (c e)) (snd (c e)) Mu Hr Ne (lag_DM mu (A_ e) tof) (De e)) as TE.
  pose proof (DM_eq mu (fst (c e)) (snd (c e)) Mu Ne tof) as ED. destruct (sqrta_sq mu (fst (c e)) (snd (c e)) Mu Ne) as [S1 S2].
  change (lag_a mu (energy mu (fst (c e), snd (c e)))) with (A_ e) in *. rewrite TE, <- ED in HT.
  set (k := sqrt (A_ e)) in *. assert (K3 : k * k * k <> 0) by (repeat apply Rmult_integral_contrapositive_currified; lra).
  apply Rmult_eq_reg_l in HT; [|exact K3]. unfold kepDE in HT. unfold Ke. fold k.
  change (sg mu (fst (c e)) (snd (c e))) with (S_ e) in HT. change (norm (fst (c e))) with (R_ e) in HT. lra.
Qed.
Definition s0' : R := / sqrt (A_ 0) * S' - 0.5 * S_ 0 / sqrt (A_ 0) / sqrt (A_ 0) / sqrt (A_ 0) * A'.
Definition c0' : R := -1 / A_ 0 * R' + R_ 0 / A_ 0 / A_ 0 * A'.
Definition DM' : R := -1.5 * sqrt mu * tof / sqrt (A_ 0) ^ 5 * A'.
Lemma ds0 : is_derive (fun e => S_ e / sqrt (A_ e)) 0 s0'.
Proof.
  pose proof (sqrt_lt_R0 _ PA) as Q. eapply der_to; [ders; [exact PA|lra]|]. unfold s0'. replace 0.5 with (1 / 2) by lra. field. lra.
Qed.
Lemma dc0 : is_derive (fun e => 1 - R_ e / A_ e) 0 c0'.
Proof. eapply der_to; [ders; lra|]. unfold c0'. field. lra. Qed.
Lemma dDM : is_derive (fun e => lag_DM mu (A_ e) tof) 0 DM'.
Proof.
  pose proof (sqrt_lt_R0 _ PA) as Q. pose proof (sqrt_lt_R0 _ Mu) as QM. pose proof (sqrt_sqrt (A_ 0) ltac:(lra)) as S2. pose proof (sqrt_sqrt mu ltac:(lra)) as M2.
  apply (der_ext (fun e => sqrt (mu / (A_ e * A_ e * A_ e)) * tof)).
  - intros e. unfold lag_DM. f_equal. f_equal. f_equal. ring.
  - assert (A3 : 0 < A_ 0 * A_ 0 * A_ 0) by (apply Rmult_lt_0_compat; [apply Rmult_lt_0_compat; exact PA|exact PA]).
    eapply der_to; [ders; [|apply Rdiv_lt_0_compat; [exact Mu|exact A3]]; lra|].
    assert (SQ : sqrt (mu / (A_ 0 * A_ 0 * A_ 0)) = sqrt mu / (sqrt (A_ 0) * sqrt (A_ 0) * sqrt (A_ 0))).
    { rewrite sqrt_div_alt by exact A3. f_equal. rewrite sqrt_mult by nra. rewrite (sqrt_square (A_ 0)) by lra. rewrite <- S2 at 1. reflexivity. }
    rewrite SQ. unfold DM'. replace (-1.5) with (-3 / 2) by lra. set (k := sqrt (A_ 0)) in *. set (q := sqrt mu) in *. rewrite <- S2, <- M2. field. lra.
Qed.
Definition D' : R := / (1 + S_ 0 / sqrt (A_ 0) * sin (De 0) - (1 - R_ 0 / A_ 0) * cos (De 0)) * (DM' - (1 - cos (De 0)) * s0' + sin (De 0) * c0').
Lemma ecc0 : (1 - R_ 0 / A_ 0) * (1 - R_ 0 / A_ 0) + S_ 0 / sqrt (A_ 0) * (S_ 0 / sqrt (A_ 0)) < 1.
Proof. destruct (regular_r _ _ Rg) as [_ [Hr Hh]]. exact (ecc_lt1 mu (fst (c 0)) (snd (c 0)) Mu Hr Neg Hh). Qed.
Lemma Kxe_pos : 0 < Kxe (De 0) 0.
Proof.
  pose proof ecc0 as H. unfold Kxe. set (s := S_ 0 / sqrt (A_ 0)) in *. set (q := 1 - R_ 0 / A_ 0) in *.
  pose proof (sin2_cos2 (De 0)) as SC. unfold Rsqr in SC. set (x := sin (De 0)) in *. set (y := cos (De 0)) in *.
  assert ((q * y - s * x) * (q * y - s * x) <= (q * q + s * s) * (x * x + y * y)).
  { replace ((q * q + s * s) * (x * x + y * y)) with ((q * y - s * x) * (q * y - s * x) + (q * x + s * y) * (q * x + s * y)) by ring.
    pose proof (Rle_0_sqr (q * x + s * y)) as W. unfold Rsqr in W. lra. }
  rewrite SC in H0. nra.
Qed.
Lemma dDe : is_derive De 0 D'.
Proof.
  pose proof ds0 as Ds. pose proof dc0 as Dc. pose proof dDM as Dm.
  set (sf := fun e => S_ e / sqrt (A_ e)) in *. set (cf := fun e => 1 - R_ e / A_ e) in *.
  pose proof ecc0 as H0. change (cf 0 * cf 0 + sf 0 * sf 0 < 1) in H0. set (q0 := cf 0 * cf 0 + sf 0 * sf 0) in *. set (q1 := (1 + q0) / 2).
  assert (Q0 : 0 <= q0) by (unfold q0; nra). assert (Q1 : 0 < q1 < 1) by (unfold q1; lra).
  assert (M0 : 0 < 1 - sqrt q1). { assert (sqrt q1 < 1); [|lra]. rewrite <- sqrt_1. apply sqrt_lt_1; lra. }
  assert (NQ : near (fun e => cf e * cf e + sf e * sf e < q1)). { eapply near_lt; [ders|]. fold q0. unfold q1. lra. }
  eapply der_to; [apply (implicit_derive Ke Kxe De 0 (s0' * (1 - cos (De 0)) - c0' * sin (De 0) - DM') (1 - sqrt q1) M0)|].
  - destruct (near_and _ _ near_ell NQ) as [d0 [D0 L]]. exists d0. split; [exact D0|]. intros e He. rewrite Rminus_0_r in He.
    destruct (L e He) as [Ele Qe]. split; [|split].
    + intros x. unfold Ke, Kxe. eapply der_to; [ders|]. ring.
    + intros x. unfold Kxe. fold (sf e) (cf e). pose proof (sin2_cos2 x) as SC. unfold Rsqr in SC. set (y := sin x) in *. set (z := cos x) in *.
      assert (W : (cf e * z - sf e * y) * (cf e * z - sf e * y) <= q1).
      { replace ((cf e * z - sf e * y) * (cf e * z - sf e * y)) with ((cf e * cf e + sf e * sf e) * (y * y + z * z) - (cf e * y + sf e * z) * (cf e * y + sf e * z)) by ring.
        rewrite SC. pose proof (Rle_0_sqr (cf e * y + sf e * z)) as W. unfold Rsqr in W. lra. }
      assert (Rabs (cf e * z - sf e * y) <= sqrt q1). { rewrite <- sqrt_Rsqr_abs. apply sqrt_le_1_alt. exact W. }
      apply Rabs_le_between in H. lra.
    + apply De_K, Ele.
  - apply (der_ext (fun e => De 0 + sf e * (1 - cos (De 0)) - cf e * sin (De 0) - lag_DM mu (A_ e) tof)); [intros e; reflexivity|].
    eapply der_to; [ders|]. ring.
  - apply cont2_use. unfold Kxe. apply continuity_2d_pt_minus; [apply continuity_2d_pt_plus; [apply continuity_2d_pt_const|]|].
    + apply (cont2 sin sf); [apply continuity_sin|apply (is_derive_cont _ _ _ Ds)].
    + apply (cont2 cos cf); [apply continuity_cos|apply (is_derive_cont _ _ _ Dc)].
  - pose proof Kxe_pos as KP. unfold D'. change (1 + S_ 0 / sqrt (A_ 0) * sin (De 0) - (1 - R_ 0 / A_ 0) * cos (De 0)) with (Kxe (De 0) 0). field. lra.
Qed.
(** the final states along the curve *)
Definition lagc (e : R) : lagrange := lag_ellipse mu (R_ e) (A_ e) (S_ e) (S_ 0 / sqrt (A_ 0)) (1 - R_ 0 / A_ 0) (De e).
Definition ye (e : R) : state := lag_state (c e) (lagc e).
Lemma ye_flow e : elliptic mu (c e) -> flow_at mu (c e) tof (ye e).
Proof.
  intros Ele. pose proof (De_T e Ele) as HT. destruct Ele as [Rge Ne]. destruct (regular_r _ _ Rge) as [_ [Hr Hh]]. rewrite (surjective_pairing (c e)) in Ne.
  unfold ye. rewrite (surjective_pairing (c e)). pose proof (state_ellipse mu (fst (c e)) (snd (c e)) Mu Hr Ne (S_ 0 / sqrt (A_ 0)) (1 - R_ 0 / A_ 0) (De e)) as SE.
  change (lag_state (fst (c e), snd (c e)) (lagc e) = ustate mu (fst (c e)) (snd (c e)) (sqrt (A_ e) * De e)) in SE. rewrite SE.
  apply (ustate_flow mu _ _ Mu Hr Hh). exact HT.
Qed.
Lemma Rf_pos : 0 < lRf (lagc 0).
Proof.
  destruct (regular_r _ _ Rg) as [_ [Hr Hh]]. pose proof (rho_ellipse mu (fst (c 0)) (snd (c 0)) Mu Hr Neg (De 0)) as RE.
  unfold lagc, lag_ellipse. cbn [lRf]. change (0 < lag_a mu (energy mu (fst (c 0), snd (c 0))) + (norm (fst (c 0)) - lag_a mu (energy mu (fst (c 0), snd (c 0)))) * cos (De 0) +
    sg mu (fst (c 0)) (snd (c 0)) * sqrt (lag_a mu (energy mu (fst (c 0), snd (c 0)))) * sin (De 0)). rewrite <- RE. apply (rho_pos mu _ _ Mu Hr Hh).
Qed.
Let dl := stm_ellipse tof mu (R_ 0) (lRf (lagc 0)) (S_ 0) (A_ 0) (S_ 0 / sqrt (A_ 0)) (1 - R_ 0 / A_ 0) (De 0) (lF (lagc 0))
  (d_R0 (fst (c 0)) (R_ 0)) (d_sigma0 (fst (c 0)) (snd (c 0)) (sqrt mu)) (d_a mu (E_ 0) (d_energy mu (R_ 0) (d_V02 (snd (c 0))) (d_R0 (fst (c 0)) (R_ 0)))).
Lemma ye_der : sderive ye 0 (mat_apply (stm_assemble (c 0) (lagc 0) dl) d).
Proof.
  pose proof dDe as DD. pose proof Rf_pos as RF.
  pose proof (lag_state_der c d Hc lagc _ _ _ _
    (d_F_e R_ A_ S_ De R' A' D' mu (S_ 0 / sqrt (A_ 0)) (1 - R_ 0 / A_ 0) HR HA DD PR)
    (d_G_e R_ A_ S_ De R' A' S' D' mu (S_ 0 / sqrt (A_ 0)) (1 - R_ 0 / A_ 0) HR HA HS DD PR PA Mu)
    (d_Ft_e R_ A_ S_ De R' A' S' D' mu (S_ 0 / sqrt (A_ 0)) (1 - R_ 0 / A_ 0) HR HA HS DD PR PA Mu RF)
    (d_Gt_e R_ A_ S_ De R' A' S' D' mu (S_ 0 / sqrt (A_ 0)) (1 - R_ 0 / A_ 0) HR HA HS DD PA RF)) as H.
  rewrite assemble_apply. unfold dl.
  destruct (rows_e tof mu (R_ 0) (lRf (lagc 0)) (S_ 0) (A_ 0) (S_ 0 / sqrt (A_ 0)) (1 - R_ 0 / A_ 0) (De 0) (lF (lagc 0))
    (d_R0 (fst (c 0)) (R_ 0)) (d_sigma0 (fst (c 0)) (snd (c 0)) (sqrt mu)) (d_a mu (E_ 0) (d_energy mu (R_ 0) (d_V02 (snd (c 0))) (d_R0 (fst (c 0)) (R_ 0)))) d) as [-> [-> [-> ->]]].
  exact H.
Qed.
(** the matrix the code returns *)
Lemma stm_ell newton s' m : propagate_lagrangian newton (c 0) tof mu true = Ret (s', m) ->
  (forall DE, callE newton mu (fst (c 0)) (snd (c 0)) tof = Some DE -> kepDE DE (DMc mu (fst (c 0)) (snd (c 0)) tof) (S_ 0) (sqrt (A_ 0)) (A_ 0) (R_ 0) = 0) ->
  s' = ye 0 /\ m = Some (stm_assemble (c 0) (lagc 0) dl).
Proof.
  intros P RT. destruct (regular_r _ _ Rg) as [_ [Hr Hh]].
  assert (PP : propagate_lagrangian newton (fst (c 0), snd (c 0)) tof mu true = Ret (s', m)) by (rewrite <- surjective_pairing; exact P).
  rewrite lag_run, (solveE newton mu _ _ tof PA) in PP. destruct (callE newton mu (fst (c 0)) (snd (c 0)) tof) as [DE|] eqn:C; [|discriminate].
  cbn [bind] in PP. specialize (RT DE eq_refl).
  assert (TR : sin DE = sin (De 0) /\ cos DE = cos (De 0)).
  { destruct (ellipse_root mu (fst (c 0)) (snd (c 0)) Mu Hr Neg tof DE RT) as [DE' [ET [_ [k EK]]]].
    assert (E0 : DE' = De 0).
    { pose proof (sqrt_lt_R0 _ PA) as Q. apply (Rmult_eq_reg_l (sqrt (A_ 0))); [|lra]. apply (T_inj mu (fst (c 0)) (snd (c 0)) Mu Hr Hh).
      rewrite (De_T 0 El). exact ET. }
    rewrite <- E0, EK, period_Z_sin, period_Z_cos. auto. }
  destruct TR as [TS TC]. injection PP as P1 P2. split.
  - rewrite <- P1. unfold ye. rewrite (surjective_pairing (c 0)). change (norm (fst (c 0))) with (R_ 0). change (sg mu (fst (c 0)) (snd (c 0))) with (S_ 0).
    change (lag_a mu (energy mu (fst (c 0), snd (c 0)))) with (A_ 0).
    unfold lagc, lag_ellipse, lag_state. cbn [lRf ls0 lc0 lDX lF lG lFt lGt]. rewrite TS, TC. reflexivity.
  - rewrite <- P2. f_equal. unfold stm_lagrangian.
    change (lag_a mu (energy mu (fst (c 0), snd (c 0)))) with (A_ 0). destruct (Rlt_dec 0 (A_ 0)) as [_|N]; [|pose proof PA; contradiction].
    change (norm (fst (c 0))) with (R_ 0). change (sg mu (fst (c 0)) (snd (c 0))) with (S_ 0).
    unfold dl, lagc, stm_ellipse, lag_ellipse. cbn [lRf ls0 lc0 lDX lF lG lFt lGt]. rewrite TS, TC. rewrite (surjective_pairing (c 0)) at 1.
    unfold stm_assemble. rewrite (surjective_pairing (c 0)). cbn [fst snd lRf ls0 lc0 lDX lF lG lFt lGt dF dG dFt dGt]. reflexivity.
Qed.
End EllCurve.

(** ** Hyperbolas *)
Section HypCurve.
Variables (mu tof : R) (c : R -> state) (d : state).
Hypothesis Mu : 0 < mu.
Hypothesis Hc : sderive c 0 d.
Hypothesis Hy : hyperbolic mu (c 0).
Let Rg : regular mu (c 0) := proj1 Hy.
Let R_ := Rc c. Let A_ := Ac mu c. Let S_ := Sc mu c. Let E_ := Ec mu c.
Let R' := R'c c d. Let A' := A'c mu c d. Let S' := S'c mu c d.
Let Pos : 0 < E_ 0.
Proof. unfold E_, Ec. rewrite <- (surjective_pairing (c 0)). apply Hy. Qed.
Let HR : is_derive R_ 0 R' := dRc mu c d Hc Rg.
Let HA : is_derive A_ 0 A' := dAc mu c d Hc Rg (Rgt_not_eq _ _ Pos).
Let HS : is_derive S_ 0 S' := dSc mu c d Mu Hc.
Let PR : 0 < R_ 0 := Rc_pos mu c Rg.
Let NA : A_ 0 < 0 := a_neg mu (fst (c 0)) (snd (c 0)) Mu Pos.
Definition Dh (e : R) : R := gsol mu (fst (c e)) (snd (c e)) tof / sqrt (- Ac mu c e).
Lemma near_hyp : near (fun e => hyperbolic mu (c e)).
Proof.
  apply (near_imp _ _ (near_and _ _ (near_regular mu c d Mu Hc Rg) (proj2 (near_sign mu c d Hc Rg) Pos))).
  intros e [A B]. rewrite (surjective_pairing (c e)). split; [exact A|exact B].
Qed.
Lemma Dh_T e : hyperbolic mu (c e) -> T mu (fst (c e)) (snd (c e)) (sqrt (- A_ e) * Dh e) = sqrt mu * tof.
Proof.
  intros [Rge Ne]. destruct (regular_r _ _ Rge) as [_ [Hr Hh]]. rewrite (surjective_pairing (c e)) in Ne.
  destruct (sqrta_sqh mu (fst (c e)) (snd (c e)) Mu Ne) as [Q _].
  replace (sqrt (- A_ e) * Dh e) with (gsol mu (fst (c e)) (snd (c e)) tof); [apply gsol_solves; assumption|].
  unfold Dh, A_. field. change (Ac mu c e) with (lag_a mu (energy mu (fst (c e), snd (c e)))). lra.
Qed.
Definition Kh (x e : R) : R := - x + S_ e / sqrt (- A_ e) * (cosh x - 1) + (1 - R_ e / A_ e) * sinh x - lag_DN mu (A_ e) tof.
Definition Kxh (x e : R) : R := - 1 + S_ e / sqrt (- A_ e) * sinh x + (1 - R_ e / A_ e) * cosh x.
Lemma Dh_K e : hyperbolic mu (c e) -> Kh (Dh e) e = 0.
Proof.
  intros Ele. pose proof (Dh_T e Ele) as HT. destruct Ele as [Rge Ne]. destruct (regular_r _ _ Rge) as [_ [Hr Hh]]. rewrite (surjective_pairing (c e)) in Ne.
  pose proof (T_hyperbola mu (fst (c e)) (snd (c e)) Mu Hr Ne (lag_DN mu (A_ e) tof) (Dh e)) as TE.
  pose proof (DN_eq mu (fst (c e)) (snd (c e)) Mu Ne tof) as ED. destruct (sqrta_sqh mu (fst (c e)) (snd (c e)) Mu Ne) as [S1 S2].
  change (lag_a mu (energy mu (fst (c e), snd (c e)))) with (A_ e) in *. rewrite TE, <- ED in HT.
  set (k := sqrt (- A_ e)) in *. assert (K3 : k * k * k <> 0) by (repeat apply Rmult_integral_contrapositive_currified; lra).
  apply Rmult_eq_reg_l in HT; [|exact K3]. unfold kepDH in HT. unfold Kh. fold k.
  change (sg mu (fst (c e)) (snd (c e))) with (S_ e) in HT. change (norm (fst (c e))) with (R_ e) in HT. lra.
Qed.
Definition s0h' : R := / sqrt (- A_ 0) * S' + 0.5 * S_ 0 / sqrt (- A_ 0) / sqrt (- A_ 0) / sqrt (- A_ 0) * A'.
Definition c0h' : R := -1 / A_ 0 * R' + R_ 0 / A_ 0 / A_ 0 * A'.
Definition DN' : R := 1.5 * sqrt mu * tof / sqrt (- A_ 0) ^ 5 * A'.
Lemma ds0h : is_derive (fun e => S_ e / sqrt (- A_ e)) 0 s0h'.
Proof.
  pose proof (sqrt_lt_R0 (- A_ 0) ltac:(lra)) as Q. eapply der_to; [ders; lra|]. unfold s0h'. replace 0.5 with (1 / 2) by lra. field. lra.
Qed.
Lemma dc0h : is_derive (fun e => 1 - R_ e / A_ e) 0 c0h'.
Proof. eapply der_to; [ders; lra|]. unfold c0h'. field. lra. Qed.
Lemma dDN : is_derive (fun e => lag_DN mu (A_ e) tof) 0 DN'.
Proof.
  pose proof (sqrt_lt_R0 (- A_ 0) ltac:(lra)) as Q. pose proof (sqrt_lt_R0 _ Mu) as QM. pose proof (sqrt_sqrt (- A_ 0) ltac:(lra)) as S2. pose proof (sqrt_sqrt mu ltac:(lra)) as M2.
  assert (A3 : 0 < - A_ 0 * - A_ 0 * - A_ 0) by (apply Rmult_lt_0_compat; [apply Rmult_lt_0_compat; lra|lra]).
  assert (XE : - mu / A_ 0 / A_ 0 / A_ 0 = mu / (- A_ 0 * - A_ 0 * - A_ 0)) by (field; lra).
  unfold lag_DN. eapply der_to.
  - ders; try lra. rewrite XE. apply Rdiv_lt_0_compat; [exact Mu|exact A3].
  - assert (SQ : sqrt (- mu / A_ 0 / A_ 0 / A_ 0) = sqrt mu / (sqrt (- A_ 0) * sqrt (- A_ 0) * sqrt (- A_ 0))).
    { rewrite XE, sqrt_div_alt by exact A3. f_equal. rewrite sqrt_mult by nra. rewrite (sqrt_square (- A_ 0)) by lra. rewrite <- S2 at 1. reflexivity. }
    rewrite SQ. unfold DN'. replace 1.5 with (3 / 2) by lra. set (k := sqrt (- A_ 0)) in *. set (q := sqrt mu) in *. replace (A_ 0) with (- (k * k)) by lra. rewrite <- M2. field. lra.
Qed.
Definition Dh' : R := / (S_ 0 / sqrt (- A_ 0) * sinh (Dh 0) + (1 - R_ 0 / A_ 0) * cosh (Dh 0) - 1) * (DN' - (cosh (Dh 0) - 1) * s0h' - sinh (Dh 0) * c0h').
Lemma slope_h s q (q1 x : R) : 0 < q -> q1 < q * q - s * s -> 1 < q1 -> sqrt q1 - 1 <= - 1 + s * sinh x + q * cosh x.
Proof.
  intros Hq H1 H2. pose proof (hk_slope s q Hq ltac:(lra) x) as P. pose proof (cosh_sinh_sq x) as Q.
  set (u := s * sinh x + q * cosh x). assert (U2 : u * u = (q * q - s * s) + (s * cosh x + q * sinh x) * (s * cosh x + q * sinh x)).
  { unfold u. replace (q * q - s * s) with ((q * q - s * s) * (cosh x * cosh x - sinh x * sinh x)) by (rewrite Q; ring). ring. }
  pose proof (Rle_0_sqr (s * cosh x + q * sinh x)) as W. unfold Rsqr in W.
  assert (sqrt q1 <= u). { rewrite <- (sqrt_square u) by (unfold u; lra). apply sqrt_le_1_alt. lra. }
  unfold u in H. lra.
Qed.
Lemma dDh : is_derive Dh 0 Dh'.
Proof.
  pose proof ds0h as Ds. pose proof dc0h as Dc. pose proof dDN as Dm.
  assert (Hy0 : hyperbolic mu (fst (c 0), snd (c 0))) by (rewrite <- surjective_pairing; exact Hy).
  pose proof (hyp_c0 mu (fst (c 0)) (snd (c 0)) Hy0) as C0. pose proof (hyp_ecc mu (fst (c 0)) (snd (c 0)) Hy0) as H0.
  change (0 < 1 - R_ 0 / A_ 0) in C0. change (1 < (1 - R_ 0 / A_ 0) * (1 - R_ 0 / A_ 0) - S_ 0 / sqrt (- A_ 0) * (S_ 0 / sqrt (- A_ 0))) in H0.
  set (sf := fun e => S_ e / sqrt (- A_ e)) in *. set (cf := fun e => 1 - R_ e / A_ e) in *.
  change (0 < cf 0) in C0. change (1 < cf 0 * cf 0 - sf 0 * sf 0) in H0. set (q0 := cf 0 * cf 0 - sf 0 * sf 0) in *. set (q1 := (1 + q0) / 2).
  assert (Q1 : 1 < q1) by (unfold q1; lra).
  assert (M0 : 0 < sqrt q1 - 1). { assert (1 < sqrt q1); [|lra]. rewrite <- sqrt_1 at 1. apply sqrt_lt_1; lra. }
  assert (NQ : near (fun e => q1 < cf e * cf e - sf e * sf e)). { eapply near_gt; [ders|]. fold q0. unfold q1. lra. }
  assert (NC : near (fun e => 0 < cf e)). { eapply near_gt; [exact Dc|exact C0]. }
  eapply der_to; [apply (implicit_derive Kh Kxh Dh 0 (s0h' * (cosh (Dh 0) - 1) + c0h' * sinh (Dh 0) - DN') (sqrt q1 - 1) M0)|].
  - destruct (near_and _ _ near_hyp (near_and _ _ NQ NC)) as [d0 [D0 L]]. exists d0. split; [exact D0|]. intros e He. rewrite Rminus_0_r in He.
    destruct (L e He) as [Ele [Qe Ce]]. split; [|split].
    + intros x. unfold Kh, Kxh. eapply der_to; [ders|]. ring.
    + intros x. unfold Kxh. fold (sf e) (cf e). apply slope_h; assumption.
    + apply Dh_K, Ele.
  - apply (der_ext (fun e => - Dh 0 + sf e * (cosh (Dh 0) - 1) + cf e * sinh (Dh 0) - lag_DN mu (A_ e) tof)); [intros e; reflexivity|].
    eapply der_to; [ders|]. ring.
  - apply cont2_use. unfold Kxh. apply continuity_2d_pt_plus; [apply continuity_2d_pt_plus; [apply continuity_2d_pt_const|]|].
    + apply (cont2 sinh sf); [intros x; apply derivable_continuous_pt, derivable_pt_sinh|apply (is_derive_cont _ _ _ Ds)].
    + apply (cont2 cosh cf); [intros x; apply derivable_continuous_pt, derivable_pt_cosh|apply (is_derive_cont _ _ _ Dc)].
  - pose proof (slope_h (sf 0) (cf 0) q1 (Dh 0) C0 ltac:(fold q0; unfold q1; lra) Q1) as KP. unfold Dh', Kxh. fold (sf 0) (cf 0). field. lra.
Qed.
Definition lagh (e : R) : lagrange := lag_hyperbola mu (R_ e) (A_ e) (S_ e) (S_ 0 / sqrt (- A_ 0)) (1 - R_ 0 / A_ 0) (Dh e).
Definition yh (e : R) : state := lag_state (c e) (lagh e).
Lemma yh_flow e : hyperbolic mu (c e) -> flow_at mu (c e) tof (yh e).
Proof.
  intros Ele. pose proof (Dh_T e Ele) as HT. destruct Ele as [Rge Ne]. destruct (regular_r _ _ Rge) as [_ [Hr Hh]]. rewrite (surjective_pairing (c e)) in Ne.
  unfold yh. rewrite (surjective_pairing (c e)). pose proof (state_hyperbola mu (fst (c e)) (snd (c e)) Mu Hr Ne (S_ 0 / sqrt (- A_ 0)) (1 - R_ 0 / A_ 0) (Dh e)) as SE.
  change (lag_state (fst (c e), snd (c e)) (lagh e) = ustate mu (fst (c e)) (snd (c e)) (sqrt (- A_ e) * Dh e)) in SE. rewrite SE.
  apply (ustate_flow mu _ _ Mu Hr Hh). exact HT.
Qed.
Lemma Rfh_pos : 0 < lRf (lagh 0).
Proof.
  destruct (regular_r _ _ Rg) as [_ [Hr Hh]]. pose proof (rho_hyperbola mu (fst (c 0)) (snd (c 0)) Mu Hr Pos (Dh 0)) as RE.
  unfold lagh, lag_hyperbola. cbn [lRf]. change (0 < lag_a mu (energy mu (fst (c 0), snd (c 0))) + (norm (fst (c 0)) - lag_a mu (energy mu (fst (c 0), snd (c 0)))) * cosh (Dh 0) +
    sg mu (fst (c 0)) (snd (c 0)) * sqrt (- lag_a mu (energy mu (fst (c 0), snd (c 0)))) * sinh (Dh 0)). rewrite <- RE. apply (rho_pos mu _ _ Mu Hr Hh).
Qed.
Let dl := stm_hyperbola tof mu (R_ 0) (lRf (lagh 0)) (S_ 0) (A_ 0) (S_ 0 / sqrt (- A_ 0)) (1 - R_ 0 / A_ 0) (Dh 0) (lF (lagh 0))
  (d_R0 (fst (c 0)) (R_ 0)) (d_sigma0 (fst (c 0)) (snd (c 0)) (sqrt mu)) (d_a mu (E_ 0) (d_energy mu (R_ 0) (d_V02 (snd (c 0))) (d_R0 (fst (c 0)) (R_ 0)))).
Lemma yh_der : sderive yh 0 (mat_apply (stm_assemble (c 0) (lagh 0) dl) d).
Proof.
  pose proof dDh as DD. pose proof Rfh_pos as RF.
  pose proof (lag_state_der c d Hc lagh _ _ _ _
    (d_F_h R_ A_ S_ Dh R' A' Dh' mu (S_ 0 / sqrt (- A_ 0)) (1 - R_ 0 / A_ 0) HR HA DD PR)
    (d_G_h R_ A_ S_ Dh R' A' S' Dh' mu (S_ 0 / sqrt (- A_ 0)) (1 - R_ 0 / A_ 0) HR HA HS DD PR NA Mu)
    (d_Ft_h R_ A_ S_ Dh R' A' S' Dh' mu (S_ 0 / sqrt (- A_ 0)) (1 - R_ 0 / A_ 0) HR HA HS DD PR NA Mu RF)
    (d_Gt_h R_ A_ S_ Dh R' A' S' Dh' mu (S_ 0 / sqrt (- A_ 0)) (1 - R_ 0 / A_ 0) HR HA HS DD NA RF)) as H.
  rewrite assemble_apply. unfold dl.
  destruct (rows_h tof mu (R_ 0) (lRf (lagh 0)) (S_ 0) (A_ 0) (S_ 0 / sqrt (- A_ 0)) (1 - R_ 0 / A_ 0) (Dh 0) (lF (lagh 0))
    (d_R0 (fst (c 0)) (R_ 0)) (d_sigma0 (fst (c 0)) (snd (c 0)) (sqrt mu)) (d_a mu (E_ 0) (d_energy mu (R_ 0) (d_V02 (snd (c 0))) (d_R0 (fst (c 0)) (R_ 0)))) d) as [-> [-> [-> ->]]].
  exact H.
Qed.
Lemma stm_hyp newton s' m : propagate_lagrangian newton (c 0) tof mu true = Ret (s', m) ->
  (forall DH, callH newton mu (fst (c 0)) (snd (c 0)) tof = Some DH -> kepDH DH (lag_DN mu (A_ 0) tof) (S_ 0) (sqrt (- A_ 0)) (A_ 0) (R_ 0) = 0) ->
  s' = yh 0 /\ m = Some (stm_assemble (c 0) (lagh 0) dl).
Proof.
  intros P RT. destruct (regular_r _ _ Rg) as [_ [Hr Hh]].
  assert (PP : propagate_lagrangian newton (fst (c 0), snd (c 0)) tof mu true = Ret (s', m)) by (rewrite <- surjective_pairing; exact P).
  rewrite lag_run, (solveH newton mu _ _ tof NA) in PP. destruct (callH newton mu (fst (c 0)) (snd (c 0)) tof) as [DH|] eqn:C; [|discriminate].
  cbn [bind] in PP. specialize (RT DH eq_refl).
  assert (TR : DH = Dh 0).
  { destruct (sqrta_sqh mu (fst (c 0)) (snd (c 0)) Mu Pos) as [Q _].
    apply (Rmult_eq_reg_l (sqrt (- A_ 0))); [|unfold A_, Ac, Ec; lra]. apply (T_inj mu (fst (c 0)) (snd (c 0)) Mu Hr Hh).
    rewrite (Dh_T 0 Hy). unfold A_, Ac, Ec. rewrite (T_hyperbola mu _ _ Mu Hr Pos (lag_DN mu (lag_a mu (energy mu (fst (c 0), snd (c 0)))) tof)).
    unfold A_, R_, S_, Ac, Ec, Rc, Sc in RT. unfold sg in *. rewrite RT, Rplus_0_l. apply (DN_eq mu _ _ Mu Pos). }
  subst DH. injection PP as P1 P2. split.
  - rewrite <- P1. unfold yh. rewrite (surjective_pairing (c 0)). reflexivity.
  - rewrite <- P2. f_equal. unfold stm_lagrangian.
    change (lag_a mu (energy mu (fst (c 0), snd (c 0)))) with (A_ 0). destruct (Rlt_dec 0 (A_ 0)) as [N|_]; [pose proof NA; lra|].
    change (norm (fst (c 0))) with (R_ 0). change (sg mu (fst (c 0)) (snd (c 0))) with (S_ 0).
    unfold dl, lagh, stm_hyperbola, lag_hyperbola. cbn [lRf ls0 lc0 lDX lF lG lFt lGt].
    unfold stm_assemble. rewrite (surjective_pairing (c 0)). cbn [fst snd lRf ls0 lc0 lDX lF lG lFt lGt dF dG dFt dGt]. reflexivity.
Qed.
End HypCurve.
