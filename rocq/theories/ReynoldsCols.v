(** * The columns of _compute_Y *)
From Coq Require Import Reals List Lra Nsatz.
From Coquelicot Require Import Coquelicot.
From Verif Require Import RealLib Outcome KepModel KepSpec KepProofs Vec3 TwoBodyModel TwoBodySpec FlowProofs LagProofs FlowMain BracketProofs TwoBodyProofs StmProofs StmMain ReynoldsModel.
Open Scope R_scope.

Ltac vrefl := apply vec_eq; unfold gravity_gradient, gravity, cross, vadd, vsub, vscal, vneg, vzero, dot; cbn [vx vy vz].
(** three families of solutions of the variational equations *)
Definition rot (e : vec) (s : state) : state := (cross (fst s) e, cross (snd s) e).
Definition lrl (mu : R) (b : vec) (s : state) : state :=
  let '(r, v) := s in
  (vadd (vscal (-2 * dot r b) v) (vadd (vscal (dot r v) b) (vscal (dot v b) r)),
   vsub (vsub (vscal (mu / norm r ^ 3 * dot r b) r) (vscal (mu / norm r) b)) (vsub (vscal (dot v b) v) (vscal (dot v v) b))).
Definition scl (mu t : R) (s : state) : state :=
  let '(r, v) := s in
  (vadd (vneg r) (vscal (3 / 2 * t) v), vsub (vscal (1 / 2) v) (vscal (3 / 2 * mu / norm r ^ 3 * t) r)).
Lemma of_columns_apply c0 c1 c2 c3 c4 c5 d : mat_apply (of_columns c0 c1 c2 c3 c4 c5) d =
  (vadd (vscal (vx (fst d)) (fst c0)) (vadd (vscal (vy (fst d)) (fst c1)) (vadd (vscal (vz (fst d)) (fst c2))
   (vadd (vscal (vx (snd d)) (fst c3)) (vadd (vscal (vy (snd d)) (fst c4)) (vscal (vz (snd d)) (fst c5)))))),
   vadd (vscal (vx (fst d)) (snd c0)) (vadd (vscal (vy (fst d)) (snd c1)) (vadd (vscal (vz (fst d)) (snd c2))
   (vadd (vscal (vx (snd d)) (snd c3)) (vadd (vscal (vy (snd d)) (snd c4)) (vscal (vz (snd d)) (snd c5))))))).
Proof.
  unfold mat_apply, row_apply, mat_entry, of_columns. cbn [List.map List.app List.nth Nat.add Nat.mul].
  apply f_equal2; apply vec_eq; unfold vadd, vscal; cbn [vx vy vz]; ring.
Qed.
Definition Bvec (r0 v0 : vec) (mu : R) (d : state) : vec :=
  vadd (vscal (vx (snd d) / sqrt (mu * norm r0)) r0) (vscal (vy (snd d) * norm r0 / mu) v0).
Definition sadd (s1 s2 : state) : state := (vadd (fst s1) (fst s2), vadd (snd s1) (snd s2)).
Definition sscal (k : R) (s : state) : state := (vscal k (fst s), vscal k (snd s)).
Lemma ct_apply r v b : vneg (mvec (madd (mdot (skew r) (skew v)) (skew (cross r v))) b) =
  vadd (vscal (-2 * dot r b) v) (vadd (vscal (dot r v) b) (vscal (dot v b) r)).
Proof.
  apply vec_eq; unfold mvec, mdot, madd, skew, cross, dot, col0, col1, col2, vadd, vscal, vsub, vneg; cbn [vx vy vz row0 row1 row2]; ring.
Qed.
Lemma cb_apply k r v b : mvec (msub (mscal k (mdot (skew r) (skew r))) (mdot (skew v) (skew v))) b =
  vsub (vsub (vscal (k * dot r b) r) (vscal (k * dot r r) b)) (vsub (vscal (dot v b) v) (vscal (dot v v) b)).
Proof.
  apply vec_eq; unfold mvec, msub, mdot, mscal, skew, cross, dot, col0, col1, col2, vadd, vscal, vsub, vneg; cbn [vx vy vz row0 row1 row2]; ring.
Qed.
Lemma cross_cols r e : cross r e = vadd (vscal (vx e) (col0 (skew r))) (vadd (vscal (vy e) (col1 (skew r))) (vscal (vz e) (col2 (skew r)))).
Proof. apply vec_eq; unfold vadd, vscal, skew, cross, col0, col1, col2; cbn [vx vy vz row0 row1 row2]; ring. Qed.
Lemma lrl_lin mu k1 b1 k2 b2 s : lrl mu (vadd (vscal k1 b1) (vscal k2 b2)) s = sadd (sscal k1 (lrl mu b1 s)) (sscal k2 (lrl mu b2 s)).
Proof.
  destruct s as [r v]. unfold lrl, sadd, sscal. cbn [fst snd]. set (n := mu / norm _ ^ 3). set (n1 := mu / norm _).
  apply f_equal2; vrefl; ring.
Qed.
Lemma vadd_assoc u v w : vadd u (vadd v w) = vadd (vadd u v) w.
Proof. vrefl; ring. Qed.
Lemma Y_apply r0 v0 r v t mu d : r <> vzero -> mat_apply (compute_Y r0 v0 r v t mu) d =
  sadd (rot (fst d) (r, v)) (sadd (lrl mu (Bvec r0 v0 mu d) (r, v)) (sscal (vz (snd d)) (scl mu t (r, v)))).
Proof.
  intros N. pose proof (norm_pos r N) as P. pose proof (norm_sq r) as Q. unfold compute_Y. cbv zeta. rewrite of_columns_apply. change (lag_R0 r) with (norm r). change (lag_R0 r0) with (norm r0).
  cbn [fst snd]. rewrite !ct_apply, !cb_apply. unfold Bvec.
  replace (vadd (vscal (vx (snd d) / sqrt (mu * norm r0)) r0) (vscal (vy (snd d) * norm r0 / mu) v0)) with
    (vadd (vscal (vx (snd d)) (vscal (/ sqrt (mu * norm r0)) r0)) (vscal (vy (snd d)) (vscal (norm r0 / mu) v0))) by (vrefl; unfold Rdiv; ring).
  rewrite lrl_lin. set (B0 := vscal (/ sqrt (mu * norm r0)) r0). set (B1 := vscal (norm r0 / mu) v0).
  unfold sadd, sscal, rot, lrl, scl. cbn [fst snd]. rewrite (cross_cols r), (cross_cols v). rewrite <- Q. replace 1.5 with (3 / 2) by lra.
  replace (mu / (norm r * norm r * norm r) * (norm r * norm r)) with (mu / norm r) by (field; lra).
  replace (norm r * norm r * norm r) with (norm r ^ 3) by ring. replace (/ 2) with (1 / 2) by lra.
  rewrite !vadd_assoc. reflexivity.
Qed.
