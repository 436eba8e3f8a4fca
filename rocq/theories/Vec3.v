(** * Vectors of three real numbers (std::array<double, 3>, xtensor mat31 / mat13) *)
From Coq Require Import Reals Lra Nsatz.
From Coquelicot Require Import Coquelicot.
From Verif Require Import RealLib.
Open Scope R_scope.

(** polynomial consequences of polynomial equations (nsatz does not see powers) *)
Lemma p2 (x : R) : x ^ 2 = x * x. Proof. ring. Qed.
Lemma p3 (x : R) : x ^ 3 = x * x * x. Proof. ring. Qed.
Lemma p4 (x : R) : x ^ 4 = x * x * x * x. Proof. ring. Qed.
Lemma p5 (x : R) : x ^ 5 = x * x * x * x * x. Proof. ring. Qed.
Lemma p6 (x : R) : x ^ 6 = x * x * x * x * x * x. Proof. ring. Qed.
Ltac nsz := rewrite ?p2, ?p3, ?p4, ?p5, ?p6; nsatz.

Record vec : Type := V { vx : R; vy : R; vz : R }.
Definition vadd (u v : vec) : vec := V (vx u + vx v) (vy u + vy v) (vz u + vz v).
Definition vsub (u v : vec) : vec := V (vx u - vx v) (vy u - vy v) (vz u - vz v).
Definition vscal (k : R) (u : vec) : vec := V (k * vx u) (k * vy u) (k * vz u).
Definition vneg (u : vec) : vec := V (- vx u) (- vy u) (- vz u).
Definition vzero : vec := V 0 0 0.
Definition dot (u v : vec) : R := vx u * vx v + vy u * vy v + vz u * vz v.
Definition cross (u v : vec) : vec := V (vy u * vz v - vy v * vz u) (vx v * vz u - vx u * vz v) (vx u * vy v - vx v * vy u).
Definition norm (u : vec) : R := sqrt (dot u u).
(** position and velocity *)
Definition state : Type := (vec * vec)%type.

(** componentwise derivative of a curve of vectors *)
Definition vderive (f : R -> vec) (t : R) (d : vec) : Prop :=
  is_derive (fun s => vx (f s)) t (vx d) /\ is_derive (fun s => vy (f s)) t (vy d) /\ is_derive (fun s => vz (f s)) t (vz d).

Lemma vec_eq u v : vx u = vx v -> vy u = vy v -> vz u = vz v -> u = v.
Proof. destruct u, v; cbn. intros -> -> ->. reflexivity. Qed.
Lemma dot_nonneg u : 0 <= dot u u. Proof. unfold dot. nra. Qed.
Lemma dot_comm u v : dot u v = dot v u. Proof. unfold dot. ring. Qed.
Lemma norm_nonneg u : 0 <= norm u. Proof. apply sqrt_pos. Qed.
Lemma norm_sq u : norm u * norm u = dot u u. Proof. apply sqrt_sqrt, dot_nonneg. Qed.
Lemma norm_unique u x : 0 <= x -> x * x = dot u u -> norm u = x.
Proof. intros P E. unfold norm. rewrite <- E. apply sqrt_square, P. Qed.
Lemma dot_zero u : dot u u = 0 -> u = vzero.
Proof. destruct u as [x y z]. unfold dot, vzero. cbn. intros H. f_equal; nra. Qed.
Lemma norm_zero u : norm u = 0 -> u = vzero.
Proof. intros H. apply dot_zero. rewrite <- norm_sq, H. ring. Qed.
Lemma norm_pos u : u <> vzero -> 0 < norm u.
Proof. intros N. destruct (norm_nonneg u) as [H|H]; [exact H|]. symmetry in H. apply norm_zero in H. contradiction. Qed.
Lemma norm_pos_nz u : 0 < norm u -> u <> vzero.
Proof. intros H ->. unfold norm, dot, vzero in H. cbn in H. replace (0 * 0 + 0 * 0 + 0 * 0) with 0 in H by ring. rewrite sqrt_0 in H. lra. Qed.
Lemma dot_pos u : u <> vzero -> 0 < dot u u.
Proof. intros N. rewrite <- norm_sq. pose proof (norm_pos u N). nra. Qed.
Lemma cauchy_schwarz u v : dot u v * dot u v <= dot u u * dot v v.
Proof.
  assert (H : 0 <= dot (cross u v) (cross u v)) by apply dot_nonneg.
  replace (dot (cross u v) (cross u v)) with (dot u u * dot v v - dot u v * dot u v) in H by (unfold dot, cross; cbn; ring). lra.
Qed.
Lemma lagrange_identity u v : dot (cross u v) (cross u v) = dot u u * dot v v - dot u v * dot u v.
Proof. unfold dot, cross; cbn; ring. Qed.
Lemma abs_dot u v : Rabs (dot u v) <= norm u * norm v.
Proof.
  rewrite <- (Rabs_right (norm u * norm v)) by (apply Rle_ge, Rmult_le_pos; apply norm_nonneg).
  apply Rsqr_le_abs_0. unfold Rsqr. replace (norm u * norm v * (norm u * norm v)) with ((norm u * norm u) * (norm v * norm v)) by ring.
  rewrite !norm_sq. apply cauchy_schwarz.
Qed.
Lemma norm_vneg u : norm (vneg u) = norm u.
Proof. unfold norm. f_equal. unfold dot, vneg. cbn. ring. Qed.
Lemma norm_vscal k u : norm (vscal k u) = Rabs k * norm u.
Proof.
  apply norm_unique; [apply Rmult_le_pos; [apply Rabs_pos|apply norm_nonneg]|].
  replace (Rabs k * norm u * (Rabs k * norm u)) with (Rabs k * Rabs k * (norm u * norm u)) by ring. rewrite norm_sq.
  rewrite <- Rabs_mult, Rabs_right by nra. unfold dot, vscal; cbn; ring.
Qed.
Lemma norm_triangle u v : norm (vadd u v) <= norm u + norm v.
Proof.
  pose proof (norm_nonneg u). pose proof (norm_nonneg v). pose proof (norm_nonneg (vadd u v)). pose proof (norm_sq u). pose proof (norm_sq v).
  pose proof (norm_sq (vadd u v)) as E. replace (dot (vadd u v) (vadd u v)) with (dot u u + 2 * dot u v + dot v v) in E by (unfold dot, vadd; cbn; ring).
  pose proof (abs_dot u v) as A. pose proof (Rle_abs (dot u v)). nra.
Qed.
Lemma norm_rev_triangle u v : Rabs (norm u - norm v) <= norm (vsub u v).
Proof.
  assert (H1 : norm u <= norm (vsub u v) + norm v).
  { replace u with (vadd (vsub u v) v) at 1 by (apply vec_eq; unfold vadd, vsub; cbn; ring). apply norm_triangle. }
  assert (H2 : norm v <= norm (vsub u v) + norm u).
  { replace v with (vadd (vneg (vsub u v)) u) at 1 by (apply vec_eq; unfold vadd, vsub, vneg; cbn; ring).
    rewrite <- (norm_vneg (vsub u v)). apply norm_triangle. }
  unfold Rabs. destruct (Rcase_abs (norm u - norm v)); lra.
Qed.

(** derivatives *)
Lemma der_ext (f g : R -> R) (x l : R) : (forall u : R, f u = g u) -> is_derive f x l -> is_derive g x l.
Proof. intros E H. eapply is_derive_ext; [|exact H]. exact E. Qed.
Lemma der_to (f : R -> R) (x a b : R) : is_derive f x a -> a = b -> is_derive f x b. Proof. intros H <-. exact H. Qed.
Lemma der_dot f g t a b : vderive f t a -> vderive g t b -> is_derive (fun s => dot (f s) (g s)) t (dot a (g t) + dot (f t) b).
Proof.
  intros [F1 [F2 F3]] [G1 [G2 G3]]. unfold dot.
  pose proof (der_plus _ _ _ _ _ (der_plus _ _ _ _ _ (der_mult _ _ _ _ _ F1 G1) (der_mult _ _ _ _ _ F2 G2)) (der_mult _ _ _ _ _ F3 G3)) as H.
  eapply der_to; [exact H|]. cbn. ring.
Qed.
Lemma der_norm f t a : vderive f t a -> f t <> vzero -> is_derive (fun s => norm (f s)) t (dot (f t) a / norm (f t)).
Proof.
  intros F N. unfold norm. eapply der_to; [apply der_sqrt; [eapply der_dot; exact F|apply dot_pos; exact N]|].
  cbv beta. fold (norm (f t)). pose proof (norm_pos _ N). rewrite (dot_comm a (f t)). field. lra.
Qed.
Lemma vder_add f g t a b : vderive f t a -> vderive g t b -> vderive (fun s => vadd (f s) (g s)) t (vadd a b).
Proof. intros [F1 [F2 F3]] [G1 [G2 G3]]. unfold vadd. split; [|split]; cbn; apply der_plus; assumption. Qed.
Lemma vder_sub f g t a b : vderive f t a -> vderive g t b -> vderive (fun s => vsub (f s) (g s)) t (vsub a b).
Proof. intros [F1 [F2 F3]] [G1 [G2 G3]]. unfold vsub. split; [|split]; cbn; apply der_minus; assumption. Qed.
Lemma vder_scal k f t c a : is_derive k t c -> vderive f t a -> vderive (fun s => vscal (k s) (f s)) t (vadd (vscal c (f t)) (vscal (k t) a)).
Proof. intros K [F1 [F2 F3]]. unfold vscal, vadd. split; [|split]; cbn; apply (der_mult k); assumption. Qed.
Lemma vder_const u t : vderive (fun _ => u) t vzero.
Proof. unfold vzero. split; [|split]; cbn; apply der_const. Qed.
Lemma vder_eq f t a b : vderive f t a -> a = b -> vderive f t b. Proof. intros H <-. exact H. Qed.
Lemma vder_cross f g t a b : vderive f t a -> vderive g t b -> vderive (fun s => cross (f s) (g s)) t (vadd (cross a (g t)) (cross (f t) b)).
Proof.
  intros [F1 [F2 F3]] [G1 [G2 G3]]. unfold cross, vadd. split; [|split]; cbn.
  - eapply der_to; [apply der_minus; [apply (der_mult (fun s => vy (f s)) (fun s => vz (g s))); eassumption|apply (der_mult (fun s => vy (g s)) (fun s => vz (f s))); eassumption]|]. cbn. ring.
  - eapply der_to; [apply der_minus; [apply (der_mult (fun s => vx (g s)) (fun s => vz (f s))); eassumption|apply (der_mult (fun s => vx (f s)) (fun s => vz (g s))); eassumption]|]. cbn. ring.
  - eapply der_to; [apply der_minus; [apply (der_mult (fun s => vx (f s)) (fun s => vy (g s))); eassumption|apply (der_mult (fun s => vx (g s)) (fun s => vy (f s))); eassumption]|]. cbn. ring.
Qed.
Lemma vder_ext f g t a : (forall s, f s = g s) -> vderive f t a -> vderive g t a.
Proof. intros E [F1 [F2 F3]]. split; [|split]; (eapply is_derive_ext; [|eassumption]; intros s; cbn; rewrite E; reflexivity). Qed.
