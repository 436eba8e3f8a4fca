(** * Proofs about the dynamics *)
From Coq Require Import Reals Lra.
From Coquelicot Require Import Coquelicot.
From Verif Require Import RealLib Vec3 TwoBodySpec DynModel DynSpec.
Open Scope R_scope.

(** a function with zero derivative between two points takes the same value there; with constant derivative it is affine *)
Lemma affine_between (f : R -> R) (lo hi : Rbar) (c : R) : (forall t : R, Rbar_lt lo t -> Rbar_lt t hi -> is_derive f t c) ->
  forall t1 t2 : R, Rbar_lt lo t1 -> Rbar_lt t1 hi -> Rbar_lt lo t2 -> Rbar_lt t2 hi -> f t2 - f t1 = c * (t2 - t1).
Proof.
  intros H t1 t2 A1 B1 A2 B2.
  assert (IN : forall x, Rmin t1 t2 <= x <= Rmax t1 t2 -> Rbar_lt lo x /\ Rbar_lt x hi).
  { intros x Hx. split.
    - apply Rbar_lt_le_trans with (Rmin t1 t2); [|exact (proj1 Hx)]. unfold Rmin. destruct (Rle_dec t1 t2); assumption.
    - apply Rbar_le_lt_trans with (Rmax t1 t2); [exact (proj2 Hx)|]. unfold Rmax. destruct (Rle_dec t1 t2); assumption. }
  destruct (MVT_gen f t1 t2 (fun _ => c)) as [x [_ E]]; [| |exact E].
  - intros x Hx. apply H; apply IN; lra.
  - intros x Hx. apply derivable_continuous_pt. exists c. apply is_derive_Reals, H; apply IN; lra.
Qed.
Lemma const_between (f : R -> R) (lo hi : Rbar) : (forall t : R, Rbar_lt lo t -> Rbar_lt t hi -> is_derive f t 0) ->
  forall t1 t2 : R, Rbar_lt lo t1 -> Rbar_lt t1 hi -> Rbar_lt lo t2 -> Rbar_lt t2 hi -> f t1 = f t2.
Proof. intros H t1 t2 A1 B1 A2 B2. pose proof (affine_between f lo hi 0 H t1 t2 A1 B1 A2 B2). lra. Qed.

(** pow(r2, -3./2) *)
Lemma rpow_neg32 r : r <> vzero -> Rpower (vx r ^ 2 + vy r ^ 2 + vz r ^ 2) (- 3 / 2) = / norm r ^ 3.
Proof.
  intros N. pose proof (norm_pos r N) as P. replace (vx r ^ 2 + vy r ^ 2 + vz r ^ 2) with (norm r * norm r) by (rewrite norm_sq; unfold dot; ring).
  replace (norm r * norm r) with (Rpower (norm r) 2) by (replace 2 with (INR 2) by (cbn; ring); rewrite Rpower_pow by exact P; cbn; ring).
  rewrite Rpower_mult. replace (2 * (- 3 / 2)) with (- (INR 3)) by (cbn; field). rewrite Rpower_Ropp, Rpower_pow by exact P. reflexivity.
Qed.
Lemma norm_pow u : norm u = sqrt (vx u ^ 2 + vy u ^ 2 + vz u ^ 2).
Proof. unfold norm, dot. f_equal. ring. Qed.
Lemma vsub_nz u v : u <> v -> vsub u v <> vzero.
Proof. intros N E. apply N. apply vec_eq; [apply (f_equal vx) in E|apply (f_equal vy) in E|apply (f_equal vz) in E]; unfold vsub, vzero in E; cbn [vx vy vz] in E; lra. Qed.

Lemma cr3bp_field mu s : off_primaries mu s -> cr3bp_dyn mu s = rotating_field mu s.
Proof.
  intros [N1 N2]. destruct s as [[x y z] [a b c]]. cbn [fst snd] in *. apply vsub_nz in N1, N2.
  pose proof (norm_pos _ N1) as P1. pose proof (norm_pos _ N2) as P2. unfold cr3bp_dyn, rotating_field. cbn [fst snd].
  replace (sqrt ((x + mu) ^ 2 + y ^ 2 + z ^ 2)) with (norm (vsub (V x y z) (primary1 mu))) by (rewrite norm_pow; f_equal; unfold vsub, primary1; cbn [vx vy vz]; ring).
  replace (sqrt ((x - (1 - mu)) ^ 2 + y ^ 2 + z ^ 2)) with (norm (vsub (V x y z) (primary2 mu))) by (rewrite norm_pow; f_equal; unfold vsub, primary2; cbn [vx vy vz]; ring).
  unfold gravity. set (n1 := norm (vsub (V x y z) (primary1 mu))) in *. set (n2 := norm (vsub (V x y z) (primary2 mu))) in *. f_equal. apply vec_eq; unfold vadd, vneg, vscal, vsub, cross, omega, primary1, primary2; cbn [vx vy vz]; field; repeat split; lra.
Qed.
Lemma der_norm_vsub (f : R -> vec) t d p : vderive f t d -> vsub (f t) p <> vzero -> is_derive (fun u => norm (vsub (f u) p)) t (dot (vsub (f t) p) d / norm (vsub (f t) p)).
Proof.
  intros D N. assert (D' : vderive (fun u => vsub (f u) p) t d).
  { pose proof (vder_sub f (fun _ => p) t d vzero D (vder_const p t)) as H. replace (vsub d vzero) with d in H by (apply vec_eq; unfold vsub, vzero; cbn [vx vy vz]; ring). exact H. }
  pose proof (der_norm _ t d D' N) as H. exact H.
Qed.
Lemma jacobi_conserved mu lo hi y : solves (cr3bp_dyn mu) (off_primaries mu) lo hi y -> conserved (jacobi mu) lo hi y.
Proof.
  intros S. unfold conserved. apply (const_between (fun t => jacobi mu (y t))). intros t A B. destruct (S t A B) as [O [D1 D2]]. rewrite (cr3bp_field mu _ O) in D1, D2.
  unfold rotating_field in D1, D2. cbn [fst snd] in D1, D2. destruct O as [N1 N2]. apply vsub_nz in N1, N2. pose proof (norm_pos _ N1) as P1. pose proof (norm_pos _ N2) as P2.
  pose proof (der_norm_vsub _ t _ (primary1 mu) D1 N1) as DN1. pose proof (der_norm_vsub _ t _ (primary2 mu) D1 N2) as DN2.
  pose proof (der_dot _ _ t _ _ D2 D2) as DV.
  destruct D1 as [X1 [Y1 Z1]].
  unfold jacobi. set (r := fst (y t)) in *. set (v := snd (y t)) in *.
  set (n1 := norm (vsub r (primary1 mu))) in *. set (n2 := norm (vsub r (primary2 mu))) in *.
  eapply der_to; [apply der_minus; [apply der_plus; [apply der_plus; [|apply der_div; [apply der_const|exact DN1|apply Rgt_not_eq; exact P1]]|apply der_div; [apply der_const|exact DN2|apply Rgt_not_eq; exact P2]]|exact DV]|].
  - apply (der_ext (fun u => vy (fst (y u)) * vy (fst (y u)) + vx (fst (y u)) * vx (fst (y u)))); [intros u; unfold dot, cross, omega; cbn [vx vy vz]; ring|].
    apply der_plus; apply der_mult; eassumption.
  - cbv beta. change (fst (y t)) with r. change (snd (y t)) with v. change (norm (vsub r (primary1 mu))) with n1. change (norm (vsub r (primary2 mu))) with n2. unfold gravity. fold n1 n2. unfold dot, vadd, vneg, vscal, vsub, cross, omega, primary1, primary2. cbn [vx vy vz]. field. lra.
Qed.
Lemma l4 mu : 0 < mu < 1 -> off_primaries mu (V (1 / 2 - mu) (sqrt 3 / 2) 0, vzero) /\ cr3bp_dyn mu (V (1 / 2 - mu) (sqrt 3 / 2) 0, vzero) = (vzero, vzero).
Proof.
  intros H. assert (S3 : 0 < sqrt 3) by (apply sqrt_lt_R0; lra). assert (Q3 : sqrt 3 * sqrt 3 = 3) by (apply sqrt_sqrt; lra). split.
  - split; cbn [fst]; intros E; apply (f_equal vy) in E; cbn in E; lra.
  - unfold cr3bp_dyn, vzero. cbn [fst snd]. replace (sqrt ((1 / 2 - mu + mu) ^ 2 + (sqrt 3 / 2) ^ 2 + 0 ^ 2)) with 1.
    2:{ transitivity (sqrt 1); [symmetry; apply sqrt_1|]. f_equal. replace ((sqrt 3 / 2) ^ 2) with (sqrt 3 * sqrt 3 / 4) by field. rewrite Q3. field. }
    replace (sqrt ((1 / 2 - mu - (1 - mu)) ^ 2 + (sqrt 3 / 2) ^ 2 + 0 ^ 2)) with 1.
    2:{ transitivity (sqrt 1); [symmetry; apply sqrt_1|]. f_equal. replace ((sqrt 3 / 2) ^ 2) with (sqrt 3 * sqrt 3 / 4) by field. rewrite Q3. field. }
    f_equal. apply vec_eq; cbn [vx vy vz]; field.
Qed.

(** ** Stark *)
Lemma norm_zero_iff u : norm u = 0 <-> u = vzero.
Proof. split; [apply norm_zero|intros ->; apply norm_unique; [lra|unfold dot, vzero; cbn [vx vy vz]; ring]]. Qed.
Lemma stark_field mu veff u s : off_centre s -> veff <> 0 -> stark_dyn mu veff u s = thrust_field mu veff u s.
Proof.
  intros [N Nm] V0. destruct s as [[r v] m]. cbn [fst snd] in *. pose proof (norm_pos r N) as P.
  unfold stark_dyn, thrust_field. cbn [fst snd]. pose proof (rpow_neg32 r N) as RP. destruct r as [x y z], v as [a b c], u as [ux uy uz]. cbn [vx vy vz] in RP. rewrite RP.
  replace (sqrt (ux ^ 2 + uy ^ 2 + uz ^ 2)) with (norm (V ux uy uz)) by (rewrite norm_pow; reflexivity). unfold gravity.
  set (n := norm (V x y z)) in *. apply f_equal2; [apply f_equal; apply vec_eq; unfold vadd, vscal; cbn [vx vy vz]; field; lra|].
  destruct (Req_EM_T _ _) as [E|E]; [rewrite E; field; exact V0|reflexivity].
Qed.
Lemma leg_field max_thrust isp mu st th : get_state_derivative max_thrust isp mu st th = stark_dyn mu (isp * G0) (vscal max_thrust th) st.
Proof.
  destruct st as [[[x y z] [a b c]] m], th as [t1 t2 t3]. unfold get_state_derivative, stark_dyn, vscal. cbn [vx vy vz].
  replace (0 + x ^ 2 + y ^ 2 + z ^ 2) with (x ^ 2 + y ^ 2 + z ^ 2) by ring. rewrite !(Rmult_comm _ max_thrust).
  replace (0 + (max_thrust * t1) ^ 2 + (max_thrust * t2) ^ 2 + (max_thrust * t3) ^ 2) with ((max_thrust * t1) ^ 2 + (max_thrust * t2) ^ 2 + (max_thrust * t3) ^ 2) by ring. reflexivity.
Qed.
Section Stark.
Variables (mu veff : R) (u : vec) (lo hi : Rbar) (y : R -> state7).
Hypothesis V0 : veff <> 0.
Hypothesis S : solves7 (stark_dyn mu veff u) off_centre lo hi y.
Lemma stark_mass (t1 t2 : R) : Rbar_lt lo t1 -> Rbar_lt t1 hi -> Rbar_lt lo t2 -> Rbar_lt t2 hi -> snd (y t2) = snd (y t1) - norm u / veff * (t2 - t1).
Proof.
  intros A1 B1 A2 B2. assert (H : forall t : R, Rbar_lt lo t -> Rbar_lt t hi -> is_derive (fun t => snd (y t)) t (- norm u / veff)).
  { intros t A B. destruct (S t A B) as [O [_ D]]. rewrite (stark_field mu veff u _ O V0) in D. exact D. }
  pose proof (affine_between (fun t => snd (y t)) lo hi (- norm u / veff) H t1 t2 A1 B1 A2 B2) as E. cbv beta in E. unfold Rdiv in *. lra.
Qed.
(** energy grows at the rate thrust power over mass *)
Lemma stark_power (t : R) : Rbar_lt lo t -> Rbar_lt t hi -> is_derive (fun x => energy mu (fst (y x))) t (dot u (snd (fst (y t))) / snd (y t)) /\
  vderive (fun x => ang_mom (fst (y x))) t (vscal (/ snd (y t)) (cross (fst (fst (y t))) u)).
Proof.
  intros A B. destruct (S t A B) as [O [[D1 D2] _]]. rewrite (stark_field mu veff u _ O V0) in D1, D2. unfold thrust_field in D1, D2. cbn [fst snd] in D1, D2.
  destruct O as [N Nm]. pose proof (norm_pos _ N) as P. set (r := fst (fst (y t))) in *. set (v := snd (fst (y t))) in *. set (m := snd (y t)) in *. split.
  - pose proof (der_dot _ _ t _ _ D2 D2) as DV. pose proof (der_norm _ t _ D1 N) as DN. unfold energy.
    eapply der_to; [apply der_minus; [apply der_div; [exact DV|apply (der_const 2)|lra]|apply der_div; [apply (der_const mu)|exact DN|apply Rgt_not_eq; exact P]]|].
    cbv beta. change (fst (fst (y t))) with r. change (snd (fst (y t))) with v. unfold gravity. set (n := norm r) in *. unfold dot, vadd, vscal. cbn [vx vy vz]. field. lra.
  - unfold ang_mom. pose proof (vder_cross _ _ t _ _ D1 D2) as DC. eapply vder_eq; [exact DC|]. cbv beta. change (fst (fst (y t))) with r. change (snd (fst (y t))) with v. unfold gravity.
    apply vec_eq; unfold cross, vadd, vscal; cbn [vx vy vz]; ring.
Qed.
End Stark.
Lemma vconst_between (f : R -> vec) (lo hi : Rbar) : (forall t : R, Rbar_lt lo t -> Rbar_lt t hi -> vderive f t vzero) ->
  forall t1 t2 : R, Rbar_lt lo t1 -> Rbar_lt t1 hi -> Rbar_lt lo t2 -> Rbar_lt t2 hi -> f t1 = f t2.
Proof.
  intros H t1 t2 A1 B1 A2 B2. apply vec_eq; [apply (const_between (fun t => vx (f t)) lo hi)|apply (const_between (fun t => vy (f t)) lo hi)|apply (const_between (fun t => vz (f t)) lo hi)];
    try assumption; intros t A B; apply (H t A B).
Qed.
Lemma stark_ballistic mu veff lo hi y : veff <> 0 -> solves7 (stark_dyn mu veff vzero) off_centre lo hi y ->
  conserved (fun s => (energy mu (fst s), ang_mom (fst s), snd s)) lo hi y.
Proof.
  intros V0 S t1 t2 A1 B1 A2 B2. cbv beta. apply f_equal2; [apply f_equal2|].
  - apply (const_between (fun t => energy mu (fst (y t))) lo hi); try assumption. intros t A B. destruct (stark_power mu veff vzero lo hi y V0 S t A B) as [D _].
    eapply der_to; [exact D|]. unfold dot, vzero. cbn [vx vy vz]. unfold Rdiv. ring.
  - apply (vconst_between (fun t => ang_mom (fst (y t))) lo hi); try assumption. intros t A B. destruct (stark_power mu veff vzero lo hi y V0 S t A B) as [_ D].
    eapply vder_eq; [exact D|]. apply vec_eq; unfold vscal, cross, vzero; cbn [vx vy vz]; ring.
  - rewrite (stark_mass mu veff vzero lo hi y V0 S t1 t2 A1 B1 A2 B2). replace (norm vzero) with 0 by (symmetry; apply norm_zero_iff; reflexivity). unfold Rdiv. ring.
Qed.
Lemma stark_mass_decr mu veff u lo hi y (t1 t2 : R) : 0 < veff -> solves7 (stark_dyn mu veff u) off_centre lo hi y -> Rbar_lt lo t1 -> t1 <= t2 -> Rbar_lt t2 hi ->
  snd (y t2) <= snd (y t1).
Proof.
  intros V0 S A L B. rewrite (stark_mass mu veff u lo hi y) with (t1 := t1); try assumption; try lra.
  - assert (0 <= norm u / veff) by (apply Rdiv_le_0_compat; [apply norm_nonneg|exact V0]). assert (0 <= norm u / veff * (t2 - t1)) by (apply Rmult_le_pos; lra). lra.
  - apply Rbar_le_lt_trans with t2; [exact L|exact B].
  - apply Rbar_lt_le_trans with t1; [exact A|exact L].
Qed.
