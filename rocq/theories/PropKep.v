(** * Property theorems: anomalies (C08), Kepler's equation in m2e (C09), derivatives and Stumpff functions (C11).
    Only statements.  Real-number model; [newton_ok] describes Boost's bracketing Newton solver (exact root). *)
From Coq Require Import Reals Lra.
From Coquelicot Require Import Coquelicot.
From Verif Require Import Outcome RealLib KepModel KepSpec KepProofs AnomProofs.
Open Scope R_scope.

(** ** C08 *)
Theorem C08_ellipse : forall e E, 0 <= e < 1 -> one_turn E -> exists f, e2f E e = Some f /\ one_turn f /\ f2e f e = Some E /\ same_point_ellipse e E f.
Proof. exact ell_forward. Qed.
Print Assumptions C08_ellipse.
Theorem C08_ellipse_back : forall e f, 0 <= e < 1 -> one_turn f -> exists E, f2e f e = Some E /\ one_turn E /\ e2f E e = Some f.
Proof. exact ell_back. Qed.
Print Assumptions C08_ellipse_back.
Theorem C08_gudermannian : forall e z, 1 < e -> one_turn z -> exists f, zeta2f z e = Some f /\ one_turn f /\ f2zeta f e = Some z.
Proof. exact gud_forward. Qed.
Print Assumptions C08_gudermannian.
Theorem C08_gudermannian_back : forall e f, 1 < e -> one_turn f -> exists z, f2zeta f e = Some z /\ one_turn z /\ zeta2f z e = Some f.
Proof. exact gud_back. Qed.
Print Assumptions C08_gudermannian_back.
Theorem C08_gudermannian_is_hyperbolic : forall e z h f, 1 < e -> open_turn z -> tan (z / 2) = tanh (h / 2) -> (zeta2f z e = Some f <-> h2f h e = Some f).
Proof. exact gud_hyp. Qed.
Print Assumptions C08_gudermannian_is_hyperbolic.
Theorem C08_hyperbola : forall e, 1 < e -> forall h, exists f, h2f h e = Some f /\ inside_asymptotes e f /\ f2h f e = Some h /\ same_point_hyperbola e h f.
Proof. exact h2f_f2h. Qed.
Print Assumptions C08_hyperbola.
Theorem C08_hyperbola_back : forall e, 1 < e -> forall f, inside_asymptotes e f -> exists h, f2h f e = Some h /\ h2f h e = Some f.
Proof. exact f2h_h2f. Qed.
Print Assumptions C08_hyperbola_back.

(** mean to eccentric: total, inverse of e2m up to whole turns *)
Theorem C08_m2e : forall newton, newton_ok newton -> forall e M, 0 <= e < 1 ->
  exists E k, m2e newton M e = Ret (Some E) /\ - PI < E <= PI /\ e2m E e = Some (M + 2 * IZR k * PI).
Proof. exact m2e_turns. Qed.
Print Assumptions C08_m2e.
Theorem C08_m2e_back : forall newton, newton_ok newton -> forall e E k, 0 <= e < 1 -> - PI < E <= PI ->
  m2e newton (E - e * sin E + 2 * IZR k * PI) e = Ret (Some E).
Proof. exact m2e_of_e2m. Qed.
Print Assumptions C08_m2e_back.
Theorem C08_m2e_increasing : forall newton, newton_ok newton -> forall e M M' E E', 0 <= e < 1 -> - PI < M -> M < M' -> M' <= PI ->
  m2e newton M e = Ret (Some E) -> m2e newton M' e = Ret (Some E') -> E < E'.
Proof. exact m2e_lt. Qed.
Print Assumptions C08_m2e_increasing.
Theorem C08_m2e_odd : forall newton, newton_ok newton -> forall e M E E', 0 <= e < 1 -> - PI < M < PI ->
  m2e newton M e = Ret (Some E) -> m2e newton (- M) e = Ret (Some E') -> E' = - E.
Proof. exact m2e_odd. Qed.
Print Assumptions C08_m2e_odd.
Theorem C08_m2f : forall newton, newton_ok newton -> forall e M, 0 <= e < 1 -> - PI < M <= PI ->
  exists f, m2f newton M e = Ret (Some f) /\ - PI < f <= PI /\ f2m f e = Some M.
Proof. exact f2m_of_m2f. Qed.
Print Assumptions C08_m2f.
Theorem C08_m2f_back : forall newton, newton_ok newton -> forall e f k, 0 <= e < 1 -> - PI < f <= PI ->
  exists M, f2m f e = Some M /\ - PI < M <= PI /\ m2f newton (M + 2 * IZR k * PI) e = Ret (Some f).
Proof. exact m2f_of_f2m. Qed.
Print Assumptions C08_m2f_back.

(** strictly increasing and odd *)
Theorem C08_ellipse_monotone : forall e, 0 <= e < 1 ->
  increasing_on one_turn (fun E => e2f E e) /\ increasing_on one_turn (fun f => f2e f e) /\ increasing_on anywhere (fun E => e2m E e) /\
  increasing_on one_turn (fun f => f2m f e) /\
  odd_on open_turn (fun E => e2f E e) /\ odd_on open_turn (fun f => f2e f e) /\ odd_on anywhere (fun E => e2m E e) /\ odd_on open_turn (fun f => f2m f e).
Proof. exact ell_monotone. Qed.
Print Assumptions C08_ellipse_monotone.
Theorem C08_hyperbola_monotone : forall e, 1 < e ->
  increasing_on one_turn (fun z => zeta2f z e) /\ increasing_on one_turn (fun f => f2zeta f e) /\ increasing_on anywhere (fun h => h2f h e) /\
  increasing_on (inside_asymptotes e) (fun f => f2h f e) /\ increasing_on anywhere (fun h => h2n h e) /\ increasing_on (inside_asymptotes e) (fun f => f2n f e) /\
  odd_on open_turn (fun z => zeta2f z e) /\ odd_on open_turn (fun f => f2zeta f e) /\ odd_on anywhere (fun h => h2f h e) /\
  odd_on (inside_asymptotes e) (fun f => f2h f e) /\ odd_on anywhere (fun h => h2n h e) /\ odd_on (inside_asymptotes e) (fun f => f2n f e).
Proof. exact hyp_monotone. Qed.
Print Assumptions C08_hyperbola_monotone.

(** the wrong regime gives NaN *)
Theorem C08_wrong_regime : forall newton e x,
  (1 <= e -> e2m x e = None /\ e2f x e = None /\ f2e x e = None /\ f2m x e = None /\ m2e newton x e = Ret None /\ m2f newton x e = Ret None) /\
  (e <= 1 -> zeta2f x e = None /\ f2zeta x e = None /\ h2n x e = None /\ h2f x e = None /\ f2h x e = None /\ f2n x e = None /\ n2h newton x e = Ret None /\ n2f newton x e = Ret None).
Proof. exact nan_regime. Qed.
Print Assumptions C08_wrong_regime.

(** Full statement for the hyperbolic mean anomaly: the same without the bound on N.  It is false: C08_n2h_refuted. *)
Theorem C08_n2h_partial : forall newton e, newton_ok newton -> 1 < e ->
  (forall N, Rabs N <= 10 ^ 17 -> exists h, n2h newton N e = Ret (Some h) /\ h2n h e = Some N) /\
  (forall h N, h2n h e = Some N -> Rabs N <= 10 ^ 17 -> n2h newton N e = Ret (Some h)) /\
  (forall N, Rabs N <= 10 ^ 17 -> exists f, n2f newton N e = Ret (Some f) /\ inside_asymptotes e f /\ f2n f e = Some N) /\
  (forall f N, inside_asymptotes e f -> f2n f e = Some N -> Rabs N <= 10 ^ 17 -> n2f newton N e = Ret (Some f)).
Proof. exact n2h_round. Qed.
Print Assumptions C08_n2h_partial.
(** for every eccentricity some mean anomaly has its solution outside the bracket [1 - 20 pi, 1 + 20 pi]; no solver that
    stays inside its bracket returns it *)
Theorem C08_n2h_refuted : forall e, 1 < e -> exists N, (exists h, h2n h e = Some N) /\
  (forall h, 1 - 20 * PI <= h <= 1 + 20 * PI -> kepH h N e <> 0) /\
  forall newton, (forall f g lo hi x, newton f g lo hi = Some x -> lo <= x <= hi) -> forall h, n2h newton N e = Ret (Some h) -> h2n h e <> Some N.
Proof. exact n2h_unreachable. Qed.
Print Assumptions C08_n2h_refuted.

(** the solver assumption is satisfiable *)
Example C08_newton_exists : newton_ok sup_root. Proof. exact sup_root_ok. Qed.
(** eccentricity 1/2: E = pi/2 is the true anomaly with cosine -1/2 *)
Example C08_nontrivial : exists f, e2f (PI / 2) (1 / 2) = Some f /\ cos f = - (1 / 2) /\ f2e f (1 / 2) = Some (PI / 2).
Proof.
  pose proof PI_RGT_0. destruct (ell_forward (1 / 2) (PI / 2)) as [f [E [_ [F [C _]]]]]; [lra|unfold one_turn; lra|].
  exists f. split; [exact E|]. split; [|exact F]. rewrite cos_PI2 in C. lra.
Qed.

(** ** C09 *)
Theorem C09_bracket : forall e M, 0 <= e < 1 -> let Mc := atan2 (sin M) (cos M) in let IG := m2e_guess Mc (sin M) (cos M) e in
  bracketed (fun E => kepE E Mc e) (IG - PI) (IG + PI) /\ (exists k : Z, Mc = M + 2 * IZR k * PI).
Proof. exact m2e_bracket. Qed.
Print Assumptions C09_bracket.
Example C09_nontrivial : forall M, exists E, kepE E (atan2 (sin M) (cos M)) (99 / 100) = 0.
Proof. intros M. destruct (m2e_bracket (99 / 100) M ltac:(lra)) as [[_ [x [_ [X _]]]] _]. exists x. exact X. Qed.

(** ** C11 *)
Theorem C11_kepE : forall M ecc, first_derivative (fun E => kepE E M ecc) (fun E => d_kepE E ecc) /\ first_derivative (fun E => d_kepE E ecc) (fun E => dd_kepE E ecc).
Proof. exact der_kepE. Qed.
Print Assumptions C11_kepE.
Theorem C11_kepH : forall M ecc, first_derivative (fun H => kepH H M ecc) (fun H => d_kepH H ecc) /\ first_derivative (fun H => d_kepH H ecc) (fun H => dd_kepH H ecc).
Proof. exact der_kepH. Qed.
Print Assumptions C11_kepH.
Theorem C11_kepDE : forall DM s q a r, first_derivative (fun E => kepDE E DM s q a r) (fun E => d_kepDE E s q a r) /\ first_derivative (fun E => d_kepDE E s q a r) (fun E => dd_kepDE E s q a r).
Proof. exact der_kepDE. Qed.
Print Assumptions C11_kepDE.
Theorem C11_kepDH : forall DN s q a r, first_derivative (fun E => kepDH E DN s q a r) (fun E => d_kepDH E s q a r) /\ first_derivative (fun E => d_kepDH E s q a r) (fun E => dd_kepDH E s q a r).
Proof. exact der_kepDH. Qed.
Print Assumptions C11_kepDH.
Theorem C11_kepDS : forall DT r0 vr0 al mu, first_derivative (fun s => kepDS s DT r0 vr0 al mu) (fun s => d_kepDS s r0 vr0 al mu).
Proof. exact der_kepDS. Qed.
Print Assumptions C11_kepDS.
(** the second derivative of kepDS is wrong (at DS = 0, unless alpha r0 = 1) *)
Theorem C11_dd_kepDS_refuted : forall r0 vr0 al mu, al * r0 <> 1 -> ~ is_derive (fun s => d_kepDS s r0 vr0 al mu) 0 (dd_kepDS 0 r0 vr0 al mu).
Proof. exact dd_kepDS_wrong. Qed.
Print Assumptions C11_dd_kepDS_refuted.
Theorem C11_stumpff_c : forall x, is_pseries stumpff_c_coef x (stumpff_c x).
Proof. exact stumpff_c_series. Qed.
Print Assumptions C11_stumpff_c.
Theorem C11_stumpff_s : forall x, is_pseries stumpff_s_coef x (stumpff_s x).
Proof. exact stumpff_s_series. Qed.
Print Assumptions C11_stumpff_s.
Example C11_nontrivial : stumpff_c (PI * PI) = 2 / (PI * PI) /\ d_kepE PI (1 / 2) = 3 / 2.
Proof.
  pose proof PI_RGT_0 as P. unfold stumpff_c, d_kepE. destruct (Rlt_dec 0 (PI * PI)) as [_|N]; [|exfalso; apply N; nra].
  rewrite sqrt_square by lra. rewrite cos_PI. split; lra.
Qed.
