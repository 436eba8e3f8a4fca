(** * Property theorems: Lambert's problem (C22-C25).  Only statements.
    [u32] is 2^32; [N] below is the number of complete revolutions of entry i: 0, 1, 1, 2, 2, ... *)
From Coq Require Import Reals ZArith List.
From Coquelicot Require Import Coquelicot.
From Verif Require Import Outcome Vec3 TwoBodySpec LambertModel LambertReal LambertProofs LambertSpec LambertVec LambertTof LambertDer LambertMono LambertMain LambertCoincident.
Import ListNotations.
Open Scope R_scope.

(** ** C22: whatever the arithmetic and the mathematical library do *)
Theorem C22_shape : forall (F : Type) (O : arith F) r0 r1 tof mu cw mr L, u32_ok O -> (0 <= mr < u32)%Z -> lambert O r0 r1 tof mu cw mr = Ret L ->
  (exists q, f_u32 O (f_div O (nd_time O (l_s L) mu tof) (f_pi O)) = Ret q /\ (0 <= l_nmax L <= mr)%Z /\ (l_nmax L <= q)%Z /\ (Z.min mr q - 1 <= l_nmax L)%Z) /\
  Z.of_nat (length (l_v0 L)) = (2 * l_nmax L + 1)%Z /\ Z.of_nat (length (l_v1 L)) = (2 * l_nmax L + 1)%Z /\ Z.of_nat (length (l_x L)) = (2 * l_nmax L + 1)%Z /\ Z.of_nat (length (l_iters L)) = (2 * l_nmax L + 1)%Z /\
  List.Forall (fun k => (0 <= k <= 15)%Z) (l_iters L).
Proof. exact (fun F O => @lambert_shape F O). Qed.
Print Assumptions C22_shape.
(** undefined behaviour can only come from the conversion of T / pi or from the counter of the hypergeometric series: no index is
    ever out of range, no loop runs out of its bound *)
Theorem C22_no_bad_index : forall (F : Type) (O : arith F) r0 r1 tof mu cw mr, u32_ok O -> (0 <= mr < u32)%Z -> lambert O r0 r1 tof mu cw mr = UB ->
  f_u32 O (f_div O (nd_time O (semi O r0 r1) mu tof) (f_pi O)) = UB \/ exists z, hypergeometricF O z (f_lit O 1 100000000000) = UB.
Proof. exact (fun F O => @lambert_ub F O). Qed.
Print Assumptions C22_no_bad_index.
(** Halley's loop evaluates the time of flight at most 13 times *)
Theorem C22_halley : forall (F : Type) (O : arith F) lam Nmax x_old x_new T_min,
  (exists r, halley O lam 14 Nmax 0 x_old x_new T_min = Ret r /\ (0 <= snd r <= 13)%Z) \/ (halley O lam 14 Nmax 0 x_old x_new T_min = UB /\ exists x, x2tof O lam x Nmax = UB).
Proof. exact (fun F O => @halley_run F O). Qed.
Print Assumptions C22_halley.
Theorem C22_householder : forall (F : Type) (O : arith F) lam T x0 N eps n,
  (exists r, householder O lam T x0 N eps n = Ret r /\ (0 <= snd r <= Z.of_nat n)%Z) \/ (householder O lam T x0 N eps n = UB /\ exists x, x2tof O lam x N = UB).
Proof. exact (fun F O => @householder_cases F O). Qed.
Print Assumptions C22_householder.
(** every entry is the end of a Householder run with its number of revolutions, as long as Nmax + 1 does not wrap *)
Theorem C22_entries : forall (F : Type) (O : arith F) r0 r1 tof mu cw mr L dx di, u32_ok O -> (0 <= mr < u32)%Z -> lambert O r0 r1 tof mu cw mr = Ret L ->
  let T := nd_time O (l_s L) mu tof in
  (exists g, householder O (l_lambda L) T g 0 (f_lit O 1 100000) 15 = Ret (nth 0 (l_x L) dx, nth 0 (l_iters L) di)) /\
  ((l_nmax L + 1 < u32)%Z -> forall k, (1 <= k <= 2 * l_nmax L)%Z -> exists g, householder O (l_lambda L) T g ((k + 1) / 2)%Z (f_lit O 1 100000000) 15 = Ret (nth (Z.to_nat k) (l_x L) dx, nth (Z.to_nat k) (l_iters L) di)) /\
  ((l_nmax L + 1 = u32)%Z -> forall k, (1 <= k <= 2 * l_nmax L)%Z -> nth (Z.to_nat k) (l_x L) dx = nat_ O 0 /\ nth (Z.to_nat k) (l_iters L) di = 0%Z).
Proof. exact (fun F O => @lambert_entries F O). Qed.
Print Assumptions C22_entries.
(** over the real numbers the result exists unless T / pi does not fit an unsigned int *)
Theorem C22_real : forall r0 r1 tof mu cw mr, vz (cross r0 r1) <> 0 -> 0 < tof -> 0 < mu -> (0 <= mr < u32)%Z ->
  (tof / time_unit r0 r1 mu / PI < IZR u32 -> exists L, lambert_r r0 r1 tof mu cw mr = Ret L) /\ (IZR u32 <= tof / time_unit r0 r1 mu / PI -> lambert_r r0 r1 tof mu cw mr = UB).
Proof. exact lambert_run. Qed.
Print Assumptions C22_real.
Theorem C22_real_arithmetic : u32_ok real_arith.
Proof. exact r_u32_ok. Qed.
Print Assumptions C22_real_arithmetic.
(** False: that the loop bound Nmax + 1 never wraps.  With multi_revs = 2^32 - 1 and as many feasible revolutions no
    multi-revolution solution is computed, and 2 (2^32 - 1) entries stay at x = 0. *)
Theorem C22_wrap_refuted : exists r0 r1 tof mu L, lambert_r r0 r1 tof mu false (u32 - 1) = Ret L /\ l_nmax L = (u32 - 1)%Z /\
  forall k, (1 <= k <= 2 * l_nmax L)%Z -> nth (Z.to_nat k) (l_x L) None = Some 0 /\ nth (Z.to_nat k) (l_iters L) 0%Z = 0%Z.
Proof. exact wrap_refuted. Qed.
Print Assumptions C22_wrap_refuted.
Example C22_example : exists L v0 v1, lambert_r ex_r0 ex_r1 (PI / 3 + sqrt 3 / 4) 32000 false 5 = Ret L /\ l_nmax L = 0%Z /\ l_x L = [Some 0] /\ l_v0 L = [sv v0] /\ l_v1 L = [sv v1] /\
  flow_at 32000 (ex_r0, v0) (PI / 3 + sqrt 3 / 4) (ex_r1, v1) /\ energy 32000 (ex_r0, v0) = - 800.
Proof. exact ex_solution. Qed.

(** ** C23: for every number x in the result, converged or not *)
Theorem C23_conic : forall r0 r1 tof mu cw mr L i x, vz (cross r0 r1) <> 0 -> lambert_r r0 r1 tof mu cw mr = Ret L -> nth_error (l_x L) i = Some (Some x) ->
  exists v0 v1, nth_error (l_v0 L) i = Some (sv v0) /\ nth_error (l_v1 L) i = Some (sv v1) /\ same_integrals mu (r0, v0) (r1, v1) /\
    energy mu (r0, v0) = - mu * (1 - x * x) / semiperimeter r0 r1 /\ 0 < (if cw then -1 else 1) * vz (ang_mom (r0, v0)).
Proof. exact lambert_conic. Qed.
Print Assumptions C23_conic.

(** ** C24 *)
(** the motion from (r0, v0) is in (r1, v1) after tau(x) time units *)
Theorem C24_flow : forall r0 r1 tof mu cw mr L i x, vz (cross r0 r1) <> 0 -> lambert_r r0 r1 tof mu cw mr = Ret L -> nth_error (l_x L) i = Some (Some x) ->
  let N := ((Z.of_nat i + 1) / 2)%Z in -1 < x -> (1 <= x -> N = 0%Z) ->
  exists v0 v1, nth_error (l_v0 L) i = Some (sv v0) /\ nth_error (l_v1 L) i = Some (sv v1) /\
    flow_at mu (r0, v0) (tau (transfer_lambda r0 r1 cw) N x * time_unit r0 r1 mu) (r1, v1).
Proof. exact lambert_flow. Qed.
Print Assumptions C24_flow.
(** if x solves the equation that the code evaluates, the transfer takes tof: up to the truncation of the series at 1e-11 when
    |x - 1| < 0.01, exactly otherwise *)
Theorem C24_solves : forall r0 r1 tof mu cw mr L i x, vz (cross r0 r1) <> 0 -> lambert_r r0 r1 tof mu cw mr = Ret L -> nth_error (l_x L) i = Some (Some x) ->
  let N := ((Z.of_nat i + 1) / 2)%Z in -1 < x -> (1 < x -> N = 0%Z) ->
  x2tof RA (l_lambda L) (Some x) N = Ret (nd_time RA (l_s L) (Some mu) (Some tof)) ->
  exists v0 v1 t, nth_error (l_v0 L) i = Some (sv v0) /\ nth_error (l_v1 L) i = Some (sv v1) /\ flow_at mu (r0, v0) t (r1, v1) /\
    Rabs (t - tof) <= 3 / 1000000000000 * time_unit r0 r1 mu /\ (1 / 100 <= Rabs (x - 1) -> t = tof).
Proof. exact lambert_solves. Qed.
Print Assumptions C24_solves.
(** the three formulas of the code agree with the time of flight; the parabola itself has no value *)
Theorem C24_time : forall lam, lam * lam < 1 -> forall x N, -1 < x -> x <> 1 -> (1 < x -> N = 0%Z) ->
  exists t, x2tof RA (Some lam) (Some x) N = Ret (Some t) /\ Rabs (t - tau lam N x) <= 3 / 1000000000000 /\ (1 / 100 <= Rabs (x - 1) -> t = tau lam N x).
Proof. exact x2tof_tau. Qed.
Print Assumptions C24_time.
(** dTdx returns the first three derivatives *)
Theorem C24_derivatives : forall lam, lam * lam < 1 -> forall N x, -1 < x -> x <> 1 -> exists f1 f2 f3 : R -> R,
  dTdx RA (Some lam) (Some x) (Some (tau lam N x)) = (Some (f1 x), Some (f2 x), Some (f3 x)) /\
  (forall t, -1 < t -> t <> 1 -> is_derive (tau lam N) t (f1 t) /\ is_derive f1 t (f2 t) /\ is_derive f2 t (f3 t)).
Proof. exact code_derivatives. Qed.
Print Assumptions C24_derivatives.
(** entry i makes N complete revolutions *)
Theorem C24_turns : forall r0 r1 tof mu cw mr L i x, vz (cross r0 r1) <> 0 -> lambert_r r0 r1 tof mu cw mr = Ret L -> nth_error (l_x L) i = Some (Some x) ->
  let N := ((Z.of_nat i + 1) / 2)%Z in -1 < x < 1 ->
  exists v0 v1 t, nth_error (l_v0 L) i = Some (sv v0) /\ nth_error (l_v1 L) i = Some (sv v1) /\ flow_at mu (r0, v0) t (r1, v1) /\ IZR N * period mu (r0, v0) < t < (IZR N + 1) * period mu (r0, v0).
Proof. exact lambert_turns. Qed.
Print Assumptions C24_turns.
(** exactly one solution without complete revolutions *)
Theorem C24_unique : forall lam, lam * lam < 1 -> forall T, 0 < T -> exists x, (-1 < x /\ tau lam 0 x = T) /\ forall x', -1 < x' -> tau lam 0 x' = T -> x' = x.
Proof. exact tau_solution0. Qed.
Print Assumptions C24_unique.
(** with N >= 1: two solutions above the minimum of the curve, on its two branches *)
Theorem C24_branches : forall lam, lam * lam < 1 -> forall N, (1 <= N)%Z -> exists xm, 0 < xm < 1 /\
  (forall a b, -1 < a -> a < b -> b <= xm -> tau lam N b < tau lam N a) /\ (forall a b, xm <= a -> a < b -> b < 1 -> tau lam N a < tau lam N b) /\
  (forall T, tau lam N xm < T -> exists a b, -1 < a < xm /\ xm < b < 1 /\ tau lam N a = T /\ tau lam N b = T /\ forall x, -1 < x < 1 -> tau lam N x = T -> x = a \/ x = b) /\
  (forall x, -1 < x < 1 -> tau lam N xm <= tau lam N x).
Proof. exact tau_branches. Qed.
Print Assumptions C24_branches.
(** the first estimate floor(T / pi) of the number of revolutions is right or one too large *)
Theorem C24_revolutions : forall lam N T, lam * lam < 1 -> (1 <= N)%Z -> (IZR N + 1) * PI <= T -> exists a b, -1 < a < b /\ b < 1 /\ tau lam N a = T /\ tau lam N b = T /\ forall x, -1 < x < 1 -> tau lam N x = T -> x = a \/ x = b.
Proof. exact revs_feasible. Qed.
Print Assumptions C24_revolutions.
Theorem C24_no_more_revolutions : forall lam N T x, lam * lam < 1 -> (0 <= N)%Z -> T <= IZR N * PI -> -1 < x < 1 -> tau lam N x <> T.
Proof. exact revs_infeasible. Qed.
Print Assumptions C24_no_more_revolutions.
(** an exact solution is a fixed point of the iteration *)
Theorem C24_fixed_point : forall lam x T N eps n, lam * lam < 1 -> x * x <> 1 -> x2tof RA (Some lam) (Some x) N = Ret (Some T) -> D1 lam T x <> 0 -> 0 <= eps < 1 ->
  householder RA (Some lam) (Some T) (Some x) N (Some eps) (Datatypes.S n) = Ret (Some x, 1%Z).
Proof. exact householder_fixed. Qed.
Print Assumptions C24_fixed_point.
(** for one time of flight the solver is exact: the ellipse of least energy *)
Theorem C24_minimum_energy : forall r0 r1 mu cw mr, vz (cross r0 r1) <> 0 -> 0 < mu -> (0 <= mr < u32)%Z -> let tof := tau (transfer_lambda r0 r1 cw) 0 0 * time_unit r0 r1 mu in
  exists L, lambert_r r0 r1 tof mu cw mr = Ret L /\ l_nmax L = 0%Z /\ l_x L = [Some 0] /\ l_iters L = [1%Z].
Proof. exact lambert_min_energy. Qed.
Print Assumptions C24_minimum_energy.

(** ** C25 *)
Theorem C25_rejects : forall r0 r1 tof mu cw mr, (0 <= mr < u32)%Z ->
  (lambert_r r0 r1 tof mu cw mr = Throw DomainError <-> tof <= 0 \/ mu <= 0 \/ (cross r0 r1 <> vzero /\ vz (cross r0 r1) = 0)) /\ (forall e, lambert_r r0 r1 tof mu cw mr = Throw e -> e = DomainError).
Proof. exact lambert_rejects. Qed.
Print Assumptions C25_rejects.
(** in every arithmetic: nothing else is rejected *)
Theorem C25_throws : forall (F : Type) (O : arith F) r0 r1 tof mu cw mr e, u32_ok O -> (forall x e', f_u32 O x <> Throw e') -> (0 <= mr < u32)%Z -> lambert O r0 r1 tof mu cw mr = Throw e ->
  e = DomainError /\ (f_le O tof (nat_ O 0) = true \/ f_le O mu (nat_ O 0) = true \/ LambertModel.f_eq O (v3z (plane O r0 r1)) (nat_ O 0) = true).
Proof. exact (fun F O => @lambert_throws F O). Qed.
Print Assumptions C25_throws.
(** False: that configurations without a transfer plane are rejected.  Collinear positions, equal ones included, pass the
    test, since the normal is NaN, and every velocity is NaN. *)
Theorem C25_collinear : forall r0 r1 tof mu cw mr, cross r0 r1 = vzero -> r0 <> vzero -> r1 <> vzero -> 0 < tof -> 0 < mu -> (0 <= mr < u32)%Z -> tof / time_unit r0 r1 mu / PI < IZR u32 ->
  exists L, lambert_r r0 r1 tof mu cw mr = Ret L /\ l_v0 L <> [] /\ List.Forall (fun v => v = nan3) (l_v0 L) /\ List.Forall (fun v => v = nan3) (l_v1 L).
Proof. exact lambert_coincident. Qed.
Print Assumptions C25_collinear.
(** for positions away from the attracting body the constructor has just these outcomes *)
Theorem C25_total : forall r0 r1 tof mu cw mr, r0 <> vzero -> r1 <> vzero -> 0 < tof -> 0 < mu -> (0 <= mr < u32)%Z -> tof / time_unit r0 r1 mu / PI < IZR u32 ->
  (vz (cross r0 r1) = 0 /\ cross r0 r1 <> vzero /\ lambert_r r0 r1 tof mu cw mr = Throw DomainError) \/
  ((vz (cross r0 r1) <> 0 \/ cross r0 r1 = vzero) /\ exists L, lambert_r r0 r1 tof mu cw mr = Ret L /\ l_v0 L <> [] /\ l_v1 L <> []).
Proof. exact lambert_total. Qed.
Print Assumptions C25_total.
Theorem C25_collinear_refuted : exists L, lambert_r (V 1 0 0) (V 2 0 0) 1 1 false 0 = Ret L /\ l_v0 L = [nan3] /\ l_v1 L = [nan3].
Proof. exact ex_collinear. Qed.
Print Assumptions C25_collinear_refuted.
(** False: that no NaN is returned when a transfer plane exists.  When T equals the parabolic time exactly, the first guess is
    x = 1, where the time of flight formula is 0 / 0. *)
Theorem C25_parabola : forall r0 r1 tof mu cw mr, vz (cross r0 r1) <> 0 -> 0 < mu -> (0 <= mr < u32)%Z -> tof = tau (transfer_lambda r0 r1 cw) 0 1 * time_unit r0 r1 mu ->
  exists L, lambert_r r0 r1 tof mu cw mr = Ret L /\ nth_error (l_x L) 0 = Some None /\ nth_error (l_v0 L) 0 = Some nan3 /\ nth_error (l_v1 L) 0 = Some nan3.
Proof. exact lambert_parabola. Qed.
Print Assumptions C25_parabola.
Theorem C25_parabola_refuted : exists L, lambert_r ex_r0 ex_r1 (7 / 12) 32000 false 0 = Ret L /\ l_nmax L = 0%Z /\ l_v0 L = [nan3] /\ l_v1 L = [nan3].
Proof. exact ex_parabola. Qed.
Print Assumptions C25_parabola_refuted.
Example C25_example : lambert_r ex_r0 ex_r1 0 1 false 0 = Throw DomainError.
Proof. exact ex_reject. Qed.
