(** * Property theorems: the printed reports (C74).  Only statements.  Real-number model. *)
From Coq Require Import Reals List ZArith String.
From Verif Require LambertRevsSpec.
From Verif Require Import Outcome Vec3 KepModel KepSpec TwoBodySpec TwoBodyModel SfModel KplaModel DirectModel DirectSpec DirectMain LambertSpec LambertMain MgaModel MgaSpec MgaFitModel MgaFitSpec MgaFitMain MgaRangeSpec ReportSpec ReportModel ReportProofs.
Import ListNotations.
Open Scope R_scope.

(** the report of a tour is printed exactly when the fitness returns, and its last line is the cost *)
Theorem C74_mga_total : forall name enc P x t0 T, (2 <= List.length (m_seq P))%nat -> durations (enc_of (m_tofs P)) x t0 T -> List.length T = n_legs P ->
  ((exists r, mga_pretty name enc P x = Ret r) <-> exists l, fitness P x = Ret l) /\
  forall r, mga_pretty name enc P x = Ret r -> exists c rest, fitness P x = Ret (c :: rest) /\ last r [] = [Txt "Total DV: "%string; Num c].
Proof. exact report_total. Qed.
Print Assumptions C74_mga_total.
(** every line of it is true of the tour: dates, velocities of the spacecraft, its velocity relative to the first planet, the burns (least at launch
    and fly-bys, C48) and their sum *)
Theorem C74_mga_tour : forall tol name enc P x t0 T dv rest, mga_ok P -> durations (enc_of (m_tofs P)) x t0 T -> List.length T = n_legs P -> all_within tol P t0 T -> fitness P x = Ret (Some dv :: rest) ->
  exists pl vo vi dl df da, tour (fun _ _ => tol) P t0 T pl vo vi /\ tour_burns P pl vo vi dl df da /\ dv = dl + total df + da /\ mga_pretty name enc P x = Ret (tour_report name enc P t0 T pl vo vi dl df da).
Proof. exact report_tour. Qed.
Print Assumptions C74_mga_tour.
(** in the range of C72 and C73 without an assumption on the iterations of the solver *)
Theorem C74_mga_range : forall tol name enc P x t0 T pl dv rest, mga_ok P -> 0 < common_mu P -> durations (enc_of (m_tofs P)) x t0 T -> List.length T = n_legs P ->
  (forall i, (i <= n_legs P)%nat -> b_eph (nth i (m_seq P) b0) (date t0 T i) = Ret (Some (pl i))) ->
  (forall i, (i < n_legs P)%nat -> in_range (common_mu P) (fst (pl i)) (fst (pl (S i))) (nth i T 0 * 86400) /\ 4 / 100000000 * (nth i T 0 * 86400) <= tol) -> fitness P x = Ret (Some dv :: rest) ->
  exists pl' vo vi dl df da, tour (fun _ _ => tol) P t0 T pl' vo vi /\ tour_burns P pl' vo vi dl df da /\ dv = dl + total df + da /\ mga_pretty name enc P x = Ret (tour_report name enc P t0 T pl' vo vi dl df da).
Proof. exact report_range. Qed.
Print Assumptions C74_mga_range.
(** a first leg that the solver loses (C70): the report says that the launch is free, whatever the leg needs *)
Theorem C74_lost_launch : forall name enc P x t0 T pl r, (2 <= List.length (m_seq P))%nat -> durations (enc_of (m_tofs P)) x t0 T -> List.length T = n_legs P ->
  (forall i, (i <= n_legs P)%nat -> b_eph (nth i (m_seq P) b0) (date t0 T i) = Ret (Some (pl i))) -> mga_pretty name enc P x = Ret r ->
  vz (cross (fst (pl 0%nat)) (fst (pl 1%nat))) <> 0 -> 40000 <= nth 0 T 0 * 86400 / time_unit (fst (pl 0%nat)) (fst (pl 1%nat)) (common_mu P) <= 1600000 ->
  In [Txt "Hyperbolic velocity: "%string; Num None; Txt "[m/s]"%string] r /\ In [Txt "Initial DV: "%string; Num (Some 0); Txt "[m/s]"%string] r /\ last r [] = [Txt "Total DV: "%string; Num None].
Proof. exact report_lost. Qed.
Print Assumptions C74_lost_launch.
(** False: that the initial burn of the report is what the launch needs.  The transfer exists and departs faster than the free velocity; the report says 0. *)
Theorem C74_free_refuted : exists name enc P x T pl v r, mga_ok P /\ in_box (get_bounds P) x /\ durations (enc_of (m_tofs P)) x 0 T /\
  (forall i, (i <= n_legs P)%nat -> b_eph (nth i (m_seq P) b0) (date 0 T i) = Ret (Some (pl i))) /\ LambertRevsSpec.transfer (common_mu P) (fst (pl 0%nat)) (fst (pl 1%nat)) (nth 0 T 0 * 86400) false 0 v /\ m_vinf P < norm (vsub v (snd (pl 0%nat))) /\
  mga_pretty name enc P x = Ret r /\ In [Txt "Initial DV: "%string; Num (Some 0); Txt "[m/s]"%string] r.
Proof. exact report_free_refuted. Qed.
Print Assumptions C74_free_refuted.
(** direct_pl2pl: the dates, the velocities relative to the planets, the final mass, and the leg that the fitness evaluates *)
Theorem C74_pl2pl : forall ep ns nf P z r, pl2pl_pretty ep ns nf P z = Ret (Some r) ->
  exists t0 t e0 e1 s f l, q_ephs P t0 = Ret (Some s) /\ q_ephf P (t0 + t) = Ret (Some f) /\ ep t0 = Ret e0 /\ ep (t0 + t) = Ret e1 /\
    fst (s_rvs l) = fst s /\ fst (s_rvf l) = fst f /\ s_tof l = t * 86400 /\ r = transfer_report ns nf e0 e1 t0 t s f l /\
    forall newton fit, pl2pl_fitness newton P z = Ret (Some fit) -> exists ceq, compute_mismatch_constraints newton l = Ret ceq /\
      firstn 8 fit = [- s_mf l / q_M P; vx (fst (fst ceq)) / q_L P; vy (fst (fst ceq)) / q_L P; vz (fst (fst ceq)) / q_L P; vx (snd (fst ceq)) / q_Vel P; vy (snd (fst ceq)) / q_Vel P; vz (snd (fst ceq)) / q_Vel P; snd ceq / q_M P].
Proof. exact report_pl2pl. Qed.
Print Assumptions C74_pl2pl.
(** it is printed whenever the fitness is a list of numbers and the dates can be printed *)
Theorem C74_pl2pl_total : forall newton ep ns nf P z fit, pl2pl_fitness newton P z = Ret (Some fit) -> (forall t, exists e, ep t = Ret e) -> exists r, pl2pl_pretty ep ns nf P z = Ret (Some r).
Proof. exact report_pl2pl_total. Qed.
Print Assumptions C74_pl2pl_total.
(** direct_point2point: the leg that the fitness evaluates *)
Theorem C74_p2p : forall P z r, p2p_pretty P z = Ret r -> exists l, r = [[LegText l]] /\ s_rvs l = p_rvs P /\ s_rvf l = p_rvf P /\
  forall newton fit, p2p_fitness newton P z = Ret (Some fit) -> exists ceq, compute_mismatch_constraints newton l = Ret ceq /\
      firstn 8 fit = [- s_mf l / p_M P; vx (fst (fst ceq)) / p_L P; vy (fst (fst ceq)) / p_L P; vz (fst (fst ceq)) / p_L P; vx (snd (fst ceq)) / p_Vel P; vy (snd (fst ceq)) / p_Vel P; vz (snd (fst ceq)) / p_Vel P; snd ceq / p_M P].
Proof. exact report_p2p. Qed.
Print Assumptions C74_p2p.
(** and it is printed whenever the fitness is a list of numbers *)
Theorem C74_p2p_total : forall newton P z fit, p2p_fitness newton P z = Ret (Some fit) -> exists r, p2p_pretty P z = Ret r.
Proof. exact report_p2p_total. Qed.
Print Assumptions C74_p2p_total.
(** Earth, Venus, Mars: the tour of C48_example *)
Example C74_example : let name i := nth i ["Earth"; "Venus"; "Mars"]%string ""%string in exists r, mga_pretty name "direct"%string ex_P ex_x = Ret r /\ List.length r = 18%nat /\
  nth 1 r [] = [Txt "Planet sequence: "%string; Names ["Earth"; "Venus"; "Mars"]%string] /\ nth 9 r [] = [Txt "Fly-by: "%string; Txt "Venus"%string] /\ nth 10 r [] = [Txt "Epoch: "%string; Num (Some (leg_time / 86400)); Txt " [mjd2000]"%string] /\
  last r [] = [Txt "Total DV: "%string; Num (Some (12 + 16 * sqrt 3))].
Proof. exact report_example. Qed.
Print Assumptions C74_example.
(** the transfers of C46_example and C47_example *)
Example C74_direct_example : forall newton, newton_ok newton -> newton_sound newton -> exists X r r', p2p_pretty (wit_p2p X) [exp (- (1 / 10)); -1; 0; 0; PI / 86400] = Ret r /\
  pl2pl_pretty (fun _ => Ret "a date"%string) "Earth"%string "Mars"%string (wit_pl (kpla_eph newton (ctor_state (PI / 86400) X 1))) wit_z = Ret (Some r') /\ List.length r' = 10%nat.
Proof. exact report_direct_example. Qed.
Print Assumptions C74_direct_example.
