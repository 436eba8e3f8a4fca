(** * Gradients of the planet-to-planet problem *)
From Coq Require Import Reals Lra Lia ZArith Bool.
From Coquelicot Require Import Coquelicot.
From Coq Require Import List.
From Verif Require Import Outcome PartialReal RealLib KepSpec Vec3 TwoBodyModel TwoBodySpec TwoBodyProofs FlowMain TcModel TcSpec MgaSpec DynModel KplaModel KplaProofs StmProofs StmMain SfModel SfSpec SfGrad SfMain SfJac DirectModel DirectSpec SparseLib DirectProofs DirectPl.
Import ListNotations.
Open Scope R_scope.

Lemma off_0 mu h s : off mu (vscal (86400 * h) (snd s), vscal (86400 * h) (gravity mu (fst s))) h s = (vzero, vzero).
Proof. unfold off, vsub, vzero. cbn [fst snd]. f_equal; f_equal; ring. Qed.
Lemma pl_corr_0 P A B i : pl_corr P A B (vzero, vzero) (vzero, vzero) i = 0.
Proof. unfold pl_corr. destruct i as [|k]; [reflexivity|]. destruct (Nat.ltb k 6); [|reflexivity]. rewrite !row_zero. unfold Rdiv. ring. Qed.
Lemma vder_chain (f : R -> vec) (g : R -> R) x v l : is_derive g x l -> vderive f (g x) v -> vderive (fun e => f (g e)) x (vscal l v).
Proof.
  intros D [A [B C]]. split; [|split]; cbn [vscal vx vy vz].
  - eapply der_to; [apply (der_comp (fun t => vx (f t)) g _ _ _ A D)|]. ring.
  - eapply der_to; [apply (der_comp (fun t => vy (f t)) g _ _ _ B D)|]. ring.
  - eapply der_to; [apply (der_comp (fun t => vz (f t)) g _ _ _ C D)|]. ring.
Qed.
Lemma vscal_vscal a b v : vscal a (vscal b v) = vscal (b * a) v. Proof. unfold vscal. cbn. f_equal; ring. Qed.
(** a planet along a curve of dates *)
Lemma eph_curve eph t v a g h : eph_moves eph t v a -> g 0 = t -> is_derive g 0 h -> exists c, near (fun e => eph (g e) = Ret (Some (c e))) /\ sderive c 0 (vscal (86400 * h) v, vscal (86400 * h) a).
Proof.
  intros [c [eps [E0 [Ec [D1 D2]]]]] G0 D. exists (fun e => c (g e)). split.
  - assert (N1 : near (fun e => t - eps < g e)) by (apply (near_gt _ _ _ D); lra).
    assert (N2 : near (fun e => - t - eps < - g e)) by (apply (near_gt _ _ _ (der_opp _ _ _ D)); lra).
    apply (near_imp _ _ (near_and _ _ N1 N2)). intros e [A B]. apply Ec. apply Rabs_def1; lra.
  - split; cbn [fst snd] in *; rewrite <- vscal_vscal; [apply (vder_chain (fun u => fst (c u)) g)|apply (vder_chain (fun u => snd (c u)) g)]; try exact D; rewrite G0; assumption.
Qed.

Theorem pl2pl_gradient_kepler newton P z f0 g : newton_sound newton -> pl2pl_ok P -> pl2pl_value any_arc P z f0 -> pl2pl_gradient newton P z = Ret (Some g) ->
  eph_keplerian (q_mu P) (q_ephs P) (nth 0 z 0) -> eph_keplerian (q_mu P) (q_ephf P) (nth 0 z 0 + last z 0) ->
  sparse_jacobian (pl2pl_value any_arc P) z f0 (pl2pl_sparsity P) g.
Proof.
  intros NS K [t0 [mf [us [uf [th [tof [s [f [y [Ez [L [Mf [Tf [S [F [Y Ef]]]]]]]]]]]]]]]] H KS KF. fold (pl_vec t0 mf us uf th tof) in Ez. rewrite Ez in H.
  destruct (pl_gradient_some newton P t0 mf us uf th tof s f g K L Tf S F H) as [Zs [Zf [A [B [G GR]]]]].
  rewrite (pl_gradient_cases newton P t0 mf us uf th tof s f _ K L Tf S F GR Zs Zf) in H.
  assert (Eg : g = bval (map (pl_block P A B G s f us uf th) (seq 0 (8 + q_nseg P + 2)))) by (injection H as <-; reflexivity). clear H. rewrite Eg. clear Eg g.
  rewrite (pl_pat P A B G s f us uf th). set (n := q_nseg P) in *. set (mk := pl_block P A B G s f us uf th).
  pose proof (pl_f0_len P mf us uf th y) as Lf. fold n in Lf. rewrite <- Ef in Lf. pose proof (pl_z_len P t0 mf us uf th tof L) as Lz. rewrite <- Ez in Lz. fold n in Lz.
  pose proof (pl_blocks newton P t0 mf us uf th tof s f y A B G NS K L Mf Tf Y GR) as BL. rewrite <- Ez in BL. fold n mk in BL.
  destruct (seq_blocks mk (8 + n + 2) (length z) BL) as [S1 [S2 S3]]. split; [exact S1|]. split; [exact S2|]. split; [intros i j Q; rewrite Lf; apply S3, Q|].
  intros c d _ C0 Lc D.
  assert (Zt0 : nth 0 z 0 = t0) by (rewrite Ez; reflexivity). assert (Ztof : last z 0 = tof) by (rewrite Ez; unfold pl_vec; rewrite app_assoc; apply last_last).
  destruct (parts_at 8 (3 * n) [t0; mf; vx us; vy us; vz us; vx uf; vy uf; vz uf] th tof z Ez eq_refl L) as [_ [_ Zn]].
  rewrite Zt0, Ztof in *. destruct KS as [s' [S' [_ MS]]]. destruct KF as [f' [F' [_ MF]]]. rewrite S in S'. injection S' as <-. rewrite F in F'. injection F' as <-.
  pose proof (proj2 D 0%nat) as D0. pose proof (proj2 D (8 + 3 * n)%nat) as Dn. pose proof (der_plus _ _ _ _ _ D0 Dn) as D1.
  destruct (eph_curve _ _ _ _ (fun e => nth 0 (c e) 0) _ MS ltac:(cbv beta; rewrite C0; exact Zt0) D0) as [cs [Ns Ds]].
  destruct (eph_curve _ _ _ _ (fun e => nth 0 (c e) 0 + nth (8 + 3 * n) (c e) 0) _ MF ltac:(cbv beta; rewrite C0, Zt0, Zn; reflexivity) D1) as [cf [Nf Df]].
  assert (E1 : cs 0 = s). { pose proof (near_at _ Ns) as Q. cbv beta in Q. rewrite C0, Zt0, S in Q. injection Q as <-. reflexivity. }
  assert (E2 : cf 0 = f). { pose proof (near_at _ Nf) as Q. cbv beta in Q. rewrite C0, Zt0, Zn, F in Q. injection Q as <-. reflexivity. }
  rewrite Ez in C0, Lc.
  destruct (pl_core newton P t0 mf us uf th tof s f y A B G NS K L Mf Tf Y GR c d cs cf _ _ C0 Lc D E1 E2 Ds Df Ns Nf) as [Fc [eps [E0 [Fc0 [Fv Fd]]]]].
  exists Fc, eps. split; [exact E0|]. split; [rewrite Fc0; symmetry; exact Ef|]. split; [exact Fv|]. intros i Hi. rewrite Lf in Hi.
  rewrite (entry_seq mk (8 + n + 2) d i) by (try exact Hi; intros k Hk; destruct (BL k Hk) as [Q1 [Q2 _]]; split; assumption).
  eapply der_to; [apply (Fd i Hi)|]. fold n mk. rewrite !off_0, pl_corr_0. ring.
Qed.
Theorem pl2pl_gradient_fixed newton P z f0 g : newton_sound newton -> pl2pl_ok P -> pl2pl_value any_arc P z f0 -> pl2pl_gradient newton P z = Ret (Some g) ->
  sparse_jacobian_on fixed_dates (pl2pl_value any_arc P) z f0 (pl2pl_sparsity P) g.
Proof.
  intros NS K [t0 [mf [us [uf [th [tof [s [f [y [Ez [L [Mf [Tf [S [F [Y Ef]]]]]]]]]]]]]]]] H. fold (pl_vec t0 mf us uf th tof) in Ez. rewrite Ez in H.
  destruct (pl_gradient_some newton P t0 mf us uf th tof s f g K L Tf S F H) as [Zs [Zf [A [B [G GR]]]]].
  rewrite (pl_gradient_cases newton P t0 mf us uf th tof s f _ K L Tf S F GR Zs Zf) in H.
  assert (Eg : g = bval (map (pl_block P A B G s f us uf th) (seq 0 (8 + q_nseg P + 2)))) by (injection H as <-; reflexivity). clear H. rewrite Eg. clear Eg g.
  rewrite (pl_pat P A B G s f us uf th). set (n := q_nseg P) in *. set (mk := pl_block P A B G s f us uf th).
  pose proof (pl_f0_len P mf us uf th y) as Lf. fold n in Lf. rewrite <- Ef in Lf. pose proof (pl_z_len P t0 mf us uf th tof L) as Lz. rewrite <- Ez in Lz. fold n in Lz.
  pose proof (pl_blocks newton P t0 mf us uf th tof s f y A B G NS K L Mf Tf Y GR) as BL. rewrite <- Ez in BL. fold n mk in BL.
  destruct (seq_blocks mk (8 + n + 2) (length z) BL) as [S1 [S2 S3]]. split; [exact S1|]. split; [exact S2|]. split; [intros i j Q; rewrite Lf; apply S3, Q|].
  intros c d FX C0 Lc D.
  assert (Zt0 : nth 0 z 0 = t0) by (rewrite Ez; reflexivity). assert (Ztof : last z 0 = tof) by (rewrite Ez; unfold pl_vec; rewrite app_assoc; apply last_last).
  assert (LN : forall e, nth (8 + 3 * n) (c e) 0 = last (c e) 0).
  { intros e. rewrite (parts 8 (3 * n) (c e)) at 2 by (rewrite Lc; exact Lz). rewrite app_assoc, last_last. reflexivity. }
  assert (T0 : forall e, nth 0 (c e) 0 = t0) by (intros e; destruct (FX e) as [-> _]; rewrite C0; exact Zt0).
  assert (T1 : forall e, nth (8 + 3 * n) (c e) 0 = tof) by (intros e; rewrite LN; destruct (FX e) as [_ ->]; rewrite C0; exact Ztof).
  pose proof (proj2 D 0%nat) as D0. pose proof (proj2 D (8 + 3 * n)%nat) as Dn.
  assert (Q0 : nth 0 d 0 = 0) by (apply (is_derive_uniq _ _ _ _ D0); eapply der_ext; [intros e; symmetry; apply T0|apply der_const]).
  assert (Q1 : nth (8 + 3 * n) d 0 = 0) by (apply (is_derive_uniq _ _ _ _ Dn); eapply der_ext; [intros e; symmetry; apply T1|apply der_const]).
  rewrite Ez in C0, Lc.
  destruct (pl_core newton P t0 mf us uf th tof s f y A B G NS K L Mf Tf Y GR c d (fun _ => s) (fun _ => f) (vzero, vzero) (vzero, vzero) C0 Lc D eq_refl eq_refl (sder_const s) (sder_const f)) as [Fc [eps [E0 [Fc0 [Fv Fd]]]]].
  { exists 1. split; [lra|]. intros e _. rewrite T0. exact S. }
  { exists 1. split; [lra|]. intros e _. fold n. rewrite T0, T1. exact F. }
  exists Fc, eps. split; [exact E0|]. split; [rewrite Fc0; symmetry; exact Ef|]. split; [exact Fv|]. intros i Hi. rewrite Lf in Hi.
  rewrite (entry_seq mk (8 + n + 2) d i) by (try exact Hi; intros k Hk; destruct (BL k Hk) as [R1 [R2 _]]; split; assumption).
  eapply der_to; [apply (Fd i Hi)|]. fold n mk. rewrite Q0, Q1.
  assert (O : forall x, off (q_mu P) (vzero, vzero) 0 x = (vzero, vzero)) by (intros x; unfold off, vsub, vscal, vzero; cbn; f_equal; f_equal; ring).
  rewrite Rplus_0_l, !O, pl_corr_0. ring.
Qed.
Theorem pl2pl_gradient_total newton P z f0 s f : newton_ok newton -> newton_sound newton -> pl2pl_ok P -> pl2pl_value safe_arc P z f0 ->
  q_ephs P (nth 0 z 0) = Ret (Some s) -> q_ephf P (nth 0 z 0 + last z 0) = Ret (Some f) -> fst s <> vzero -> fst f <> vzero ->
  (forall i, (i < q_nseg P)%nat -> thr_vec (skipn 8 z) i <> vzero) -> exists g, pl2pl_gradient newton P z = Ret (Some g).
Proof.
  intros NK NS K [t0 [mf [us [uf [th [tof [s' [f' [y [-> [L [Mf [Tf [S [F [Y Ef]]]]]]]]]]]]]]]]. fold (pl_vec t0 mf us uf th tof).
  replace (nth 0 (pl_vec t0 mf us uf th tof) 0) with t0 by reflexivity. replace (last (pl_vec t0 mf us uf th tof) 0) with tof by (unfold pl_vec; rewrite app_assoc, last_last; reflexivity).
  intros S' F' Zs Zf U. rewrite S in S'. injection S' as <-. rewrite F in F'. injection F' as <-.
  pose proof (pl_of_proper P s' f' mf us uf th tof K L Mf Tf) as Pr. destruct (grad_total newton NK NS (pl2pl_of P s' f' mf us uf th tof) Pr y Y) as [A [B [G [E _]]]].
  - cbn [pl2pl_of direct_leg s_nseg s_thr]. rewrite Nat2Z.id. intros i Hi Z. apply (U i Hi). rewrite <- Z. unfold pl_vec. cbn [app skipn]. unfold thr_vec. rewrite !app_nth1 by lia. reflexivity.
  - rewrite (pl_gradient_cases newton P t0 mf us uf th tof s' f' _ K L Tf S F E Zs Zf). eexists. reflexivity.
Qed.

(** ** Keplerian planets move as the gradient assumes *)
Theorem kpla_keplerian newton ref s mu t : newton_ok newton -> elliptic mu s -> eph_keplerian mu (kpla_eph newton (ctor_state ref s mu)) t.
Proof.
  intros NK El. assert (Mu : 0 < mu) by apply El. destruct (eph_flow newton ref s mu ref NK El) as [s0 [_ [[y [Yb [Y0 _]]] _]]].
  assert (Q : forall e, kpla_eph newton (ctor_state ref s mu) e = Ret (Some (y ((e - ref) * 86400)))).
  { intros e. destruct (eph_flow newton ref s mu e NK El) as [s1 [-> F1]]. rewrite (flow_functional _ _ _ _ _ F1 (flow_of_solution mu s _ y Mu Yb Y0)). reflexivity. }
  destruct (Yb ((t - ref) * 86400) I I) as [Nz [D1 D2]]. exists (y ((t - ref) * 86400)). split; [apply Q|]. split; [exact Nz|].
  exists (fun e => y ((e - ref) * 86400)), 1. split; [lra|]. split; [intros e _; apply Q|].
  assert (DL : is_derive (fun e : R => (e - ref) * 86400) t 86400).
  { pose proof (der_mult _ _ _ _ _ (der_minus _ _ _ _ _ (der_id t) (der_const ref t)) (der_const 86400 t)) as E. cbv beta in E. eapply der_to; [exact E|]. ring. }
  split; cbn [fst snd]; [apply (vder_chain (fun u => fst (y u)) _ _ _ _ DL D1)|apply (vder_chain (fun u => snd (y u)) _ _ _ _ DL D2)].
Qed.

(** ** The fitness is a function of the decision vector *)
Lemma seg_fun ok mu c ve dt u p q q' : segment ok mu c ve dt u p q -> segment ok mu c ve dt u p q' -> q = q'.
Proof.
  intros [a [_ [F1 [_ [F2 M]]]]] [a' [_ [F1' [_ [F2' M']]]]]. pose proof (flow_functional _ _ _ _ _ F1 F1') as <-. cbv zeta in *. destruct q as [x m], q' as [x' m']. cbn [fst snd] in *.
  rewrite (flow_functional _ _ _ _ _ F2 F2'), M, M'. reflexivity.
Qed.
Lemma segb_fun ok mu c ve dt u p q q' : segment_back ok mu c ve dt u p q -> segment_back ok mu c ve dt u p q' -> q = q'.
Proof.
  intros [a [_ [F1 [_ [F2 M]]]]] [a' [_ [F1' [_ [F2' M']]]]]. pose proof (flow_functional _ _ _ _ _ F1 F1') as <-. cbv zeta in *. destruct q as [x m], q' as [x' m']. cbn [fst snd] in *.
  rewrite (flow_functional _ _ _ _ _ F2 F2'), M, M'. reflexivity.
Qed.
Lemma legs_fun (seg : vec -> col7 -> col7 -> Prop) us : (forall u p q q', seg u p q -> seg u p q' -> q = q') -> forall p q q', legs seg us p q -> legs seg us p q' -> q = q'.
Proof.
  intros S. induction us as [|u us IH]; intros p q q'; cbn; [congruence|]. intros [z [A B]] [z' [A' B']]. rewrite (S _ _ _ _ A A') in B. apply (IH _ _ _ B B').
Qed.
Lemma mismatch_fun ok l y y' : leg_mismatch ok l y -> leg_mismatch ok l y' -> y = y'.
Proof.
  intros [pf [pb [F [B ->]]]] [pf' [pb' [F' [B' ->]]]]. rewrite (legs_fun _ _ (fun u p q q' => seg_fun _ _ _ _ _ u p q q') _ _ _ F F'). rewrite (legs_fun _ _ (fun u p q q' => segb_fun _ _ _ _ _ u p q q') _ _ _ B B'). reflexivity.
Qed.
Lemma pl_vec_inj t0 mf us uf th tof t0' mf' us' uf' th' tof' : pl_vec t0 mf us uf th tof = pl_vec t0' mf' us' uf' th' tof' -> t0 = t0' /\ mf = mf' /\ us = us' /\ uf = uf' /\ th = th' /\ tof = tof'.
Proof.
  unfold pl_vec. cbn [app]. intros E. injection E as E0 E1 E2 E3 E4 E5 E6 E7 E8. apply app_inj_tail in E8. destruct E8 as [E8 E9].
  destruct us, us', uf, uf'. cbn in *. subst. repeat split.
Qed.
Lemma pl_value_fun P z f f' : pl2pl_value any_arc P z f -> pl2pl_value any_arc P z f' -> f = f'.
Proof.
  intros [t0 [mf [us [uf [th [tof [s0 [sf [y [-> [L [Mf [Tf [S [F [Y ->]]]]]]]]]]]]]]]] [t0' [mf' [us' [uf' [th' [tof' [s0' [sf' [y' [E [L' [Mf' [Tf' [S' [F' [Y' ->]]]]]]]]]]]]]]]].
  apply pl_vec_inj in E. destruct E as [<- [<- [<- [<- [<- <-]]]]]. rewrite S in S'. injection S' as <-. rewrite F in F'. injection F' as <-. rewrite (mismatch_fun _ _ _ _ Y Y'). reflexivity.
Qed.
Lemma p2p_value_fun P z f f' : p2p_value any_arc P z f -> p2p_value any_arc P z f' -> f = f'.
Proof.
  intros [mf [th [tof [y [-> [L [Mf [Tf [Y ->]]]]]]]]] [mf' [th' [tof' [y' [E [L' [Mf' [Tf' [Y' ->]]]]]]]]]. injection E as <- E. apply app_inj_tail in E. destruct E as [<- <-].
  rewrite (mismatch_fun _ _ _ _ Y Y'). reflexivity.
Qed.

(** ** A problem of one thrusting segment *)
Lemma fwd_one : fwd_of 1 1 = 1%Z.
Proof. unfold fwd_of. replace (INR 1 * 1) with (IZR 1) by (cbn; lra). destruct (base_Int_part 1) as [B1 B2].
  assert (Int_part 1 <= 1)%Z by (apply le_IZR; lra). assert (0 < Int_part 1)%Z by (apply lt_IZR; lra). lia.
Qed.
Definition wit_p2p (X : state) : p2p := mk_p2p (V 1 0 0, V 0 1 0) X 1 1 (1 / (10 * PI)) (1 / G0) (0, 1) (0, 1) 1 1 2 1 1.
Lemma wit_p2p_leg X : p2p_of (wit_p2p X) (exp (- (1 / 10))) [-1; 0; 0] (PI / 86400) = wit_leg X.
Proof. unfold p2p_of, direct_leg, wit_p2p, wit_leg. cbn [p_rvs p_ms p_rvf p_T p_isp p_mu p_cut p_nseg]. rewrite fwd_one. f_equal. field. Qed.
Lemma wit_pos : 0 < 1 / (10 * PI) /\ 0 < 1 / G0. Proof. pose proof PI_RGT_0. pose proof G0_pos. split; apply Rdiv_lt_0_compat; lra. Qed.
Lemma wit_p2p_ok X : p2p_ok (wit_p2p X).
Proof. pose proof wit_pos. unfold p2p_ok, wit_p2p. cbn. repeat split; try lia; lra. Qed.
Lemma wit_p2p_value X : leg_mismatch (good_arc 1 PI) (wit_leg X) ((vzero, vzero), 0) ->
  p2p_value safe_arc (wit_p2p X) [exp (- (1 / 10)); -1; 0; 0; PI / 86400] [- exp (- (1 / 10)) / 2; 0; 0; 0; 0; 0; 0; 0; 0].
Proof.
  intros LM. exists (exp (- (1 / 10))), [-1; 0; 0], (PI / 86400), ((vzero, vzero), 0). split; [reflexivity|]. split; [reflexivity|]. split; [apply exp_pos|].
  split; [apply Rdiv_lt_0_compat; [apply PI_RGT_0|lra]|]. rewrite wit_p2p_leg. split.
  - unfold safe_arc. fold (leg_dt (wit_leg X)). rewrite wit_dt. exact LM.
  - unfold direct_fitness, throttle_norm, wit_p2p, vzero. cbn. unfold Rdiv. rewrite !Rmult_0_l. repeat f_equal. ring.
Qed.
Lemma wit_leg_ell : exists X, elliptic 1 X /\ leg_mismatch (good_arc 1 PI) (wit_leg X) ((vzero, vzero), 0).
Proof. destruct wit_good_ell as [X [E LM]]. exists X. rewrite wit_dt in LM. split; assumption. Qed.
Lemma wit_leg_good : exists X, leg_mismatch (good_arc 1 PI) (wit_leg X) ((vzero, vzero), 0).
Proof. destruct wit_leg_ell as [X [_ LM]]. exists X. exact LM. Qed.
Lemma wit_p2p_example newton : newton_ok newton -> newton_sound newton -> exists X g, p2p_ok (wit_p2p X) /\
  p2p_fitness newton (wit_p2p X) [exp (- (1 / 10)); -1; 0; 0; PI / 86400] = Ret (Some [- exp (- (1 / 10)) / 2; 0; 0; 0; 0; 0; 0; 0; 0]) /\
  p2p_gradient newton (wit_p2p X) [exp (- (1 / 10)); -1; 0; 0; PI / 86400] = Ret (Some g) /\ length g = 39%nat /\ nth 0 g 0 = -1 / 2 /\ nth 36 g 0 = -2.
Proof.
  intros NK NS. destruct wit_leg_good as [X LM]. pose proof (wit_p2p_value X LM) as Val. pose proof (wit_p2p_ok X) as K. exists X.
  destruct (p2p_gradient_total newton (wit_p2p X) _ _ NK NS K Val) as [g [E J]].
  { intros i Hi. cbn in Hi. replace i with 0%nat by lia. unfold thr_vec. cbn. intros Q. injection Q. lra. }
  exists g. split; [exact K|]. split; [apply (p2p_fitness_total newton _ _ _ NK K Val)|]. split; [exact E|]. split; [destruct J as [J _]; rewrite J; reflexivity|].
  destruct (grad_total newton NK NS (wit_leg X) (wit_proper X) ((vzero, vzero), 0)) as [A [B [G [EG JG]]]].
  { rewrite wit_dt. exact LM. }
  { intros i I. cbn in I. replace i with 0%nat by lia. unfold thr_vec. cbn. intros H. injection H. lra. }
  assert (LG : length G = 28%nat) by (destruct JG as [_ [_ [LG _]]]; exact LG).
  rewrite <- (wit_p2p_leg X) in EG. pose proof PI_RGT_0.
  change [exp (- (1 / 10)); -1; 0; 0; PI / 86400] with (exp (- (1 / 10)) :: [-1; 0; 0] ++ [PI / 86400]) in E.
  rewrite (p2p_gradient_cases newton (wit_p2p X) (exp (- (1 / 10))) [-1; 0; 0] (PI / 86400) K eq_refl ltac:(apply Rdiv_lt_0_compat; lra) _ EG) in E.
  assert (Eg : bval (map (p2p_block (wit_p2p X) B G [-1; 0; 0]) (seq 0 (8 + p_nseg (wit_p2p X)))) = g) by (injection E as E; exact E). rewrite <- Eg.
  clear - LG. cbn [wit_p2p p_nseg Nat.add]. do 29 (destruct G as [|? G]; try (cbn in LG; discriminate LG)). split; [reflexivity|]. cbn. ring.
Qed.

(** the same transfer between a planet on the unit circle and one on a straight line *)
Definition line_eph (X : state) (t : R) : outcome (option state) := Ret (Some (vadd (fst X) (vscal ((t - PI / 86400) * 86400) (snd X)), snd X)).
Definition circle_eph (t : R) : outcome (option state) := Ret (Some (circle (t * 86400))).
Definition wit_pl (ef : R -> outcome (option state)) : pl2pl := mk_pl2pl circle_eph ef 1 1 (1 / (10 * PI)) (1 / G0) (0, 0) (0, 0) (0, 0) 0 0 1 1 2 1 1.
Definition wit_z : list R := [0; exp (- (1 / 10)); 0; 0; 0; 0; 0; 0; -1; 0; 0; PI / 86400].
Definition wit_f : list R := [- exp (- (1 / 10)) / 2; 0; 0; 0; 0; 0; 0; 0; 0; 0; 0].
Lemma wit_z_vec : wit_z = pl_vec 0 (exp (- (1 / 10))) vzero vzero [-1; 0; 0] (PI / 86400). Proof. reflexivity. Qed.
Lemma circle_0 : circle (0 * 86400) = (V 1 0 0, V 0 1 0). Proof. unfold circle. rewrite Rmult_0_l, cos_0, sin_0, Ropp_0. reflexivity. Qed.
Lemma line_at X : line_eph X (0 + PI / 86400) = Ret (Some X).
Proof.
  unfold line_eph. replace ((0 + PI / 86400 - PI / 86400) * 86400) with 0 by ring. destruct X as [[a b c] v]. unfold vadd, vscal. cbn [fst snd vx vy vz]. rewrite !Rmult_0_l, !Rplus_0_r. reflexivity.
Qed.
Lemma wit_pl_leg ef X : pl2pl_of (wit_pl ef) (V 1 0 0, V 0 1 0) X (exp (- (1 / 10))) vzero vzero [-1; 0; 0] (PI / 86400) = wit_leg X.
Proof.
  unfold pl2pl_of, direct_leg, wit_pl, wit_leg. cbn [q_ms q_T q_isp q_mu q_cut q_nseg fst snd]. rewrite fwd_one. destruct X as [r [a b c]]. unfold vadd, vzero. cbn [vx vy vz fst snd].
  f_equal; [f_equal; f_equal; ring|f_equal; f_equal; ring|field].
Qed.
Lemma wit_pl_ok ef : pl2pl_ok (wit_pl ef).
Proof. pose proof wit_pos. unfold pl2pl_ok, wit_pl. cbn. repeat split; try lia; lra. Qed.
Lemma wit_pl_value ef X : ef (0 + PI / 86400) = Ret (Some X) -> leg_mismatch (good_arc 1 PI) (wit_leg X) ((vzero, vzero), 0) -> pl2pl_value safe_arc (wit_pl ef) wit_z wit_f.
Proof.
  intros EF LM. exists 0, (exp (- (1 / 10))), vzero, vzero, [-1; 0; 0], (PI / 86400), (V 1 0 0, V 0 1 0), X, ((vzero, vzero), 0). split; [reflexivity|]. split; [reflexivity|]. split; [apply exp_pos|].
  split; [apply Rdiv_lt_0_compat; [apply PI_RGT_0|lra]|]. split; [cbn [wit_pl q_ephs]; unfold circle_eph; rewrite circle_0; reflexivity|]. split; [exact EF|]. rewrite wit_pl_leg. split.
  - unfold safe_arc. fold (leg_dt (wit_leg X)). rewrite wit_dt. exact LM.
  - unfold wit_f, direct_fitness, throttle_norm, wit_pl, vzero, dot. cbn. unfold Rdiv. rewrite !Rmult_0_l. repeat f_equal; try ring.
Qed.
Lemma safe_any_pl P z f : pl2pl_value safe_arc P z f -> pl2pl_value any_arc P z f.
Proof.
  intros [t0 [mf [us [uf [th [tof [s0 [sf [y [E [L [Mf [Tf [S [F [Y Q]]]]]]]]]]]]]]]]. exists t0, mf, us, uf, th, tof, s0, sf, y.
  split; [exact E|]. split; [exact L|]. split; [exact Mf|]. split; [exact Tf|]. split; [exact S|]. split; [exact F|]. split; [apply good_leg, Y|exact Q].
Qed.
(** planets that are there at the dates, on the leg's own two-body motion or not *)
Lemma circle_keplerian t : eph_keplerian 1 circle_eph t.
Proof.
  destruct (circle_solves (t * 86400) I I) as [Nz [D1 D2]]. exists (circle (t * 86400)). split; [reflexivity|]. split; [exact Nz|]. exists (fun e => circle (e * 86400)), 1. split; [lra|]. split; [reflexivity|].
  assert (DL : is_derive (fun e : R => e * 86400) t 86400).
  { pose proof (der_mult _ _ _ _ _ (der_id t) (der_const 86400 t)) as E. cbv beta in E. eapply der_to; [exact E|]. ring. }
  split; cbn [fst snd]; [apply (vder_chain (fun u => fst (circle u)) _ _ _ _ DL D1)|apply (vder_chain (fun u => snd (circle u)) _ _ _ _ DL D2)].
Qed.
Lemma line_moves X t : eph_moves (line_eph X) t (snd X) vzero.
Proof.
  exists (fun e => (vadd (fst X) (vscal ((e - PI / 86400) * 86400) (snd X)), snd X)), 1. split; [lra|]. split; [reflexivity|]. split; cbn [fst snd].
  - assert (DL : is_derive (fun e : R => (e - PI / 86400) * 86400) t 86400).
    { pose proof (der_mult _ _ _ _ _ (der_minus _ _ _ _ _ (der_id t) (der_const (PI / 86400) t)) (der_const 86400 t)) as E. cbv beta in E. eapply der_to; [exact E|]. ring. }
    eapply vder_eq; [apply vder_add; [apply vder_const|apply vder_scal; [exact DL|apply vder_const]]|]. destruct X as [r [a b c]]. unfold vadd, vscal, vzero. cbn. f_equal; ring.
  - rewrite vscal_0. apply vder_const.
Qed.
Lemma wit_X_nz X : leg_mismatch (good_arc 1 PI) (wit_leg X) ((vzero, vzero), 0) -> fst X <> vzero /\ nonsing 1 X.
Proof.
  intros [pf [pb [F [B E]]]]. assert (Eb : pb = (X, exp (- (1 / 10)))) by exact B. subst pb. destruct F as [q [[a [_ [_ [O [FF _]]]]] E2]]. assert (Eq : pf = q) by exact E2. subst q. cbv zeta in O, FF. clear E2 B.
  assert (EX : fst pf = X). { pose proof (f_equal (fun c => fst (fst c)) E) as E3. pose proof (f_equal (fun c => snd (fst c)) E) as E4. unfold minus7, vsub, vzero in E3, E4. cbn in E3, E4.
    destruct pf as [[[a1 a2 a3] [b1 b2 b3]] m], X as [[x1 x2 x3] [z1 z2 z3]]. cbn in *. injection E3 as E31 E32 E33. injection E4 as E41 E42 E43. f_equal; f_equal; lra. }
  pose proof (nonsing_flow 1 _ _ _ (good_nonsing _ _ _ O) FF) as N. rewrite EX in N. split; [|exact N]. destruct N as [N _]. apply (regular_r _ _ N).
Qed.
Lemma wit_B newton X A B G : compute_mc_grad newton (wit_leg X) = Ret (Some (A, B, G)) -> B = flat_map (fun i => map (fun j => if Nat.eqb i j then -1 else 0) (seq 0 7)) (seq 0 7).
Proof.
  intros E. rewrite grad_cases in E.
  destruct (gradients_multiple_impulses newton _ (s_rvs (wit_leg X)) _ _ _ _ _ _) as [[[rvm gf]|]| |]; cbn [bind] in E; try discriminate.
  match type of E with bind ?g _ = _ => assert (EG : g = Ret (Some (bck_rvm (map row_flip eye7), [row_flip (zero6, 0)]))) by reflexivity; rewrite EG in E end.
  cbn [bind] in E. pose proof (f_equal (fun o => match o with Ret (Some p) => snd (fst p) | _ => B end) E) as EB. cbv beta iota in EB. cbn [fst snd] in EB. rewrite <- EB.
  unfold bck_rvm, eye7, row_flip, neg_v, neg7, neg6, array_of, row_of. cbn. repeat (f_equal; try ring).
Qed.
Lemma wit_pl_grad newton ef X : newton_ok newton -> newton_sound newton -> ef (0 + PI / 86400) = Ret (Some X) -> leg_mismatch (good_arc 1 PI) (wit_leg X) ((vzero, vzero), 0) ->
  exists g, pl2pl_gradient newton (wit_pl ef) wit_z = Ret (Some g).
Proof.
  intros NK NS EF LM. destruct (wit_X_nz X LM) as [Nz _].
  apply (pl2pl_gradient_total newton (wit_pl ef) wit_z wit_f (V 1 0 0, V 0 1 0) X NK NS (wit_pl_ok ef) (wit_pl_value ef X EF LM)).
  - cbn [wit_z nth wit_pl q_ephs]. unfold circle_eph. rewrite circle_0. reflexivity.
  - exact EF.
  - intros Q. injection Q. lra.
  - exact Nz.
  - intros i Hi. cbn in Hi. replace i with 0%nat by lia. unfold thr_vec. cbn. intros Q. injection Q. lra.
Qed.
Definition wit_curve (e : R) : list R := [e; exp (- (1 / 10)); 0; 0; 0; 0; 0; 0; -1; 0; 0; PI / 86400].
Lemma wit_curve_der : derive_list wit_curve 0 [1; 0; 0; 0; 0; 0; 0; 0; 0; 0; 0; 0].
Proof.
  split; [reflexivity|]. intros j. destruct j as [|j]; [apply der_id|]. unfold wit_curve. cbn [nth].
  do 11 (destruct j as [|j]; [apply der_const|]). destruct j; apply der_const.
Qed.
Theorem pl2pl_refuted newton : newton_ok newton -> newton_sound newton -> exists P z f0 g, pl2pl_ok P /\ pl2pl_value any_arc P z f0 /\
  eph_keplerian (q_mu P) (q_ephs P) (nth 0 z 0) /\ (exists X, q_ephf P (nth 0 z 0 + last z 0) = Ret (Some X) /\ eph_moves (q_ephf P) (nth 0 z 0 + last z 0) (snd X) vzero) /\
  pl2pl_gradient newton P z = Ret (Some g) /\ ~ sparse_jacobian (pl2pl_value any_arc P) z f0 (pl2pl_sparsity P) g.
Proof.
  intros NK NS. destruct wit_leg_good as [X LM]. set (P := wit_pl (line_eph X)). destruct (wit_X_nz X LM) as [Nz _]. pose proof PI_RGT_0 as PI0.
  assert (Val : pl2pl_value any_arc P wit_z wit_f) by (apply safe_any_pl, (wit_pl_value _ X (line_at X) LM)). destruct (wit_pl_grad newton (line_eph X) X NK NS (line_at X) LM) as [g Eg].
  exists P, wit_z, wit_f, g. split; [apply wit_pl_ok|]. split; [exact Val|]. split; [apply circle_keplerian|].
  split; [exists X; split; [apply line_at|apply line_moves]|]. split; [exact Eg|]. intros [_ [_ [_ J]]].
  destruct (J wit_curve _ I eq_refl (fun _ => eq_refl) wit_curve_der) as [fj [e1 [E1 [J0 [Jv Jd]]]]].
  assert (Tf : 0 < PI / 86400) by (apply Rdiv_lt_0_compat; lra). assert (Mf : 0 < exp (- (1 / 10))) by apply exp_pos. assert (K : pl2pl_ok P) by apply wit_pl_ok.
  assert (S : q_ephs P 0 = Ret (Some (V 1 0 0, V 0 1 0))) by (cbn [P wit_pl q_ephs]; unfold circle_eph; rewrite circle_0; reflexivity).
  pose proof (line_at X) as F. change (line_eph X) with (q_ephf P) in F.
  rewrite wit_z_vec in Eg. destruct (pl_gradient_some newton P 0 (exp (- (1 / 10))) vzero vzero [-1; 0; 0] (PI / 86400) (V 1 0 0, V 0 1 0) X g K eq_refl Tf S F Eg) as [Zs [Zf [A [B [G GR]]]]].
  fold P in Eg. rewrite (pl_gradient_cases newton P 0 (exp (- (1 / 10))) vzero vzero [-1; 0; 0] (PI / 86400) (V 1 0 0, V 0 1 0) X _ K eq_refl Tf S F GR Zs Zf) in Eg.
  assert (Eg' : g = bval (map (pl_block P A B G (V 1 0 0, V 0 1 0) X vzero vzero [-1; 0; 0]) (seq 0 (8 + q_nseg P + 2)))) by (injection Eg as <-; reflexivity). clear Eg.
  assert (Y : leg_mismatch (any_arc (pl2pl_of P (V 1 0 0, V 0 1 0) X (exp (- (1 / 10))) vzero vzero [-1; 0; 0] (PI / 86400))) (pl2pl_of P (V 1 0 0, V 0 1 0) X (exp (- (1 / 10))) vzero vzero [-1; 0; 0] (PI / 86400)) ((vzero, vzero), 0)).
  { unfold P. rewrite wit_pl_leg. apply good_leg. rewrite wit_dt. exact LM. }
  assert (GR' := GR). unfold P in GR'. rewrite wit_pl_leg in GR'. pose proof (wit_B newton X A B G GR') as EB.
  destruct (circle_keplerian 0) as [s' [S' [_ MS]]]. destruct (eph_curve _ _ _ _ (fun e => e) 1 MS eq_refl (der_id 0)) as [cs [Ns Ds]].
  destruct (eph_curve _ _ _ _ (fun e => e + PI / 86400) 1 (line_moves X (0 + PI / 86400)) eq_refl) as [cf [Nf Df]].
  { pose proof (der_plus _ _ _ _ _ (der_id 0) (der_const (PI / 86400) 0)) as E. cbv beta in E. eapply der_to; [exact E|]. ring. }
  assert (E2 : cs 0 = (V 1 0 0, V 0 1 0)). { pose proof (near_at _ Ns) as Q. cbv beta in Q. change circle_eph with (q_ephs P) in Q. rewrite S in Q. injection Q as <-. reflexivity. }
  assert (E3 : cf 0 = X). { pose proof (near_at _ Nf) as Q. cbv beta in Q. change (line_eph X) with (q_ephf P) in Q. rewrite F in Q. injection Q as <-. reflexivity. }
  assert (Es : s' = (V 1 0 0, V 0 1 0)). { change circle_eph with (q_ephs P) in S'. rewrite S in S'. injection S' as <-. reflexivity. }
  destruct (pl_core newton P 0 (exp (- (1 / 10))) vzero vzero [-1; 0; 0] (PI / 86400) (V 1 0 0, V 0 1 0) X ((vzero, vzero), 0) A B G NS K eq_refl Mf Tf Y GR wit_curve _ cs cf _ _ eq_refl (fun _ => eq_refl) wit_curve_der E2 E3 Ds Df Ns Nf)
    as [Fc [e2 [E4 [Fc0 [Fv Fd]]]]].
  pose proof (pl_blocks newton P 0 (exp (- (1 / 10))) vzero vzero [-1; 0; 0] (PI / 86400) (V 1 0 0, V 0 1 0) X ((vzero, vzero), 0) A B G NS K eq_refl Mf Tf Y GR) as BL.
  assert (Corr : forall i, (i < 11)%nat -> pl_corr P A B (off 1 (vscal (86400 * 1) (snd s'), vscal (86400 * 1) (gravity 1 (fst s'))) 1 (V 1 0 0, V 0 1 0)) (off 1 (vscal (86400 * 1) (snd X), vscal (86400 * 1) vzero) (1 + 0) X) i = 0).
  { intros i Hi. pose proof (Fd i Hi) as D1. pose proof (Jd i Hi) as D2. rewrite Eg' in D2. rewrite (pl_pat P A B G (V 1 0 0, V 0 1 0) X vzero vzero [-1; 0; 0]) in D2.
    rewrite (entry_seq _ (8 + q_nseg P + 2) _ i) in D2 by (try exact Hi; intros k Hk; destruct (BL k Hk) as [R1 [R2 _]]; split; assumption).
    assert (D3 : is_derive (fun e => nth i (fj e) 0) 0 (dots (bnum (pl_block P A B G (V 1 0 0, V 0 1 0) X vzero vzero [-1; 0; 0] i)) (pick [1; 0; 0; 0; 0; 0; 0; 0; 0; 0; 0; 0] (bcol (pl_block P A B G (V 1 0 0, V 0 1 0) X vzero vzero [-1; 0; 0] i)))
       + pl_corr P A B (off 1 (vscal (86400 * 1) (snd s'), vscal (86400 * 1) (gravity 1 (fst s'))) 1 (V 1 0 0, V 0 1 0)) (off 1 (vscal (86400 * 1) (snd X), vscal (86400 * 1) vzero) (1 + 0) X) i)).
    { apply (der_near (fun e => nth i (Fc e) 0) _ _ (Rmin e1 e2)); [apply Rmin_glb_lt; assumption| |exact D1]. intros e He. pose proof (Rmin_l e1 e2). pose proof (Rmin_r e1 e2). f_equal. apply (pl_value_fun P (wit_curve e)); [apply Fv; lra|apply Jv; lra]. }
    pose proof (is_derive_uniq _ _ _ _ D2 D3) as Q. lra. }
  rewrite Es in Corr. rewrite (off_0 1 1 (V 1 0 0, V 0 1 0)) in Corr.
  assert (GZ : gravity 1 (fst X) = vzero).
  { pose proof (Corr 4%nat ltac:(lia)) as C4. pose proof (Corr 5%nat ltac:(lia)) as C5. pose proof (Corr 6%nat ltac:(lia)) as C6. unfold pl_corr in C4, C5, C6. cbn [Nat.ltb Nat.leb] in C4, C5, C6.
    rewrite row_zero in C4, C5, C6. rewrite !row7_dots in C4, C5, C6. unfold dot_lo, dot_hi, off, unit_of in C4, C5, C6. rewrite EB in C4, C5, C6.
    cbn [Nat.ltb Nat.leb q_Vel P wit_pl] in C4, C5, C6. destruct (gravity 1 (fst X)) as [gx gy gz]. cbn in C4, C5, C6. unfold vzero. f_equal; lra. }
  unfold gravity in GZ. destruct (fst X) as [x1 x2 x3] eqn:EX. pose proof (norm_pos _ Nz) as PN.
  assert (Q : -1 / norm (V x1 x2 x3) ^ 3 <> 0). { apply Rmult_integral_contrapositive_currified; [lra|]. apply Rinv_neq_0_compat, pow_nonzero. lra. }
  unfold vscal, vzero in GZ. cbn [vx vy vz] in GZ. injection GZ as G1 G2 G3. apply Nz. unfold vzero.
  apply Rmult_integral in G1, G2, G3. f_equal; tauto.
Qed.
Lemma wit_pl_example newton : newton_ok newton -> newton_sound newton -> exists X g, let P := wit_pl (kpla_eph newton (ctor_state (PI / 86400) X 1)) in pl2pl_ok P /\
  pl2pl_fitness newton P wit_z = Ret (Some wit_f) /\ pl2pl_gradient newton P wit_z = Ret (Some g) /\ sparse_jacobian (pl2pl_value any_arc P) wit_z wit_f (pl2pl_sparsity P) g.
Proof.
  intros NK NS. destruct wit_leg_ell as [X [El LM]]. set (ef := kpla_eph newton (ctor_state (PI / 86400) X 1)).
  assert (EF : ef (0 + PI / 86400) = Ret (Some X)) by (rewrite Rplus_0_l; apply (eph_reference newton _ X 1 NK (or_introl El))).
  pose proof (wit_pl_value ef X EF LM) as Val. destruct (wit_pl_grad newton ef X NK NS EF LM) as [g Eg]. exists X, g. cbv zeta. fold ef.
  split; [apply wit_pl_ok|]. split; [apply (pl2pl_fitness_total newton _ _ _ NK (wit_pl_ok ef) Val)|]. split; [exact Eg|].
  apply (pl2pl_gradient_kepler newton _ _ _ g NS (wit_pl_ok ef) (safe_any_pl _ _ _ Val) Eg); [apply circle_keplerian|apply (kpla_keplerian newton _ X 1 _ NK El)].
Qed.

(** ** Shapes and constructors *)
Lemma rep_len (x : R) n : length (repeat x n) = n. Proof. apply repeat_length. Qed.
Theorem p2p_shape ok P z f : p2p_value ok P z f -> length f = (1 + p2p_nec P + p2p_nic P)%nat /\ length (fst (p2p_bounds P)) = length z /\ length (snd (p2p_bounds P)) = length z.
Proof.
  intros [mf [th [tof [y [-> [L [_ [_ [_ ->]]]]]]]]]. rewrite fit_len. unfold p2p_bounds, p2p_nec, p2p_nic. cbn [fst snd]. cbn [app length]. rewrite !app_length, !rep_len, L. cbn [length]. repeat split; lia.
Qed.
Theorem pl2pl_shape ok P z f : pl2pl_value ok P z f -> length f = (1 + pl2pl_nec P + pl2pl_nic P)%nat /\ length (fst (pl2pl_bounds P)) = length z /\ length (snd (pl2pl_bounds P)) = length z.
Proof.
  intros [t0 [mf [us [uf [th [tof [s [f' [y [-> [L [_ [_ [_ [_ [_ ->]]]]]]]]]]]]]]]]. rewrite app_length, fit_len. unfold pl2pl_bounds, pl2pl_nec, pl2pl_nic. cbn [fst snd]. rewrite !app_length, !rep_len, L. cbn [length]. repeat split; lia.
Qed.
Lemma params_iff T isp mu cut : leg_params T isp mu cut = Ret tt <-> 0 <= T /\ 0 <= isp /\ 0 <= mu /\ 0 <= cut <= 1.
Proof.
  unfold leg_params. destruct (Rlt_dec T 0); [split; [discriminate|lra]|]. destruct (Rlt_dec isp 0); [split; [discriminate|lra]|]. destruct (Rlt_dec mu 0); [split; [discriminate|lra]|].
  destruct (Rlt_dec cut 0); [split; [discriminate|lra]|]. destruct (Rlt_dec 1 cut); [split; [discriminate|lra]|]. split; [intros _; lra|reflexivity].
Qed.
Lemma params_tt T isp mu cut u : leg_params T isp mu cut = Ret u -> leg_params T isp mu cut = Ret tt. Proof. destruct u. auto. Qed.
Theorem p2p_built rvs rvf ms mu T isp tofb mfb n cut M L Ve :
  (p2p_ctor rvs rvf ms mu T isp tofb mfb n cut M L Ve = Ret (mk_p2p rvs rvf ms mu T isp tofb mfb n cut M L Ve) <-> 0 <= T /\ 0 <= isp /\ 0 <= mu /\ 0 <= cut <= 1) /\
  (forall P, p2p_ctor rvs rvf ms mu T isp tofb mfb n cut M L Ve = Ret P -> 0 < ms -> 0 < mu -> 0 < isp -> (0 < n)%nat -> M <> 0 -> L <> 0 -> Ve <> 0 -> p2p_ok P).
Proof.
  unfold p2p_ctor. rewrite <- params_iff. destruct (leg_params T isp mu cut) as [[]| |] eqn:E; cbn [bind].
  - split; [split; reflexivity|]. intros P [= <-] Ms Mu I N HM HL HV. apply params_iff in E. unfold p2p_ok. cbn. repeat split; try assumption; lra.
  - split; [split; discriminate|discriminate].
  - split; [split; discriminate|discriminate].
Qed.
Theorem pl2pl_built es ef ms mu T isp t0b tofb mfb vs vf n cut M L Ve :
  ((exists P, pl2pl_ctor es ef ms mu T isp t0b tofb mfb vs vf n cut M L Ve = Ret P) <-> 0 <= T /\ 0 <= isp /\ 0 <= mu /\ 0 <= cut <= 1) /\
  (forall P, pl2pl_ctor es ef ms mu T isp t0b tofb mfb vs vf n cut M L Ve = Ret P -> q_vinfs P = 1000 * vs /\ q_vinff P = 1000 * vf /\ q_ephs P = es /\ q_ephf P = ef /\
     (0 < ms -> 0 < mu -> 0 < isp -> (0 < n)%nat -> M <> 0 -> L <> 0 -> Ve <> 0 -> pl2pl_ok P)).
Proof.
  unfold pl2pl_ctor. rewrite <- params_iff. destruct (leg_params T isp mu cut) as [[]| |] eqn:E; cbn [bind].
  - split; [split; [reflexivity|intros _; eexists; reflexivity]|]. intros P [= <-]. cbn. split; [ring|]. split; [ring|]. split; [reflexivity|]. split; [reflexivity|].
    intros Ms Mu I N HM HL HV. apply params_iff in E. unfold pl2pl_ok. cbn. repeat split; try assumption; lra.
  - split; [split; [intros [P H]; discriminate|discriminate]|discriminate].
  - split; [split; [intros [P H]; discriminate|discriminate]|discriminate].
Qed.
Theorem pl2pl_gradient_nan newton P z f0 i : newton_ok newton -> newton_sound newton -> pl2pl_ok P -> pl2pl_value safe_arc P z f0 ->
  (i < q_nseg P)%nat -> thr_vec (skipn 8 z) i = vzero -> pl2pl_gradient newton P z = Ret None.
Proof.
  intros NK NS K [t0 [mf [us [uf [th [tof [s [f [y [-> [L [Mf [Tf [S [F [Y Ef]]]]]]]]]]]]]]]] Hi Z. fold (pl_vec t0 mf us uf th tof) in *.
  pose proof (pl_of_proper P s f mf us uf th tof K L Mf Tf) as Pr.
  assert (E : compute_mc_grad newton (pl2pl_of P s f mf us uf th tof) = Ret None).
  { apply (grad_nan newton NK NS (pl2pl_of P s f mf us uf th tof) Pr y i Y).
    - cbn [pl2pl_of direct_leg s_nseg]. rewrite Nat2Z.id. exact Hi.
    - cbn [pl2pl_of direct_leg s_thr]. rewrite <- Z. unfold pl_vec. cbn [app skipn]. unfold thr_vec. rewrite !app_nth1 by lia. reflexivity. }
  unfold pl2pl_gradient. rewrite (pl_leg_at P t0 mf us uf th tof s f (proj1 K) L Tf S F), pl_us, pl_uf. cbn [bind]. rewrite E. cbn [bind].
  destruct (tc_rows_list (q_nseg P) th L) as [t [Et Rw]]. cbn [pl2pl_of direct_leg s_nseg s_thr]. rewrite Et, Nat2Z.id. cbn [bind]. rewrite (Rw (q_nseg P) 0%nat) by lia. reflexivity.
Qed.

(** ** The box *)
Lemma box_app l1 u1 z1 l2 u2 z2 : length l1 = length z1 -> length u1 = length z1 -> (in_box (l1 ++ l2, u1 ++ u2) (z1 ++ z2) <-> in_box (l1, u1) z1 /\ in_box (l2, u2) z2).
Proof.
  intros A B. unfold in_box. cbn [fst snd]. revert l1 u1 A B. induction z1 as [|z z1 IH]; intros [|l l1] [|u u1]; try discriminate.
  - cbn. intros _ _. split; [intros [A B]; repeat split; auto|intros [_ H]; exact H].
  - intros [= A] [= B]. cbn [app]. specialize (IH l1 u1 A B). split.
    + intros [X Y]. inversion X; inversion Y; subst. destruct (proj1 IH (conj H4 H10)) as [[? ?] ?]. repeat split; try (constructor; assumption); tauto.
    + intros [[X Y] [W Z]]. inversion X; inversion Y; subst. destruct (proj2 IH (conj (conj H4 H10) (conj W Z))) as [? ?]. split; constructor; assumption.
Qed.
Lemma box_one l u z : in_box ([l], [u]) [z] <-> l <= z <= u.
Proof. unfold in_box. cbn. split; [intros [X Y]; inversion X; inversion Y; subst; lra|intros [A B]; split; (apply Forall2_cons; [assumption|apply Forall2_nil])]. Qed.
Lemma box_rep a b n z : length z = n -> (in_box (repeat a n, repeat b n) z <-> forall c, In c z -> a <= c <= b).
Proof.
  intros <-. unfold in_box. cbn [fst snd]. induction z as [|x z IH]; cbn.
  - split; [intros _ c []|intros _; split; constructor].
  - split.
    + intros [X Y]. inversion X; inversion Y; subst. intros c [<-|I]; [lra|]. apply (proj1 IH (conj H4 H10)). exact I.
    + intros H. destruct (proj2 IH (fun c I => H c (or_intror I))). destruct (H x (or_introl eq_refl)). split; constructor; assumption.
Qed.
Theorem p2p_box P mf th tof : length th = (3 * p_nseg P)%nat ->
  (in_box (p2p_bounds P) ([mf] ++ th ++ [tof]) <-> fst (p_mf P) <= mf <= snd (p_mf P) /\ (forall c, In c th -> -1 <= c <= 1) /\ fst (p_tof P) <= tof <= snd (p_tof P)).
Proof.
  intros L. unfold p2p_bounds. rewrite box_app by reflexivity. rewrite box_app by (rewrite rep_len, L; reflexivity). rewrite !box_one, box_rep by exact L. tauto.
Qed.
Theorem pl2pl_box P t0 mf us uf th tof : length th = (3 * q_nseg P)%nat ->
  (in_box (pl2pl_bounds P) ([t0; mf; vx us; vy us; vz us; vx uf; vy uf; vz uf] ++ th ++ [tof]) <->
   fst (q_t0 P) <= t0 <= snd (q_t0 P) /\ fst (q_mf P) <= mf <= snd (q_mf P) /\ (forall c, In c [vx us; vy us; vz us] -> - q_vinfs P <= c <= q_vinfs P) /\ (forall c, In c [vx uf; vy uf; vz uf] -> - q_vinff P <= c <= q_vinff P) /\
   (forall c, In c th -> -1 <= c <= 1) /\ fst (q_tof P) <= tof <= snd (q_tof P)).
Proof.
  intros L. unfold pl2pl_bounds.
  change ([t0; mf; vx us; vy us; vz us; vx uf; vy uf; vz uf] ++ th ++ [tof]) with ([t0] ++ [mf] ++ [vx us; vy us; vz us] ++ [vx uf; vy uf; vz uf] ++ th ++ [tof]).
  change ([fst (q_t0 P); fst (q_mf P)] ++ repeat (- q_vinfs P) 3 ++ ?r) with ([fst (q_t0 P)] ++ [fst (q_mf P)] ++ repeat (- q_vinfs P) 3 ++ r).
  change ([snd (q_t0 P); snd (q_mf P)] ++ repeat (q_vinfs P) 3 ++ ?r) with ([snd (q_t0 P)] ++ [snd (q_mf P)] ++ repeat (q_vinfs P) 3 ++ r).
  do 4 (rewrite box_app by reflexivity). rewrite box_app by (rewrite rep_len, L; reflexivity). rewrite !box_one, !box_rep by (exact L || reflexivity). tauto.
Qed.
