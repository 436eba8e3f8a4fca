(** * Proofs: the leg kept by a direct problem carries nothing from one call to the next *)
From Coq Require Import ZArith Reals List Bool Lra Lia.
From Verif Require Import Outcome PartialReal Vec3 TwoBodyModel TcModel SfModel KplaModel DirectModel DirectStateModel.
Import ListNotations.
Open Scope R_scope.
Local Arguments py_mid : simpl never.
Local Arguments py_vec : simpl never.
Local Arguments py_get : simpl never.
Local Arguments Z.modulo : simpl never.
Local Arguments Z.of_nat : simpl never.

Lemma snd_bind_pure {A B} (m : act A) (f : A -> act B) l : (forall a l', snd (f a l') = l') -> snd (abind m f l) = snd (m l).
Proof. intros H. unfold abind. destruct (m l) as [[a| |] l']; [apply H|reflexivity..]. Qed.
Lemma snd_on {A} (f : sf -> outcome (option A)) l : snd (on_leg f l) = l.
Proof. reflexivity. Qed.

(** ** point to point *)
Definition fixed (P : p2p) (l : leg) : Prop := k_rvs l = Some (p_rvs P) /\ k_ms l = p_ms P /\ k_rvf l = Some (p_rvf P) /\ k_T l = p_T P /\ k_isp l = p_isp P /\ k_mu l = p_mu P /\ k_cut l = p_cut P.
Lemma p2p_set_spec P x l : fixed P l -> fixed P (snd (p2p_set x l)) /\
  match p2p_leg P x with Ret s => fst (p2p_set x l) = Ret tt /\ view (snd (p2p_set x l)) = Some s | Throw e => fst (p2p_set x l) = Throw e | UB => fst (p2p_set x l) = UB end.
Proof.
  intros F. pose proof F as [F1 [F2 [F3 [F4 [F5 [F6 F7]]]]]]. unfold p2p_set, p2p_leg, abind, lift. destruct (py_last x) as [t| |] eqn:PL; cbn [bind fst snd]; [|split; [exact F|reflexivity]..].
  unfold set_tof. destruct (py_get x 0) as [mf|e|] eqn:G.
  - cbn [bind]. unfold set_leg. destruct (Rlt_dec (t * day2sec) 0); [split; [exact F|reflexivity]|]. unfold set_mf, set_throttles. cbn [k_rvs k_ms k_thr k_rvf k_mf k_tof k_T k_isp k_mu k_cut k_nseg k_fwd k_bck].
    destruct (negb (Z.of_nat (length (py_mid 1 x)) mod 3 =? 0)%Z || (Z.of_nat (length (py_mid 1 x)) =? 0)%Z); cbn [fst snd].
    + split; [|reflexivity]. unfold fixed. cbn. repeat split; assumption.
    + split; [unfold fixed; cbn; repeat split; assumption|]. split; [reflexivity|]. unfold view. cbn. rewrite F1, F2, F3, F4, F5, F6, F7. reflexivity.
  - exfalso. unfold py_get in G. destruct x; [discriminate PL|discriminate G].
  - exfalso. unfold py_get in G. destruct (nth_error x 0); discriminate G.
Qed.
Lemma fit_snd newton P x l : snd (p2p_fit newton P x l) = snd (p2p_set x l).
Proof. unfold p2p_fit. apply snd_bind_pure. intros [] l'. unfold abind, lift. destruct (py_get x 0); reflexivity. Qed.
Lemma grad_snd newton P x l : snd (p2p_grad newton P x l) = snd (p2p_set x l).
Proof. unfold p2p_grad. apply snd_bind_pure. intros [] l'. reflexivity. Qed.
Lemma shown_snd x l : snd (p2p_shown x l) = snd (p2p_set x l).
Proof. unfold p2p_shown. apply snd_bind_pure. intros [] l'. reflexivity. Qed.
Lemma after_fixed newton P : forall cs l, fixed P l -> fixed P (p2p_after newton P l cs).
Proof.
  induction cs as [|c cs IH]; intros l F; [exact F|]. cbn. apply IH. destruct c; rewrite ?fit_snd, ?grad_snd, ?shown_snd; apply p2p_set_spec; exact F.
Qed.
Lemma p2p_calls newton P x l : fixed P l -> fst (p2p_fit newton P x l) = p2p_fitness newton P x /\ fst (p2p_grad newton P x l) = p2p_gradient newton P x /\
  fst (p2p_shown x l) = bind (p2p_leg P x) (fun s => Ret (Some s)).
Proof.
  intros F. destruct (p2p_set_spec P x l F) as [_ S0]. unfold p2p_fit, p2p_grad, p2p_shown, p2p_fitness, p2p_gradient, abind at 1 3 4. destruct (p2p_set x l) as [o l'] eqn:E. cbn [fst snd] in S0. destruct (p2p_leg P x) as [s|e|]; cbn [bind].
  - destruct S0 as [-> V0]. unfold abind, lift, on_leg. rewrite V0. split; [|split; reflexivity]. destruct (py_get x 0); reflexivity.
  - subst o. repeat split; reflexivity.
  - subst o. repeat split; reflexivity.
Qed.
Lemma p2p_init_spec rvs rvf ms mu T isp tofb mfb nseg cut M L Ve : match p2p_ctor rvs rvf ms mu T isp tofb mfb nseg cut M L Ve with
  | Ret P => exists l, p2p_init rvs rvf ms mu T isp tofb mfb nseg cut M L Ve = Ret (P, l) /\ fixed P l | Throw e => p2p_init rvs rvf ms mu T isp tofb mfb nseg cut M L Ve = Throw e | UB => False end.
Proof.
  unfold p2p_ctor, p2p_init, leg_params, abind, set_rvs, set_ms, set_rvf, set_max_thrust, set_isp, set_mu, set_cut. cbn.
  destruct (Rlt_dec T 0); [reflexivity|]. destruct (Rlt_dec isp 0); [reflexivity|]. destruct (Rlt_dec mu 0); [reflexivity|]. destruct (Rlt_dec cut 0); [reflexivity|]. destruct (Rlt_dec 1 cut); [reflexivity|]. cbn. eexists. split; [reflexivity|]. repeat split.
Qed.
Theorem p2p_history newton rvs rvf ms mu T isp tofb mfb nseg cut M L Ve P l cs x : p2p_init rvs rvf ms mu T isp tofb mfb nseg cut M L Ve = Ret (P, l) ->
  p2p_ctor rvs rvf ms mu T isp tofb mfb nseg cut M L Ve = Ret P /\ let l' := p2p_after newton P l cs in
  fst (p2p_fit newton P x l') = p2p_fitness newton P x /\ fst (p2p_grad newton P x l') = p2p_gradient newton P x /\ fst (p2p_shown x l') = bind (p2p_leg P x) (fun s => Ret (Some s)).
Proof.
  intros H. pose proof (p2p_init_spec rvs rvf ms mu T isp tofb mfb nseg cut M L Ve) as S0. destruct (p2p_ctor rvs rvf ms mu T isp tofb mfb nseg cut M L Ve) as [Q| |]; [|congruence|contradiction].
  destruct S0 as [l1 [E F]]. rewrite E in H. injection H as -> ->. split; [reflexivity|]. apply p2p_calls. apply after_fixed. exact F.
Qed.
Theorem p2p_rejects rvs rvf ms mu T isp tofb mfb nseg cut M L Ve e : p2p_init rvs rvf ms mu T isp tofb mfb nseg cut M L Ve = Throw e <-> p2p_ctor rvs rvf ms mu T isp tofb mfb nseg cut M L Ve = Throw e.
Proof.
  pose proof (p2p_init_spec rvs rvf ms mu T isp tofb mfb nseg cut M L Ve) as S0. destruct (p2p_ctor rvs rvf ms mu T isp tofb mfb nseg cut M L Ve) as [Q|z|]; [|rewrite S0; split; intros Q; injection Q as ->; reflexivity|contradiction]. destruct S0 as [l1 [E F]]. rewrite E. split; discriminate.
Qed.

(** ** planet to planet *)
Definition fixed2 (P : pl2pl) (l : leg) : Prop := k_ms l = q_ms P /\ k_T l = q_T P /\ k_isp l = q_isp P /\ k_mu l = q_mu P /\ k_cut l = q_cut P.
(** the outcome and the view do not depend on the leg *)
Definition same (a b : outcome (option state * option state) * leg) : Prop := fst a = fst b /\ (forall r, fst a = Ret r -> view (snd a) = view (snd b)).
Definition keeps {A} (P : pl2pl) (m : act A) : Prop := forall l, fixed2 P l -> fixed2 P (snd (m l)).
Lemma keeps_bind {A B} P (m : act A) (f : A -> act B) : keeps P m -> (forall a, keeps P (f a)) -> keeps P (abind m f).
Proof. intros H K l F. unfold abind. specialize (H l F). destruct (m l) as [[a| |] l']; [apply K; exact H|exact H..]. Qed.
Lemma keeps_lift {A} P (o : outcome A) : keeps P (lift o).
Proof. intros l F. exact F. Qed.
Lemma pl2pl_set_fixed P x : keeps P (pl2pl_set P x).
Proof.
  assert (A1 : forall s, keeps P (set_rvs s)) by (intros s l F; exact F). assert (A2 : forall s, keeps P (set_rvf s)) by (intros s l F; exact F). assert (A3 : forall m, keeps P (set_mf m)) by (intros m l F; exact F).
  assert (A4 : forall t, keeps P (set_tof t)) by (intros t l F; unfold set_tof; destruct (Rlt_dec t 0); exact F).
  assert (A5 : forall th, keeps P (set_throttles th)) by (intros th l F; unfold set_throttles; cbv zeta; destruct (_ || _); exact F).
  unfold pl2pl_set. repeat first [apply keeps_lift | apply A1 | apply A2 | apply A3 | apply A4 | apply A5 | apply keeps_bind; [|intros ?]].
Qed.
Lemma pl2pl_set_same P x l m : fixed2 P l -> fixed2 P m -> same (pl2pl_set P x l) (pl2pl_set P x m).
Proof.
  intros [F1 [F2 [F3 [F4 F5]]]] [G1 [G2 [G3 [G4 G5]]]]. unfold same, pl2pl_set, abind, lift, set_rvs, set_rvf, set_tof, set_mf, set_throttles. cbn.
  destruct (py_get x 0) as [t0| |]; [|split; [reflexivity|discriminate]..]. destruct (q_ephs P t0) as [os| |]; [|split; [reflexivity|discriminate]..]. destruct (py_last x) as [t| |]; [|split; [reflexivity|discriminate]..]. destruct (q_ephf P (t0 + t)) as [of| |]; [|split; [reflexivity|discriminate]..].
  destruct (py_vec x 2) as [us| |]; [|split; [reflexivity|discriminate]..]. destruct (py_vec x 5) as [uf| |]; [|split; [reflexivity|discriminate]..]. destruct (Rlt_dec (t * day2sec) 0); [split; [reflexivity|discriminate]|]. destruct (py_get x 1) as [mf| |]; [|split; [reflexivity|discriminate]..].
  cbn. destruct (negb (Z.of_nat (length (py_mid 8 x)) mod 3 =? 0)%Z || (Z.of_nat (length (py_mid 8 x)) =? 0)%Z); [split; [reflexivity|discriminate]|]. split; [reflexivity|]. intros _ _. cbn. unfold view. cbn. rewrite F1, F2, F3, F4, F5, G1, G2, G3, G4, G5. reflexivity.
Qed.
Lemma fit2_snd newton P x l : snd (pl2pl_fit newton P x l) = snd (pl2pl_set P x l) \/ snd (pl2pl_fit newton P x l) = l.
Proof.
  unfold pl2pl_fit. unfold abind at 1. unfold lift at 1. destruct (py_get x 1); [left|right; reflexivity|right; reflexivity]. apply snd_bind_pure. reflexivity.
Qed.
Lemma grad2_snd newton P x l : snd (pl2pl_grad newton P x l) = snd (pl2pl_set P x l).
Proof. unfold pl2pl_grad. apply snd_bind_pure. intros [[|] [|]] l'; reflexivity. Qed.
Lemma shown2_snd P x l : snd (pl2pl_shown P x l) = snd (pl2pl_set P x l).
Proof. unfold pl2pl_shown. apply snd_bind_pure. reflexivity. Qed.
Lemma after_fixed2 newton P : forall cs l, fixed2 P l -> fixed2 P (pl2pl_after newton P l cs).
Proof.
  induction cs as [|c cs IH]; intros l F; [exact F|]. unfold pl2pl_after. cbn [fold_left]. apply IH. destruct c as [x|x|x].
  - destruct (fit2_snd newton P x l) as [-> | ->]; [exact (pl2pl_set_fixed P x l F)|exact F].
  - rewrite grad2_snd. exact (pl2pl_set_fixed P x l F).
  - rewrite shown2_snd. exact (pl2pl_set_fixed P x l F).
Qed.
Lemma pl2pl_indep newton P x l m : fixed2 P l -> fixed2 P m -> fst (pl2pl_fit newton P x l) = fst (pl2pl_fit newton P x m) /\ fst (pl2pl_grad newton P x l) = fst (pl2pl_grad newton P x m) /\ fst (pl2pl_shown P x l) = fst (pl2pl_shown P x m).
Proof.
  intros F G. destruct (pl2pl_set_same P x l m F G) as [A B]. unfold pl2pl_fit, pl2pl_grad, pl2pl_shown, abind, lift, on_leg. destruct (pl2pl_set P x l) as [o l'], (pl2pl_set P x m) as [o' m']. cbn [fst snd] in A, B. subst o'.
  destruct o as [[os of]| |].
  - specialize (B _ eq_refl). rewrite B. split; [destruct (py_get x 1); reflexivity|]. split; [destruct os, of; cbn; try rewrite B; reflexivity|reflexivity].
  - split; [destruct (py_get x 1); reflexivity|split; reflexivity].
  - split; [destruct (py_get x 1); reflexivity|split; reflexivity].
Qed.
Lemma pl2pl_init_spec ephs ephf ms mu T isp t0b tofb mfb vinfs vinff nseg cut M L Ve : match pl2pl_ctor ephs ephf ms mu T isp t0b tofb mfb vinfs vinff nseg cut M L Ve with
  | Ret P => exists l, pl2pl_init ephs ephf ms mu T isp t0b tofb mfb vinfs vinff nseg cut M L Ve = Ret (P, l) /\ fixed2 P l | Throw e => pl2pl_init ephs ephf ms mu T isp t0b tofb mfb vinfs vinff nseg cut M L Ve = Throw e | UB => False end.
Proof.
  unfold pl2pl_ctor, pl2pl_init, leg_params, abind, set_ms, set_max_thrust, set_isp, set_mu, set_cut. cbn.
  destruct (Rlt_dec T 0); [reflexivity|]. destruct (Rlt_dec isp 0); [reflexivity|]. destruct (Rlt_dec mu 0); [reflexivity|]. destruct (Rlt_dec cut 0); [reflexivity|]. destruct (Rlt_dec 1 cut); [reflexivity|]. cbn. eexists. split; [reflexivity|]. repeat split.
Qed.
Lemma pl2pl_set_leg P x l : fixed2 P l -> match pl2pl_leg P x with
  | Ret (Some (s, a, b)) => fst (pl2pl_set P x l) = Ret (Some a, Some b) /\ view (snd (pl2pl_set P x l)) = Some s | Ret None => True | Throw e => fst (pl2pl_set P x l) = Throw e | UB => fst (pl2pl_set P x l) = UB end.
Proof.
  intros [F1 [F2 [F3 [F4 F5]]]]. unfold pl2pl_leg, pl2pl_set, abind, lift, set_rvs, set_rvf, set_tof, set_mf, set_throttles, set_leg.
  destruct (py_get x 0) as [t0| |]; [|reflexivity..]. cbn [bind]. destruct (q_ephs P t0) as [os| |]; [|reflexivity..]. cbn [bind]. destruct (py_last x) as [t| |]; [|reflexivity..]. cbn [bind]. destruct (q_ephf P (t0 + t)) as [of| |]; [|reflexivity..]. cbn [bind].
  destruct (py_vec x 2) as [us| |]; [|reflexivity..]. cbn [bind]. destruct (py_vec x 5) as [uf| |] eqn:VF; [|reflexivity..]. cbn [bind].
  assert (LX : exists a b y, x = a :: b :: y). { destruct x as [|a [|b y]]; [discriminate VF|discriminate VF|]. exists a, b, y. reflexivity. }
  destruct LX as [a [b [y EX]]]. assert (G1 : py_get x 1 = Ret b) by (rewrite EX; reflexivity). rewrite G1. cbn [bind]. destruct os as [s|]; [|exact I]. destruct of as [f|]; [|exact I]. cbn [boosted].
  destruct (Rlt_dec (t * day2sec) 0); [reflexivity|]. cbn. destruct (negb (Z.of_nat (length (py_mid 8 x)) mod 3 =? 0)%Z || (Z.of_nat (length (py_mid 8 x)) =? 0)%Z); [reflexivity|]. cbn. split; [reflexivity|]. unfold view. cbn. rewrite F1, F2, F3, F4, F5. reflexivity.
Qed.
Lemma pl2pl_calls newton P x l : fixed2 P l -> pl2pl_leg P x <> Ret None -> fst (pl2pl_fit newton P x l) = pl2pl_fitness newton P x /\ fst (pl2pl_grad newton P x l) = pl2pl_gradient newton P x /\
  fst (pl2pl_shown P x l) = bind (pl2pl_leg P x) (fun o => Ret (match o with Some (s, _, _) => Some s | None => None end)).
Proof.
  intros F NN. pose proof (pl2pl_set_leg P x l F) as S0. unfold pl2pl_fit, pl2pl_grad, pl2pl_shown, pl2pl_fitness, pl2pl_gradient, abind, lift, on_leg. destruct (pl2pl_set P x l) as [o l'] eqn:E. cbn [fst snd] in S0.
  destruct (pl2pl_leg P x) as [[[[s a] b]|]|e|]; cbn [bind]; [|exfalso; apply NN; reflexivity| |].
  - destruct S0 as [-> V0]. cbn [fst]. rewrite V0. split; [destruct (py_get x 1); reflexivity|split; reflexivity].
  - subst o. split; [destruct (py_get x 1); reflexivity|split; reflexivity].
  - subst o. split; [destruct (py_get x 1); reflexivity|split; reflexivity].
Qed.
Theorem pl2pl_history newton ephs ephf ms mu T isp t0b tofb mfb vinfs vinff nseg cut M L Ve P l cs x : pl2pl_init ephs ephf ms mu T isp t0b tofb mfb vinfs vinff nseg cut M L Ve = Ret (P, l) ->
  pl2pl_ctor ephs ephf ms mu T isp t0b tofb mfb vinfs vinff nseg cut M L Ve = Ret P /\ let l' := pl2pl_after newton P l cs in
  (fst (pl2pl_fit newton P x l') = fst (pl2pl_fit newton P x l) /\ fst (pl2pl_grad newton P x l') = fst (pl2pl_grad newton P x l) /\ fst (pl2pl_shown P x l') = fst (pl2pl_shown P x l)) /\
  (pl2pl_leg P x <> Ret None -> fst (pl2pl_fit newton P x l') = pl2pl_fitness newton P x /\ fst (pl2pl_grad newton P x l') = pl2pl_gradient newton P x /\
     fst (pl2pl_shown P x l') = bind (pl2pl_leg P x) (fun o => Ret (match o with Some (s, _, _) => Some s | None => None end))).
Proof.
  intros H. pose proof (pl2pl_init_spec ephs ephf ms mu T isp t0b tofb mfb vinfs vinff nseg cut M L Ve) as S0. destruct (pl2pl_ctor ephs ephf ms mu T isp t0b tofb mfb vinfs vinff nseg cut M L Ve) as [Q| |]; [|congruence|contradiction].
  destruct S0 as [l1 [E F]]. rewrite E in H. injection H as -> ->. split; [reflexivity|]. cbv zeta. pose proof (after_fixed2 newton P cs l F) as G. split; [apply pl2pl_indep; assumption|apply pl2pl_calls; exact G].
Qed.
(** ** what is false *)
Lemma init_ok rvs rvf ms mu T isp tofb mfb nseg cut M L Ve : 0 <= T -> 0 <= isp -> 0 <= mu -> 0 <= cut <= 1 -> exists l, p2p_init rvs rvf ms mu T isp tofb mfb nseg cut M L Ve = Ret (mk_p2p rvs rvf ms mu T isp tofb mfb nseg cut M L Ve, l) /\ k_nseg l = 2%Z /\ k_mf l = 1.
Proof.
  intros H1 H2 H3 H4. unfold p2p_init, abind, set_rvs, set_ms, set_rvf, set_max_thrust, set_isp, set_mu, set_cut. cbn. destruct (Rlt_dec T 0); [lra|]. destruct (Rlt_dec isp 0); [lra|]. destruct (Rlt_dec mu 0); [lra|]. destruct (Rlt_dec cut 0); [lra|]. destruct (Rlt_dec 1 cut); [lra|]. eexists. split; [reflexivity|split; reflexivity].
Qed.
Theorem fresh_segments : exists rvs rvf ms mu T isp tofb mfb nseg cut M L Ve P l, p2p_init rvs rvf ms mu T isp tofb mfb nseg cut M L Ve = Ret (P, l) /\ Z.of_nat (p_nseg P) <> k_nseg l.
Proof.
  destruct (init_ok (V 1 0 0, V 0 1 0) (V 1 0 0, V 0 1 0) 1 1 1 1 (0, 1) (0, 1) 10%nat 1 1 1 1) as [l [E [K KM]]]; [lra..|].
  exists (V 1 0 0, V 0 1 0), (V 1 0 0, V 0 1 0), 1, 1, 1, 1, (0, 1), (0, 1), 10%nat, 1, 1, 1, 1. eexists. exists l. split; [exact E|]. rewrite K. cbn [p_nseg]. lia.
Qed.
(** ** a case: after a call that raised half way, the next one sees only its own vector *)
Lemma state_case newton : exists P l, p2p_init (V 1 0 0, V 0 1 0) (V 0 1 0, V (-1) 0 0) 1 1 1 1 (0, 10) (0, 1) 1 1 1 1 1 = Ret (P, l) /\
  (exists e, fst (p2p_fit newton P [5] l) = Throw e) /\ k_mf (p2p_after newton P l [Fitness [5]]) = 5 /\ k_tof (p2p_after newton P l [Fitness [5]]) = 5 * day2sec /\
  exists s, fst (p2p_shown [1 / 2; 1; 0; 0; 2] (p2p_after newton P l [Fitness [5]])) = Ret (Some s) /\ s_mf s = 1 / 2 /\ s_tof s = 2 * day2sec /\ s_nseg s = 1%Z /\ s_thr s = [1; 0; 0].
Proof.
  destruct (init_ok (V 1 0 0, V 0 1 0) (V 0 1 0, V (-1) 0 0) 1 1 1 1 (0, 10) (0, 1) 1%nat 1 1 1 1) as [l [E [K KM]]]; [lra..|]. set (P := mk_p2p _ _ _ _ _ _ _ _ _ _ _ _ _) in E. exists P, l. split; [exact E|].
  assert (Q : exists l', p2p_set [5] l = (Throw LogicError, l') /\ k_mf l' = 5 /\ k_tof l' = 5 * day2sec).
  { unfold p2p_set, abind, lift. change (py_last [5]) with (@Ret R 5). change (py_get [5] 0) with (@Ret R 5). change (py_mid 1 [5]) with (@nil R). unfold set_tof. destruct (Rlt_dec (5 * day2sec) 0) as [C|_]; [unfold day2sec in C; lra|]. eexists. split; [reflexivity|]. split; reflexivity. }
  destruct Q as [l' [Q1 [Q2 Q3]]].
  assert (F0 : p2p_fit newton P [5] l = (Throw LogicError, l')) by (unfold p2p_fit, abind at 1; rewrite Q1; reflexivity).
  assert (AF : p2p_after newton P l [Fitness [5]] = l') by (unfold p2p_after; cbn [fold_left]; rewrite F0; reflexivity).
  split; [exists LogicError; rewrite F0; reflexivity|]. rewrite AF. split; [exact Q2|]. split; [exact Q3|].
  destruct (p2p_history newton _ _ _ _ _ _ _ _ _ _ _ _ _ P l [Fitness [5]] [1 / 2; 1; 0; 0; 2] E) as [_ [_ [_ S0]]]. rewrite AF in S0. rewrite S0. unfold p2p_leg. change (py_last [1 / 2; 1; 0; 0; 2]) with (@Ret R 2). change (py_get [1 / 2; 1; 0; 0; 2] 0) with (@Ret R (1 / 2)). change (py_mid 1 [1 / 2; 1; 0; 0; 2]) with [1; 0; 0]. cbn [bind]. unfold set_leg. destruct (Rlt_dec (2 * day2sec) 0) as [C|_]; [unfold day2sec in C; lra|].
  eexists. split; [reflexivity|]. split; [reflexivity|]. split; [reflexivity|]. split; reflexivity.
Qed.
Theorem raise_changes : exists rvs rvf ms mu T isp tofb mfb nseg cut M L Ve P l x, p2p_init rvs rvf ms mu T isp tofb mfb nseg cut M L Ve = Ret (P, l) /\
  forall newton, exists e, fst (p2p_fit newton P x l) = Throw e /\ snd (p2p_fit newton P x l) <> l.
Proof.
  destruct (init_ok (V 1 0 0, V 0 1 0) (V 0 1 0, V (-1) 0 0) 1 1 1 1 (0, 10) (0, 1) 1%nat 1 1 1 1) as [l [E [_ KM]]]; [lra..|].
  exists (V 1 0 0, V 0 1 0), (V 0 1 0, V (-1) 0 0), 1, 1, 1, 1, (0, 10), (0, 1), 1%nat, 1, 1, 1, 1. eexists. exists l, [5]. split; [exact E|]. intros newton.
  destruct (state_case newton) as [P' [l' [E' [[e T0] [A _]]]]]. rewrite E in E'. injection E' as <- <-. exists e. split; [exact T0|]. intros Q. unfold p2p_after in A. cbn [fold_left] in A. rewrite Q, KM in A. lra.
Qed.
Theorem pl2pl_rejects ephs ephf ms mu T isp t0b tofb mfb vinfs vinff nseg cut M L Ve e : pl2pl_init ephs ephf ms mu T isp t0b tofb mfb vinfs vinff nseg cut M L Ve = Throw e <-> pl2pl_ctor ephs ephf ms mu T isp t0b tofb mfb vinfs vinff nseg cut M L Ve = Throw e.
Proof.
  pose proof (pl2pl_init_spec ephs ephf ms mu T isp t0b tofb mfb vinfs vinff nseg cut M L Ve) as S0. destruct (pl2pl_ctor ephs ephf ms mu T isp t0b tofb mfb vinfs vinff nseg cut M L Ve) as [Q|z|]; [|rewrite S0; split; intros Q; injection Q as ->; reflexivity|contradiction]. destruct S0 as [l1 [E F]]. rewrite E. split; discriminate.
Qed.
