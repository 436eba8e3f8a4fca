(** * The gradient of the high-fidelity leg, with coasting segments that are kept coasting *)
From Coq Require Import Reals Lra Lia List ZArith.
From Coquelicot Require Import Coquelicot.
From Verif Require Import RealLib Outcome Vec3 TwoBodySpec DynSpec DynModel DynProofs SfModel SfSpec SfGrad OdeLib OdeSd OdeNear HfGradModel HfGradSpec HfGradFlow HfGradAlg HfGradLin HfGradAll HfGradChain HfGradMain HfGradMis HfNear HfExists HfCoast.
Import ListNotations.
Open Scope R_scope.

Section Legs.
Variables mu veff : R.
Hypothesis Hveff : veff <> 0.
Definition near_c (rho : R) (us us' : list vec) : Prop := List.Forall2 (fun u u' => d3 u' u < rho /\ (u = vzero -> u' = vzero)) us us'.
Lemma near_c_le a b us us' : a <= b -> near_c a us us' -> near_c b us us'.
Proof. intros L H. induction H as [|x y l l2 E H IH]; constructor; [split; [lra|apply E]|exact IH]. Qed.
Lemma vec_dec (u : vec) : {u = vzero} + {u <> vzero}.
Proof.
  destruct u as [a b c]. destruct (Req_EM_T a 0) as [->|N]; [|right; intros E; injection E as E1 E2 E3; contradiction].
  destruct (Req_EM_T b 0) as [->|N]; [|right; intros E; injection E as E1 E2; contradiction].
  destruct (Req_EM_T c 0) as [->|N]; [left; reflexivity|right; intros E; injection E as E1; contradiction].
Qed.
Lemma legs_near_c h us : forall p q, legs (flight mu veff h) us p q ->
  exists Y : list vec -> R -> col7 -> col7, forall eta, 0 < eta -> exists rho, 0 < rho /\ forall us' h' p', near_c rho us us' -> Rabs (h' - h) < rho -> d7 p' p < rho ->
  legs (flight mu veff h') us' p' (Y us' h' p') /\ d7 (Y us' h' p') q < eta.
Proof.
  induction us as [|u us IH]; intros p q L; cbn [legs] in L.
  - subst q. exists (fun _ _ p' => p'). intros eta He. exists eta. split; [exact He|]. intros us' h' p' Hn _ Hp. inversion Hn; subst. split; [reflexivity|exact Hp].
  - destruct L as [z [[x [A [X0 X1]]] L]]. destruct (IH z q L) as [Y2 H2]. clear IH.
    assert (S : exists Y1 : vec -> R -> col7 -> col7, forall eta, 0 < eta -> exists rho, 0 < rho /\ forall x' u' h', (u = vzero -> u' = vzero) -> d7 x' p + d3 u' u + Rabs (h' - h) < rho ->
      flight mu veff h' u' x' (Y1 u' h' x') /\ d7 (Y1 u' h' x') z < eta).
    { destruct (vec_dec u) as [Zu|Nu].
      - destruct (seg_near8 mu veff u h x A) as [Y1 H1]. exists (fun _ => Y1). intros eta He. destruct (H1 eta He) as [rho [Rp G]]. exists rho. split; [exact Rp|]. intros x' u' h' K Hd.
        rewrite (K Zu), <- Zu. rewrite <- X1. apply G. rewrite X0. assert (0 <= d3 u' u) by (unfold d3; pose proof (Rabs_pos (vx u' - vx u)); pose proof (Rabs_pos (vy u' - vy u)); pose proof (Rabs_pos (vz u' - vz u)); lra). lra.
      - destruct (seg_near mu veff Hveff u h x Nu A) as [Y1 H1]. exists Y1. intros eta He. destruct (H1 eta He) as [rho [Rp G]]. exists rho. split; [exact Rp|]. intros x' u' h' _ Hd.
        rewrite <- X1. apply G. unfold dist11. rewrite d11_le, X0. exact Hd. }
    destruct S as [Y1 H1].
    exists (fun us' h' p' => match us' with [] => p' | u' :: us'' => Y2 us'' h' (Y1 u' h' p') end). intros eta He.
    destruct (H2 eta He) as [r2 [R2 G2]]. destruct (H1 r2 R2) as [r1 [R1 G1]].
    exists (Rmin r2 (r1 / 3)). split; [apply Rmin_glb_lt; lra|]. pose proof (Rmin_l r2 (r1 / 3)). pose proof (Rmin_r r2 (r1 / 3)).
    intros us' h' p' Hn Hh Hp. inversion Hn as [|u1 u' us1 us'' [Hu' Kz] Hn' E1 E2]; subst u1 us1 us'.
    destruct (G1 p' u' h' Kz) as [F1 D1]; [lra|].
    destruct (G2 us'' h' (Y1 u' h' p')) as [F2 D2]; [eapply near_c_le; [|exact Hn']; lra|lra|exact D1|].
    split; [|exact D2]. cbn [legs]. exists (Y1 u' h' p'). split; assumption.
Qed.
Lemma near_c_map (U : nat -> R -> vec) l : (forall i, In i l -> (forall rho, 0 < rho -> exists eps, 0 < eps /\ forall e, Rabs e < eps -> d3 (U i e) (U i 0) < rho) /\ (U i 0 = vzero -> forall e, U i e = vzero)) ->
  forall rho, 0 < rho -> exists eps, 0 < eps /\ forall e, Rabs e < eps -> near_c rho (map (fun i => U i 0) l) (map (fun i => U i e) l).
Proof.
  induction l as [|i l IH]; intros H rho Hr; [exists 1; split; [lra|]; intros; constructor|]. destruct (IH ltac:(intros; apply H; right; assumption) rho Hr) as [e1 [E1 G1]].
  destruct (H i ltac:(left; reflexivity)) as [H2 K]. destruct (H2 rho Hr) as [e2 [E2 G2]]. exists (Rmin e1 e2). split; [apply Rmin_glb_lt; assumption|]. intros e He. pose proof (Rmin_l e1 e2). pose proof (Rmin_r e1 e2).
  cbn [map]. constructor; [split; [apply G2; lra|intros Z; apply K; exact Z]|apply G1; lra].
Qed.
Lemma side_near_c (h : R -> R) (dh : R) (us : R -> list vec) (x : R -> col7) dx q : (forall rho, 0 < rho -> exists eps, 0 < eps /\ forall e, Rabs e < eps -> near_c rho (us 0) (us e)) ->
  is_derive h 0 dh -> derive7 x 0 dx -> legs (flight mu veff (h 0)) (us 0) (x 0) q ->
  exists (y : R -> col7) eps, 0 < eps /\ forall e, Rabs e < eps -> legs (flight mu veff (h e)) (us e) (x e) (y e).
Proof.
  intros HU DH DX L. destruct (legs_near_c (h 0) (us 0) (x 0) q L) as [Y HY]. destruct (HY 1 ltac:(lra)) as [rho [Rp G]].
  destruct (HU rho Rp) as [e1 [P1 G1]]. destruct (cont_near h dh DH rho Rp) as [e2 [P2 G2]]. destruct (d7_near x dx DX rho Rp) as [e3 [P3 G3]].
  exists (fun e => Y (us e) (h e) (x e)), (Rmin e1 (Rmin e2 e3)). split; [repeat apply Rmin_glb_lt; assumption|]. intros e He.
  pose proof (Rmin_l e1 (Rmin e2 e3)). pose proof (Rmin_r e1 (Rmin e2 e3)). pose proof (Rmin_l e2 e3). pose proof (Rmin_r e2 e3).
  apply G; [apply G1; lra|apply G2; lra|apply G3; lra].
Qed.
Lemma scal_zero T v : vscal T v = vzero -> T = 0 \/ v = vzero.
Proof.
  intros Z. destruct (Req_dec T 0) as [E|N]; [left; exact E|right]. unfold vscal, vzero in Z. destruct v as [a b c]. cbn [vx vy vz] in Z. injection Z as Z1 Z2 Z3.
  apply Rmult_integral in Z1. apply Rmult_integral in Z2. apply Rmult_integral in Z3. destruct Z1 as [?|Z1]; [contradiction|]. destruct Z2 as [?|Z2]; [contradiction|]. destruct Z3 as [?|Z3]; [contradiction|]. subst. reflexivity.
Qed.
Lemma scal_0 v : vscal 0 v = vzero.
Proof. unfold vscal, vzero. rewrite !Rmult_0_l. reflexivity. Qed.
Lemma scal_v0 T : vscal T vzero = vzero.
Proof. unfold vscal, vzero. cbn [vx vy vz]. rewrite !Rmult_0_r. reflexivity. Qed.
Lemma kept T n (th : R -> list R) : keeps_coasting n th -> forall i, (i < n)%nat -> vscal T (thr_vec (th 0) i) = vzero -> forall e, vscal T (thr_vec (th e) i) = vzero.
Proof. intros K i Hi Z e. destruct (scal_zero _ _ Z) as [->|Z2]; [apply scal_0|]. rewrite (K i Hi Z2 e). apply scal_v0. Qed.
Lemma flown_near_c T n nf xs th xf (tof : R -> R) (dxs : col7) dth (dxf : col7) (dtof : R) y0 : keeps_coasting n th ->
  derive7 xs 0 dxs -> derive_list th 0 dth -> derive7 xf 0 dxf -> is_derive tof 0 dtof ->
  flown mu veff T n nf (xs 0) (th 0) (xf 0) (tof 0) y0 ->
  exists (y : R -> col7) eps, 0 < eps /\ forall e, Rabs e < eps -> flown mu veff T n nf (xs e) (th e) (xf e) (tof e) (y e).
Proof.
  intros KC D1 D2 D3 D4 [pf [pb [L1 [L2 _]]]].
  assert (DH : is_derive (fun e => tof e / INR n) 0 (dtof / INR n)).
  { apply (is_derive_ext (fun e => / INR n * tof e)); [intros e; exact (Rmult_comm _ _)|]. eapply der_to; [apply der_scal; exact D4|]. apply Rmult_comm. }
  assert (DH' : is_derive (fun e => - (tof e / INR n)) 0 (- (dtof / INR n))) by (apply der_opp; exact DH).
  assert (EU : forall e, map (vscal T) (throttles n (th e)) = map (fun i => vscal T (thr_vec (th e) i)) (seq 0 n)) by (intros; unfold throttles; rewrite map_map; reflexivity).
  assert (NZ : forall l, incl l (seq 0 n) -> forall i, In i l -> (forall rho, 0 < rho -> exists eps, 0 < eps /\ forall e, Rabs e < eps -> d3 (vscal T (thr_vec (th e) i)) (vscal T (thr_vec (th 0) i)) < rho) /\
    (vscal T (thr_vec (th 0) i) = vzero -> forall e, vscal T (thr_vec (th e) i) = vzero)).
  { intros l Hl i Hi. apply Hl, in_seq in Hi. split; [apply (thr_near th dth); exact D2|]. apply (kept T n); [exact KC|lia]. }
  assert (EF : forall e, firstn nf (map (vscal T) (throttles n (th e))) = map (fun i => vscal T (thr_vec (th e) i)) (firstn nf (seq 0 n))) by (intros; rewrite EU; apply firstn_map).
  assert (EB : forall e, rev (skipn nf (map (vscal T) (throttles n (th e)))) = map (fun i => vscal T (thr_vec (th e) i)) (rev (skipn nf (seq 0 n)))) by (intros; rewrite EU, skipn_map, map_rev; reflexivity).
  rewrite EF in L1. rewrite EB in L2.
  destruct (side_near_c (fun e => tof e / INR n) (dtof / INR n) (fun e => map (fun i => vscal T (thr_vec (th e) i)) (firstn nf (seq 0 n))) xs dxs pf) as [y1 [e1 [P1 G1]]]; try assumption.
  { apply (near_c_map (fun i e => vscal T (thr_vec (th e) i))). apply NZ. intros i Hi. rewrite <- (firstn_skipn nf (seq 0 n)). apply in_or_app. left. exact Hi. }
  destruct (side_near_c (fun e => - (tof e / INR n)) (- (dtof / INR n)) (fun e => map (fun i => vscal T (thr_vec (th e) i)) (rev (skipn nf (seq 0 n)))) xf dxf pb) as [y2 [e2 [P2 G2]]]; try assumption.
  { apply (near_c_map (fun i e => vscal T (thr_vec (th e) i))). apply NZ. intros i Hi. rewrite <- (firstn_skipn nf (seq 0 n)). apply in_or_app. right. apply in_rev. exact Hi. }
  exists (fun e => minus7 (y1 e) (y2 e)), (Rmin e1 e2). split; [apply Rmin_glb_lt; assumption|]. intros e He. pose proof (Rmin_l e1 e2). pose proof (Rmin_r e1 e2).
  unfold flown. cbv zeta. rewrite EF, EB. exists (y1 e), (y2 e). split; [apply G1; lra|]. split; [apply G2; lra|reflexivity].
Qed.

(** m segments, each with a varied thrust that is not zero or with an unvaried one *)
Variables (uj : nat -> R -> vec) (H0 : R -> R) (h dh : R) (pj : nat -> col7) (Mj Uj Fj : nat -> list R) (duj : nat -> nat -> R).
Hypothesis H00 : H0 0 = h.
Hypothesis DH : is_derive H0 0 dh.
Lemma fam_legs_c m (X : R -> col7 -> Prop) dx : (forall j, (j < m)%nat -> seg_any mu veff h (uj j 0) (pj j) (pj (S j)) (Mj j) (Uj j) (Fj j) /\ u_derive (uj j) 0 (duj j) /\ (uj j 0 = vzero -> forall e, uj j e = vzero)) ->
  fam_diff X (pj 0%nat) dx -> fam_diff (fun e y => exists x, X e x /\ legs (flight mu veff (H0 e)) (map (fun j => uj j e) (seq 0 m)) x y) (pj m) (chain Mj Uj Fj duj dh m dx).
Proof.
  induction m as [|m IH]; intros HS HX.
  - eapply fam_ext; [|intros; reflexivity|exact HX]. intros e y [x [Xx L]]. cbn in L. subst y. exact Xx.
  - specialize (IH ltac:(intros; apply HS; lia) HX). destruct (HS m ltac:(lia)) as [SD [DU KZ]].
    assert (Q : fam_diff (fun e y => exists x, (exists x0, X e x0 /\ legs (flight mu veff (H0 e)) (map (fun j => uj j e) (seq 0 m)) x0 x) /\ flight mu veff (H0 e) (uj m e) x y) (pj (S m)) (chain Mj Uj Fj duj dh (S m) dx)).
    { destruct (vec_dec (uj m 0)) as [Zu|Nu].
      - apply (fam_step8 mu veff _ (uj m) H0 h (pj m) (pj (S m)) (Mj m) (Uj m) (Fj m) _ (duj m) dh); try assumption.
        + intros e. rewrite (KZ Zu e). symmetry. exact Zu.
        + intros c Hc. specialize (DU c Hc). assert (E : is_derive (fun x => comp3 (uj m x) c) 0 0).
          { apply (is_derive_ext (fun _ => 0)); [|apply der_const]. intros e. rewrite (KZ Zu e). destruct c as [|[|[|c]]]; try lia; reflexivity. }
          apply is_derive_unique in E. apply is_derive_unique in DU. rewrite <- DU. exact E.
      - destruct SD as [S1 S2]. apply (fam_step mu veff Hveff _ (uj m) H0 h (pj m) (pj (S m)) (Mj m) (Uj m) (Fj m) _ (duj m) dh); try assumption. split; [exact Nu|]. split; assumption. }
    eapply fam_ext; [|intros; reflexivity|exact Q]. intros e y [x [Xx L]]. cbv beta. rewrite seq_S, map_app in L. cbn [map plus] in L. apply legs_app in L. destruct L as [z [L S]]. exists z. split; [exists x; auto|exact S].
Qed.
End Legs.

Section Main.
Variable tas_var : list R -> R -> R -> list R -> option (list R).
Variable l : hg.
Hypothesis Hl : proper_hf l.
Let n : nat := Z.to_nat (g_nseg l).
Let nf : nat := Z.to_nat (g_fwd l).
Let nb : nat := Z.to_nat (g_bck l).
Let veff : R := g_isp l * G0.
Let h : R := g_tof l / INR n.

Definition seg_of_c (d : R) (j : nat) (x s' : list R) : Prop :=
  seg_any (g_mu l) veff d (thrust_of l j) (col_of x) (col_of (firstn 7 s')) (dxdx_of s') (dxdu_of s') (state_derivative l x (thr_vec (g_thr l) j)).
Lemma seg_of_c_exact : tas_var_exact tas_var -> forall j t t1 x s', (j < n)%nat -> length x = 7%nat -> tas_var (g_pmu l :: g_pveff l :: thrust3 l j) t t1 (x ++ g_vars l) = Some s' ->
  length s' = 77%nat /\ seg_of_c (t1 - t) j x s'.
Proof.
  intros HT j t t1 x s' Hj Lx E. pose proof (veff_nz l Hl) as Vn. fold veff in Vn. pose proof Hl as [_ [_ [_ [_ [_ [V0 [P1 [P2 _]]]]]]]]. rewrite P1, P2, V0, thrust3_vec in E.
  destruct (HT _ _ _ _ _ _ _ _ _ E) as [L77 [q [W [A [Va [Q0 [Q1 HW]]]]]]]; [rewrite app_length, Lx, vars0_len; reflexivity|]. split; [exact L77|].
  assert (Eu : V (vx (thrust_of l j)) (vy (thrust_of l j)) (vz (thrust_of l j)) = thrust_of l j) by (destruct (thrust_of l j); reflexivity). rewrite Eu in A, Va. fold veff in A, Va.
  rewrite col_of_app in Q0 by exact Lx.
  assert (A' := arc_stark _ _ _ _ _ Vn A).
  split.
  - intros k Hk. rewrite state_derivative_nth by exact Hk. fold veff. fold (thrust_of l j). rewrite stark_field; [reflexivity| |exact Vn]. rewrite <- Q0. apply (A 0). unfold between. split; [apply Rmin_l|apply Rmax_l].
  - exists q, W. split; [exact A'|]. split; [apply var_stark; [exact Vn|exact A|exact Va]|]. split; [exact Q0|]. split; [rewrite col_of_first; exact Q1|]. split; [|split].
    + intros i k Hi Hk. destruct (HW i k Hi Hk) as [-> _]. rewrite app_nth2 by lia. rewrite Lx. replace (7 + 10 * i + k - 7)%nat with (10 * i + k)%nat by lia. apply vars0_nth; assumption.
    + intros i k Hi Hk. destruct (HW i k Hi ltac:(lia)) as [_ ->]. rewrite dxdx_nth by assumption. reflexivity.
    + intros i k Hi Hk. destruct (HW i (7 + k)%nat Hi ltac:(lia)) as [_ ->]. rewrite dxdu_nth by assumption. reflexivity.
Qed.
Lemma seg_any_flight mu ve d u p p' M U F : seg_any mu ve d u p p' M U F -> flight mu ve d u p p'.
Proof. intros [_ [q [W [A [_ [Q0 [Q1 _]]]]]]]. exists q. auto. Qed.

Lemma mc_grad_c A B G : tas_var_exact tas_var -> compute_mc_grad tas_var l = Ret (A, B, G) ->
  forall xs th xf tof (dxs : col7) (dth : list R) (dxf : col7) (dtof : R),
  xs 0 = col_of (g_rvms l) -> th 0 = g_thr l -> xf 0 = col_of (g_rvmf l) -> tof 0 = g_tof l -> keeps_coasting n th ->
  derive7 xs 0 dxs -> derive_list th 0 dth -> derive7 xf 0 dxf -> is_derive tof 0 dtof ->
  exists (y : R -> col7) eps, 0 < eps /\ (forall e, Rabs e < eps -> flown (g_mu l) veff (g_T l) n nf (xs e) (th e) (xf e) (tof e) (y e)) /\
  derive7 y 0 (plus7 (apply7 7 A (list7 dxs)) (plus7 (apply7 7 B (list7 dxf)) (apply7 (3 * n + 1) G (map (Rmult (g_T l)) dth ++ [dtof])))).
Proof.
  intros HT Eg. destruct (proper_nat l Hl) as [En [Ef [Eb [Hn [Hp [Hb [Lt [Et [Ls Lf]]]]]]]]].
  change (g_nseg l = Z.of_nat n) in En. change (g_fwd l = Z.of_nat nf) in Ef. change (g_bck l = Z.of_nat nb) in Eb.
  assert (Q := all_gradients_ok tas_var l n nf nb En Ef Eb Hn Hp Hb Lt Et Ls Lf seg_of_c (seg_of_c_exact HT)).
  unfold compute_mc_grad in Eg. destruct (compute_all_gradients tas_var l) as [[[M U] F]|e|]; [|discriminate Eg|discriminate Eg]. cbn [bind] in Eg.
  destruct Q as [LM [LU [LF [xf [Q1 Q2]]]]].
  destruct (relevant_spec n nf nb Hn Hb M U F LM LU LF Hp) as [th0 [Lth [Hth E]]]. rewrite En, Ef, Eb, E in Eg. clear E.
  assert (EA : grad_A nf M = A) by congruence. assert (EB : grad_B nf nb M = B) by congruence. assert (EG : final_array n th0 (map (fun x => x / IZR (Z.of_nat n)) (tof_acc nf M F n)) = G) by congruence. clear Eg.
  intros xs th xf1 tof dxs dth dxf dtof X0 Th0 Xf0 Tof0 KC Dxs Dth Dxf Dtof.
  assert (DH : is_derive (fun e => tof e / INR n) 0 (dtof / INR n)).
  { apply (is_derive_ext (fun e => / INR n * tof e)); [intros e; exact (Rmult_comm _ _)|]. eapply der_to; [apply der_scal; exact Dtof|]. apply Rmult_comm. }
  assert (DH' : is_derive (fun e => - (tof e / INR n)) 0 (- (dtof / INR n))) by (apply der_opp; exact DH).
  assert (S1 : forall j, (j < nf)%nat -> seg_any (g_mu l) veff h (vscal (g_T l) (thr_vec (g_thr l) j)) (col_of (stf l xf j)) (col_of (stf l xf (S j))) (nth j M []) (nth j U []) (nth j F [])).
  { intros j Hj. destruct (Q1 j Hj) as [s' [_ [S1 [S2 [S3 [S4 S5]]]]]]. rewrite S3, S4, S5. cbn [stf]. rewrite S2. exact S1. }
  assert (S2 : forall j, (j < nb)%nat -> seg_any (g_mu l) veff (- h) (vscal (g_T l) (thr_vec (g_thr l) (n - 1 - j))) (col_of (stb l n xf j)) (col_of (stb l n xf (S j))) (nth (n - 1 - j) M []) (nth (n - 1 - j) U []) (nth (n - 1 - j) F [])).
  { intros j Hj. destruct (Q2 j Hj) as [s' [_ [S2 [S3 [S4 [S5 S6]]]]]]. rewrite S4, S5, S6. cbn [stb]. rewrite S3. exact S2. }
  assert (Fl0 : exists y0, flown (g_mu l) veff (g_T l) n nf (xs 0) (th 0) (xf1 0) (tof 0) y0).
  { rewrite X0, Th0, Xf0, Tof0. exists (minus7 (col_of (stf l xf nf)) (col_of (stb l n xf nb))), (col_of (stf l xf nf)), (col_of (stb l n xf nb)). split; [|split; [|reflexivity]].
    - rewrite us_firstn by lia. apply (legs_seq _ (fun j => vscal (g_T l) (thr_vec (g_thr l) j)) (fun j => col_of (stf l xf j))). intros j Hj. eapply seg_any_flight. apply S1. exact Hj.
    - rewrite us_skipn by lia. replace (n - nf)%nat with nb by lia. apply (legs_seq _ (fun j => vscal (g_T l) (thr_vec (g_thr l) (n - 1 - j))) (fun j => col_of (stb l n xf j))). intros j Hj. eapply seg_any_flight. apply S2. exact Hj. }
  destruct Fl0 as [y0 Fl0].
  destruct (flown_near_c (g_mu l) veff (veff_nz l Hl) (g_T l) n nf xs th xf1 tof dxs dth dxf dtof y0 KC Dxs Dth Dxf Dtof Fl0) as [y [eps [Ep Fl]]].
  exists y, eps. split; [exact Ep|]. split; [exact Fl|].
  (* forward *)
  assert (FF := fam_legs_c (g_mu l) veff (veff_nz l Hl) (fun j e => vscal (g_T l) (thr_vec (th e) j)) (fun e => tof e / INR n) h (dtof / INR n)
     (fun j => col_of (stf l xf j)) (fun j => nth j M []) (fun j => nth j U []) (fun j => nth j F []) (du_of (g_T l) dth) ltac:(cbv beta; rewrite Tof0; reflexivity) DH nf (fun e x => x = xs e) (comp7 dxs)).
  specialize (FF ltac:(intros j Hj; split; [cbv beta; rewrite Th0; apply S1; exact Hj|]; split; [apply (thr_derive l th dth); exact Dth|apply (kept (g_T l) n th KC); lia])).
  specialize (FF ltac:(cbn [stf]; rewrite <- X0; apply fam_curve; exact Dxs)).
  (* backward *)
  assert (FB := fam_legs_c (g_mu l) veff (veff_nz l Hl) (fun j e => vscal (g_T l) (thr_vec (th e) (n - 1 - j))) (fun e => - (tof e / INR n)) (- h) (- (dtof / INR n))
     (fun j => col_of (stb l n xf j)) (fun j => nth (n - 1 - j) M []) (fun j => nth (n - 1 - j) U []) (fun j => nth (n - 1 - j) F []) (fun j => du_of (g_T l) dth (n - 1 - j)) ltac:(cbv beta; rewrite Tof0; reflexivity) DH' nb (fun e x => x = xf1 e) (comp7 dxf)).
  specialize (FB ltac:(intros j Hj; split; [cbv beta; rewrite Th0; apply S2; exact Hj|]; split; [apply (thr_derive l th dth (g_T l) (n - 1 - j)); exact Dth|apply (kept (g_T l) n th KC); lia])).
  specialize (FB ltac:(cbn [stb]; rewrite <- Xf0; apply fam_curve; exact Dxf)).
  apply comp7_derive. intros i Hi. eapply der_to.
  - apply (fam_minus _ _ _ _ _ _ y FF FB); [|exact Hi]. exists eps. split; [exact Ep|]. intros e Ee. destruct (Fl e Ee) as [pf [pb [L1 [L2 Ey]]]]. exists pf, pb.
    split; [exists (xs e); split; [reflexivity|]; rewrite us_firstn in L1 by lia; exact L1|]. split; [exists (xf1 e); split; [reflexivity|]; rewrite us_skipn in L2 by lia; replace (n - nf)%nat with nb in L2 by lia; exact L2|exact Ey].
  - rewrite !comp7_plus, !comp7_apply by exact Hi.
    assert (T := total_arrays n nf nb Hn Hp M U F (comp7 dxs) (comp7 dxf) (du_of (g_T l) dth) (dtof / INR n) th0 dtof i Hi Hth eq_refl). unfold fwd_lin, bck_lin in T. rewrite T, EA, EB, EG.
    assert (Ld : length dth = (3 * n)%nat) by (destruct Dth as [-> _]; rewrite Th0; exact Lt).
    f_equal; f_equal. unfold row, ap. apply sum_ext. intros c Hc. f_equal. destruct (Nat.ltb_spec c (3 * n)) as [L|L].
    + rewrite app_nth1 by (rewrite map_length, Ld; exact L). rewrite (nth_indep _ 0 (g_T l * 0)) by (rewrite map_length, Ld; exact L). rewrite (map_nth (Rmult (g_T l))). unfold du_of. f_equal. f_equal. symmetry. apply Nat.div_mod. lia.
    + rewrite app_nth2 by (rewrite map_length, Ld; exact L). rewrite map_length, Ld. replace (c - 3 * n)%nat with 0%nat by lia. reflexivity.
Qed.
End Main.
