(** * vsop2013 planets: proofs *)
From Coq Require Import ZArith Reals String List Bool Lra Lia.
From Coquelicot Require Import Coquelicot.
From Flocq Require Import Core.Core IEEE754.BinarySingleNaN.
From Verif Require Import Outcome PartialReal Float64 Float64Facts RealLib Vec3 TwoBodySpec JplModel JplRealModel VsopModel PlanetModel FloatErrSpec FloatErr LambertModel LambertReal LambertProofs LambertVec MgaModel MgaFitModel VsopPlanetModel VsopPlanetSpec.
Import ListNotations.
Open Scope R_scope.

(** ** doubles *)
Section Udpla.
Variable fn : Type.
Variable eval : fn -> double -> list double.
Variable text : double -> string.
Variables (dem : udpla -> string) (ic2par : posvel -> double -> list double) (f2m : double -> double -> double) (par2eq : list double -> bool -> list double) (two_pi : double).
Lemma vsop_no_period p t : period dem two_pi (vsop_udpla fn eval text p) t = Throw NotImplemented.
Proof. reflexivity. Qed.
Lemma vsop_no_elements p t et : elements dem ic2par f2m par2eq (vsop_udpla fn eval text p) t et = Throw NotImplemented.
Proof. reflexivity. Qed.
Lemma vsop_defaults p : get_mu_central_body (vsop_udpla fn eval text p) = Ret (d_of_Z (-1)) /\ get_mu_self (vsop_udpla fn eval text p) = Ret (d_of_Z (-1)) /\
  get_radius (vsop_udpla fn eval text p) = Ret (d_of_Z (-1)) /\ get_safe_radius (vsop_udpla fn eval text p) = Ret (d_of_Z (-1)).
Proof. repeat split. Qed.
Lemma AU_r : is_finite dAU = true /\ B2R dAU = au. Proof. exact (d_of_Z_exact 149597870700 ltac:(lia)). Qed.
Lemma DAY_r : is_finite dDAY = true /\ B2R dDAY = 86400. Proof. exact (d_of_Z_exact 86400 ltac:(lia)). Qed.
Lemma scaled_ok x : is_finite x = true -> Rabs (B2R x) <= 2 ^ 900 ->
  let a := dmul x dAU in let b := ddiv a dDAY in
  is_finite a = true /\ Rabs (B2R a - au * B2R x) <= u * Rabs (au * B2R x) + eta /\ is_finite b = true /\ Rabs (B2R b - au / 86400 * B2R x) <= 3 * u * Rabs (au / 86400 * B2R x) + 2 * eta.
Proof.
  intros Fx Bx a b. destruct AU_r as [FA EA]. destruct DAY_r as [FD ED]. pose proof M_big as [MB [E0 E1]].
  assert (P9 : 2 ^ 1010 = 2 ^ 110 * 2 ^ 900) by (rewrite <- pow_add; reflexivity). assert (P0 : 0 < 2 ^ 900) by (apply pow_lt; lra). assert (P11 : 10 * au <= 2 ^ 110). { unfold au. apply Rle_trans with (2 ^ 50); [change 2 with (IZR 2); rewrite pow_IZR; apply Rle_trans with (IZR 1495978707000); [lra|apply IZR_le; vm_compute; discriminate]|apply Rle_pow; [lra|lia]]. }
  assert (A0 : 0 < au) by (unfold au; lra). assert (X : Rabs (au * B2R x) = au * Rabs (B2R x)) by (rewrite Rabs_mult, (Rabs_pos_eq au) by lra; reflexivity). assert (XB : 10 * Rabs (au * B2R x) <= M). { rewrite X. apply Rle_trans with (2 := MB). rewrite P9. pose proof (Rabs_pos (B2R x)). nra. }
  assert (C : B2R x * B2R dAU = au * B2R x) by (rewrite EA; ring). destruct (dmul_ok x dAU Fx FA ltac:(rewrite C; pose proof (Rabs_pos (au * B2R x)); lra)) as [Fa Ea]. fold a in Fa, Ea. rewrite C in Ea.
  pose proof (rnd_ae (au * B2R x)) as R1. rewrite <- Ea in R1. set (X0 := au * B2R x) in *. split; [exact Fa|]. split; [exact R1|]. assert (U : 0 < u <= 1 / 1000000) by (rewrite u_num; lra). assert (EM : eta <= 1) by (eapply Rle_trans; [exact E1|]; apply Rmult_le_reg_r with (10 ^ 100); [apply pow_lt; lra|]; unfold Rdiv; rewrite Rmult_assoc, Rinv_l by (apply pow_nonzero; lra); rewrite Rmult_1_r, Rmult_1_l; apply pow_R1_Rle; lra).
  assert (M1 : 10 <= M) by (apply Rle_trans with (2 := MB); apply Rle_trans with (2 ^ 4); [lra|apply Rle_pow; [lra|lia]]).
  assert (AB : Rabs (B2R a) <= (1 + u) * Rabs X0 + eta). { replace (B2R a) with (X0 + (B2R a - X0)) by ring. eapply Rle_trans; [apply Rabs_triang|]. lra. }
  assert (DB : Rabs (B2R a / B2R dDAY) = Rabs (B2R a) / 86400) by (rewrite ED; unfold Rdiv; rewrite Rabs_mult, (Rabs_pos_eq (/ 86400)) by lra; reflexivity). pose proof (Rabs_pos X0) as AP.
  destruct (ddiv_ok a dDAY Fa ltac:(rewrite ED; lra) ltac:(rewrite DB; assert (u * Rabs X0 <= 1 * Rabs X0) by (apply Rmult_le_compat_r; lra); lra)) as [Fb Eb]. fold b in Fb, Eb. split; [exact Fb|].
  pose proof (rnd_ae (B2R a / B2R dDAY)) as R2. rewrite <- Eb, DB, ED in R2. replace (au / 86400 * B2R x) with (X0 / 86400) by (unfold X0; field).
  replace (B2R b - X0 / 86400) with ((B2R b - B2R a / 86400) + (B2R a - X0) / 86400) by field. eapply Rle_trans; [apply Rabs_triang|].
  assert (R3 : Rabs ((B2R a - X0) / 86400) <= (u * Rabs X0 + eta) / 86400) by (unfold Rdiv; rewrite Rabs_mult, (Rabs_pos_eq (/ 86400)) by lra; apply Rmult_le_compat_r; lra).
  assert (R4 : Rabs (X0 / 86400) = Rabs X0 / 86400) by (unfold Rdiv; rewrite Rabs_mult, (Rabs_pos_eq (/ 86400)) by lra; reflexivity). rewrite R4. set (ax := Rabs X0) in *. assert (R5 : u * (Rabs (B2R a) / 86400) <= u * (((1 + u) * ax + eta) / 86400)) by (apply Rmult_le_compat_l; lra).
  assert (R6 : u * u * ax <= 1 / 1000000 * (u * ax)) by (rewrite Rmult_assoc; apply Rmult_le_compat_r; [apply Rmult_le_pos; lra|lra]). assert (R7 : 0 <= u * ax) by (apply Rmult_le_pos; lra). assert (R8 : u * eta <= 1 * eta) by (apply Rmult_le_compat_r; lra). lra.
Qed.
Lemma vsop_converts p t o : eval (i_state p) t = o -> List.length o = 6%nat -> (forall x, In x o -> is_finite x = true /\ Rabs (B2R x) <= 2 ^ 900) ->
  exists r v, eph (vsop_udpla fn eval text p) t = Ret (r, v) /\
    let near e a x := is_finite a = true /\ Rabs (B2R a - e * x) <= 3 * u * Rabs (e * x) + 2 * eta in let c i := B2R (nth i o dzero) in
    near au (fst (fst r)) (c 0%nat) /\ near au (snd (fst r)) (c 1%nat) /\ near au (snd r) (c 2%nat) /\
    near (au / 86400) (fst (fst v)) (c 3%nat) /\ near (au / 86400) (snd (fst v)) (c 4%nat) /\ near (au / 86400) (snd v) (c 5%nat).
Proof.
  intros <- HL HO. unfold eph, vsop_udpla, u_eph, vsop_posvel, vsop_eph. cbn [bind]. do 2 eexists. split; [reflexivity|]. cbv zeta. cbn [nth fst snd].
  assert (K : forall i, (i < 6)%nat -> is_finite (nth i (eval (i_state p) t) dzero) = true /\ Rabs (B2R (nth i (eval (i_state p) t) dzero)) <= 2 ^ 900) by (intros i Hi; apply HO, nth_In; lia). assert (EP := eta_pos). assert (UP : 0 < u) by (rewrite u_num; lra).
  assert (P : forall i, (i < 6)%nat -> is_finite (dmul (nth i (eval (i_state p) t) dzero) dAU) = true /\ Rabs (B2R (dmul (nth i (eval (i_state p) t) dzero) dAU) - au * B2R (nth i (eval (i_state p) t) dzero)) <= 3 * u * Rabs (au * B2R (nth i (eval (i_state p) t) dzero)) + 2 * eta).
  { intros i Hi. destruct (K i Hi) as [A B]. destruct (scaled_ok _ A B) as [F [E _]]. split; [exact F|]. eapply Rle_trans; [exact E|]. pose proof (Rabs_pos (au * B2R (nth i (eval (i_state p) t) dzero))). nra. }
  assert (Q : forall i, (i < 6)%nat -> is_finite (ddiv (dmul (nth i (eval (i_state p) t) dzero) dAU) dDAY) = true /\ Rabs (B2R (ddiv (dmul (nth i (eval (i_state p) t) dzero) dAU) dDAY) - au / 86400 * B2R (nth i (eval (i_state p) t) dzero)) <= 3 * u * Rabs (au / 86400 * B2R (nth i (eval (i_state p) t) dzero)) + 2 * eta).
  { intros i Hi. destruct (K i Hi) as [A B]. destruct (scaled_ok _ A B) as [_ [_ C]]. exact C. }
  split; [apply (P 0%nat); lia|]. split; [apply (P 1%nat); lia|]. split; [apply (P 2%nat); lia|]. split; [apply (Q 3%nat); lia|]. split; [apply (Q 4%nat); lia|]. apply (Q 5%nat); lia.
Qed.
End Udpla.

(** ** reals *)
Lemma vsop_time cart t : vsop_real cart t = (vscal au (fst (cart (millennia t))), vscal (au / 86400) (snd (cart (millennia t)))).
Proof. unfold vsop_real. replace ((t - 1 / 2) / 365250) with (millennia t) by (unfold millennia, julian_date; field). reflexivity. Qed.
Lemma vsop_moving cart : series_consistent cart -> moving (vsop_real cart).
Proof.
  intros H t. assert (E : forall s, fst (vsop_real cart (s / (24 * 60 * 60))) = vscal au (fst (cart ((s / 86400 - 1 / 2) / 365250)))) by (intros s; unfold vsop_real; cbn [fst]; replace (s / (24 * 60 * 60)) with (s / 86400) by field; reflexivity).
  specialize (H ((t - 1 / 2) / 365250)). unfold vsop_real. cbn [snd fst]. destruct H as [HX [HY HZ]]. set (c := cart ((t - 1 / 2) / 365250)) in *.
  assert (DI : is_derive (fun s => (s / (24 * 60 * 60) - 1 / 2) / 365250) (t * (24 * 60 * 60)) (/ 86400 * / 365250)) by (auto_derive; [exact I|field]).
  assert (AT : (t * (24 * 60 * 60) / (24 * 60 * 60) - 1 / 2) / 365250 = (t - 1 / 2) / 365250) by field.
  split; [|split]; cbn [vscal vx vy vz] in *.
  - eapply der_to; [apply der_scal; apply (der_comp (fun z => vx (fst (cart z))) (fun s => (s / (24 * 60 * 60) - 1 / 2) / 365250)); [rewrite AT; exact HX|exact DI]|]. unfold r_AU. field.
  - eapply der_to; [apply der_scal; apply (der_comp (fun z => vy (fst (cart z))) (fun s => (s / (24 * 60 * 60) - 1 / 2) / 365250)); [rewrite AT; exact HY|exact DI]|]. unfold r_AU. field.
  - eapply der_to; [apply der_scal; apply (der_comp (fun z => vz (fst (cart z))) (fun s => (s / (24 * 60 * 60) - 1 / 2) / 365250)); [rewrite AT; exact HZ|exact DI]|]. unfold r_AU. field.
Qed.
(** ** gravity assist problems between planets that report no gravitational parameter of the central body *)
Lemma lambert_no_mu a b tof mu cw mr L : mu <= 0 -> lambert real_arith a b tof (Some mu) cw mr <> Ret L.
Proof.
  intros Hm. rewrite lambert_eq. destruct (f_le real_arith tof _); [discriminate|]. rewrite nat_r, le_r. destruct (Rle_dec mu 0); [discriminate|contradiction].
Qed.
Theorem mga_no_mu P x y : (forall b, In b (m_seq P) -> b_muc b <= 0) -> fitness P x <> Ret y.
Proof.
  intros HM. unfold fitness, compute_dvs. destruct (decode_tofs _ _ _) as [T| |]; cbn [bind]; try discriminate. destruct x as [|x0 x]; cbn [bind]; [discriminate|]. destruct (nan_tofs _ _); cbn [bind]; [discriminate|].
  unfold common_mu. destruct (m_seq P) as [|b bs] eqn:ES; [cbn; discriminate|]. cbn [hd]. destruct (all_eph _ _) as [rv| |] eqn:EE; cbn [bind]; try discriminate.
  destruct rv as [|s [|s' rv]]; try (cbn; discriminate). cbn [all_lambert]. destruct T as [|t T]; [cbn; discriminate|]. destruct (lambert _ _ _ _ _ _ _) as [L| |] eqn:EL; cbn [bind]; try discriminate.
  exfalso. revert EL. apply lambert_no_mu. apply HM. left. reflexivity.
Qed.
Theorem vsop_mga_refuted : exists seq t0 tof vinf P, mga_ctor seq t0 tof vinf false false None None = Ret P /\ (forall b, In b seq -> exists cart, series_consistent cart /\ b = vsop_body cart) /\ (2 <= List.length seq)%nat /\ forall x y, fitness P x <> Ret y.
Proof.
  set (cart := fun q : R => (V 1 (365250 * q) 0, V 0 1 0)). assert (SC : series_consistent cart) by (intros q; unfold cart; cbn [fst snd]; split; [|split]; cbn [vx vy vz vscal]; auto_derive; try exact I; field).
  assert (R0 : exists P, mga_ctor [vsop_body cart; vsop_body cart] (0, 1) (TEta 100) 3 false false None None = Ret P). { cbn [mga_ctor existsb vsop_body b_muc]. destruct (Req_EM_T (-1) (-1)) as [_|C]; [|contradiction C; reflexivity]. eexists. reflexivity. }
  destruct R0 as [P HP]. exists [vsop_body cart; vsop_body cart], (0, 1), (TEta 100), 3, P. split; [exact HP|]. split; [intros b [<-|[<-|[]]]; exists cart; split; [exact SC|reflexivity|exact SC|reflexivity]|]. split; [cbn; lia|].
  intros x y. apply mga_no_mu. assert (ES : m_seq P = [vsop_body cart; vsop_body cart]). { cbn [mga_ctor existsb vsop_body b_muc] in HP. destruct (Req_EM_T (-1) (-1)) as [_|C]; [|contradiction C; reflexivity]. cbn [orb bind] in HP. injection HP as <-. reflexivity. }
  rewrite ES. intros b [<-|[<-|[]]]; cbn; lra.
Qed.
(** ** the gravitational parameter stored by the constructor cannot be observed *)
Lemma vsop_mu_lost fn eval text (p p' : impl fn) : i_state p = i_state p' -> i_name p = i_name p' -> i_thresh p = i_thresh p' -> vsop_udpla fn eval text p = vsop_udpla fn eval text p'.
Proof. intros A B C. unfold vsop_udpla, vsop_posvel, vsop_eph. rewrite A, B, C. reflexivity. Qed.
Lemma vsop_mu_refuted : exists (p : impl unit) eval text, is_finite (i_mu p) = true /\ dltb dzero (i_mu p) = true /\ get_mu_central_body (vsop_udpla unit eval text p) = Ret (d_of_Z (-1)).
Proof. exists (mk_impl tt done "mars"%string dzero), (fun _ _ => []), (fun _ => EmptyString). repeat split. Qed.
(** a body one AU from the Sun that moves 1/50 AU per day: 2000-01-01 12:00 is the origin of the series *)
Lemma ex_vsop : let cart := fun q : R => (V 1 (365250 / 50 * q) 0, V 0 (1 / 50) 0) in series_consistent cart /\ fst (vsop_real cart (1 / 2)) = V au 0 0 /\ fst (vsop_real cart (1 / 2 + 50)) = V au au 0.
Proof.
  intros cart. split; [intros q; unfold cart; cbn [fst snd]; split; [|split]; cbn [vx vy vz vscal]; auto_derive; try exact I; field|]. unfold vsop_real, cart, r_AU, au. cbn [fst]. split; apply vec_eq; cbn [vscal vx vy vz]; field.
Qed.
(** the name *)
Lemma vsop_name fn eval text (p : impl fn) dem : get_name dem (vsop_udpla fn eval text p) = Ret ("vsop2013 " ++ i_name p ++ ", threshold=" ++ text (i_thresh p))%string.
Proof. reflexivity. Qed.
Lemma vsop_name_tells fn eval text (p p' : impl fn) dem : In (i_name p) (map fst pl_idx_map) -> In (i_name p') (map fst pl_idx_map) ->
  get_name dem (vsop_udpla fn eval text p) = get_name dem (vsop_udpla fn eval text p') -> i_name p = i_name p' /\ text (i_thresh p) = text (i_thresh p').
Proof.
  rewrite !vsop_name. intros Hp Hq H. assert (E : ("vsop2013 " ++ i_name p ++ ", threshold=" ++ text (i_thresh p))%string = ("vsop2013 " ++ i_name p' ++ ", threshold=" ++ text (i_thresh p'))%string) by congruence. clear H.
  generalize dependent (text (i_thresh p)). generalize dependent (text (i_thresh p')). cbn in Hp, Hq.
  repeat (destruct Hp as [Hp|Hp]; [rewrite <- Hp; clear Hp; repeat (destruct Hq as [Hq|Hq]; [rewrite <- Hq; intros a b E; cbn in E; first [discriminate E|split; [reflexivity|congruence]]|]); destruct Hq|]). destruct Hp.
Qed.
