(** * One segment flown without gravity: the throttle columns of the gradient lack the factor max_thrust
    mu = 0 passes the checks of the constructors (C26); the exhaust velocity is 1 and the maximum thrust is 2 *)
From Coq Require Import Reals Lra Lia List ZArith Bool.
From Coquelicot Require Import Coquelicot.
From Verif Require Import Outcome RealLib Vec3 TwoBodySpec DynSpec DynModel DynProofs SfModel SfSpec SfGrad HfGradModel HfGradSpec HfGradFlow HfGradAlg HfGradMain HfGradMis.
Import ListNotations.
Open Scope R_scope.

Definition lam (c t : R) : R := ln (1 - c * t / 2).
(** from (1, 1, 0) at rest with mass 2, thrust c along the first axis *)
Definition ramp (c t : R) : col7 := ((V (1 + t + (2 / c - t) * lam c t) 1 0, V (- lam c t) 0 0), 2 - c * t).

Lemma ramp_arc c : 0 < c < 2 -> arc (thrust_field 0 1 (V c 0 0)) 1 (ramp c).
Proof.
  intros Hc t Ht. unfold between in Ht. rewrite Rmin_left, Rmax_right in Ht by lra.
  assert (P : 0 < 1 - c * t / 2) by nra. assert (P2 : 0 < 2 - c * t) by lra.
  split; [split; cbn; [intros E; apply (f_equal vy) in E; cbn in E; lra|lra]|].
  assert (Nc : norm (V c 0 0) = c). { unfold norm, dot. cbn. replace (c * c + 0 * 0 + 0 * 0) with (c * c) by ring. apply sqrt_square. lra. }
  assert (DL : is_derive (lam c) t (- c / (2 - c * t))). { unfold lam. auto_derive; [lra|field; lra]. }
  unfold thrust_field, gravity. rewrite Nc. unfold ramp, vadd, vscal. cbn [fst snd vx vy vz].
  assert (D0 : forall a : R, is_derive (fun _ : R => a) t 0) by (intros; apply der_const).
  split; [split; [split; [|split]|split; [|split]]|]; cbn [fst snd vx vy vz].
  - eapply der_to; [apply der_plus; [apply der_plus; [apply der_const|apply der_id]|apply der_mult; [apply der_minus; [apply der_const|apply der_id]|exact DL]]|]. cbv beta. field. lra.
  - apply D0.
  - apply D0.
  - eapply der_to; [apply der_opp; exact DL|]. unfold Rdiv. rewrite Ropp_0, !Rmult_0_l. field. lra.
  - eapply der_to; [apply D0|]. unfold Rdiv. ring.
  - eapply der_to; [apply D0|]. unfold Rdiv. ring.
  - auto_derive; [exact I|field].
Qed.

Definition wPt (m : R) (i k : nat) : R :=
  match i, k with
  | 0, 3 | 1, 4 | 2, 5 => (1)%R | 3, 6 => (- / (m * m))%R | 3, 7 | 4, 8 | 5, 9 => (/ m)%R | 6, 7 => (-1)%R | _, _ => (0)%R
  end%nat.
Definition wW (t : R) (i j : nat) : R :=
  match i, j with
  | 0, 0 | 1, 1 | 2, 2 | 3, 3 | 4, 4 | 5, 5 | 6, 6 => (1)%R
  | 0, 3 | 1, 4 | 2, 5 => (t)%R
  | 0, 6 => (t / 2 + ln (1 - t / 2))%R | 0, 7 => (- 2 * ln (1 - t / 2) - t)%R
  | 1, 8 | 2, 9 => (t + (2 - t) * ln (1 - t / 2))%R
  | 3, 6 => (1 / 2 - / (2 - t))%R | 3, 7 => (2 * / (2 - t) - 1)%R
  | 4, 8 | 5, 9 => (- ln (1 - t / 2))%R
  | 6, 7 => (- t)%R
  | _, _ => (0)%R
  end%nat.

Lemma der_moved z k j : is_derive (fun s => moved z k s j) 0 (if Nat.eqb j k then 1 else 0).
Proof. unfold moved. destruct (Nat.eqb j k); [auto_derive; [exact I|ring]|apply der_const]. Qed.
Lemma moved_0 z k j : moved z k 0 j = z j.
Proof. unfold moved. destruct (Nat.eqb j k); ring. Qed.
Lemma wpartial x i k : off_centre x -> (i < 7)%nat -> (k < 10)%nat -> partial (thrust_field 0 1) x (V 1 0 0) i k = wPt (snd x) i k.
Proof.
  intros [O1 O2] Hi Hk. destruct x as [[[x1 x2 x3] [x4 x5 x6]] x7]. cbn [fst snd] in *. unfold partial. apply is_derive_unique. cbv zeta.
  match goal with |- context [joined ?a ?b] => remember (joined a b) as z eqn:Ez end.
  assert (Z6 : z 6%nat = x7) by (rewrite Ez; reflexivity). assert (Z7 : z 7%nat = 1) by (rewrite Ez; reflexivity). assert (Z8 : z 8%nat = 0) by (rewrite Ez; reflexivity). assert (Z9 : z 9%nat = 0) by (rewrite Ez; reflexivity). clear Ez.
  assert (A : forall d, is_derive (fun s => / moved z k s 6 * moved z k s d) 0 (- (if Nat.eqb 6 k then 1 else 0) / (x7 * x7) * z d + / x7 * (if Nat.eqb d k then 1 else 0))).
  { intros d. eapply der_to; [apply der_mult; [apply der_inv; [apply der_moved|rewrite moved_0, Z6; exact O2]|apply der_moved]|]. cbv beta. rewrite !moved_0, Z6. reflexivity. }
  idx7 i Hi.
  - apply (der_ext (fun s => moved z k s 3)); [reflexivity|]. eapply der_to; [apply (der_moved z k 3)|]. do 10 (destruct k as [|k]; [reflexivity|]). lia.
  - apply (der_ext (fun s => moved z k s 4)); [reflexivity|]. eapply der_to; [apply (der_moved z k 4)|]. do 10 (destruct k as [|k]; [reflexivity|]). lia.
  - apply (der_ext (fun s => moved z k s 5)); [reflexivity|]. eapply der_to; [apply (der_moved z k 5)|]. do 10 (destruct k as [|k]; [reflexivity|]). lia.
  - apply (der_ext (fun s => / moved z k s 6 * moved z k s 7)); [intros s; unfold thrust_field, gravity, comp7, z_state, z_thrust, vadd, vscal, list7; cbn [fst snd vx vy vz nth]; unfold Rdiv; rewrite Ropp_0, !Rmult_0_l, Rplus_0_l; reflexivity|]. eapply der_to; [apply (A 7%nat)|]. rewrite Z7. do 10 (destruct k as [|k]; [cbn [Nat.eqb wPt]; field; exact O2|]). lia.
  - apply (der_ext (fun s => / moved z k s 6 * moved z k s 8)); [intros s; unfold thrust_field, gravity, comp7, z_state, z_thrust, vadd, vscal, list7; cbn [fst snd vx vy vz nth]; unfold Rdiv; rewrite Ropp_0, !Rmult_0_l, Rplus_0_l; reflexivity|]. eapply der_to; [apply (A 8%nat)|]. rewrite Z8. do 10 (destruct k as [|k]; [cbn [Nat.eqb wPt]; field; exact O2|]). lia.
  - apply (der_ext (fun s => / moved z k s 6 * moved z k s 9)); [intros s; unfold thrust_field, gravity, comp7, z_state, z_thrust, vadd, vscal, list7; cbn [fst snd vx vy vz nth]; unfold Rdiv; rewrite Ropp_0, !Rmult_0_l, Rplus_0_l; reflexivity|]. eapply der_to; [apply (A 9%nat)|]. rewrite Z9. do 10 (destruct k as [|k]; [cbn [Nat.eqb wPt]; field; exact O2|]). lia.
  - apply (der_ext (fun s => - norm (V (moved z k s 7) (moved z k s 8) (moved z k s 9)) / 1)); [reflexivity|].
    assert (N1 : norm (V 1 0 0) = 1). { unfold norm, dot. cbn. replace (1 * 1 + 0 * 0 + 0 * 0) with 1 by ring. apply sqrt_1. }
    assert (DN := der_norm (fun s => V (moved z k s 7) (moved z k s 8) (moved z k s 9)) 0 (V (if Nat.eqb 7 k then 1 else 0) (if Nat.eqb 8 k then 1 else 0) (if Nat.eqb 9 k then 1 else 0))).
    specialize (DN (conj (der_moved z k 7) (conj (der_moved z k 8) (der_moved z k 9)))). cbv beta in DN. rewrite !moved_0, Z7, Z8, Z9, N1 in DN. specialize (DN ltac:(intros E; apply (f_equal vx) in E; cbn in E; lra)).
    eapply der_to; [apply der_div; [apply der_opp; exact DN|apply der_const|lra]|]. cbv beta. unfold dot. cbn [vx vy vz]. do 10 (destruct k as [|k]; [cbn [Nat.eqb wPt]; field|]). lia.
Qed.
Ltac dv DL DI D2 :=
  lazymatch goal with
  | |- is_derive (fun _ => ?c) _ _ => apply (der_const c)
  | |- is_derive (fun x => x) _ _ => apply der_id
  | |- is_derive (fun x => ln _) _ _ => exact DL
  | |- is_derive (fun x => / (2 - x)) _ _ => exact DI
  | |- is_derive (fun x => x / 2) _ _ => exact D2
  | |- is_derive (fun x => - @?f x) _ _ => eapply (der_opp f); dv DL DI D2
  | |- is_derive (fun x => @?f x + @?g x) _ _ => eapply (der_plus f g); dv DL DI D2
  | |- is_derive (fun x => @?f x - @?g x) _ _ => eapply (der_minus f g); dv DL DI D2
  | |- is_derive (fun x => @?f x * @?g x) _ _ => eapply (der_mult f g); dv DL DI D2
  end.
Lemma wvar : variational (thrust_field 0 1) (V 1 0 0) 1 (ramp 1) wW.
Proof.
  intros t i j Ht Hi Hj _. destruct (ramp_arc 1 ltac:(lra) t Ht) as [O _]. unfold between in Ht. rewrite Rmin_left, Rmax_right in Ht by lra.
  eapply der_to.
  2:{ symmetry. rewrite (sum_ext 7 _ (fun k => wPt (2 - t) i k * wW t k j)).
      2:{ intros k Hk. rewrite wpartial by (try assumption; lia). cbn [snd ramp]. rewrite Rmult_1_l. reflexivity. }
      replace (if Nat.ltb j 7 then 0 else partial (thrust_field 0 1) (ramp 1 t) (V 1 0 0) i j) with (if Nat.ltb j 7 then 0 else wPt (2 - t) i j).
      2:{ destruct (Nat.ltb j 7); [reflexivity|]. rewrite wpartial by assumption. cbn [snd ramp]. rewrite Rmult_1_l. reflexivity. }
      reflexivity. }
  assert (P : 0 < 1 - t / 2) by lra.
  assert (DL : is_derive (fun x => ln (1 - x / 2)) t (- / (2 - t))) by (auto_derive; [lra|field; lra]).
  assert (DI : is_derive (fun x => / (2 - x)) t (/ ((2 - t) * (2 - t)))) by (auto_derive; [lra|field; lra]).
  assert (D2 : is_derive (fun x : R => x / 2) t (/ 2)) by (auto_derive; [exact I|field]).
  do 7 (destruct i as [|i]; [do 10 (destruct j as [|j]; [cbn [sum_n wPt wW Nat.ltb Nat.leb]; eapply der_to; [dv DL DI D2|cbv beta; field; lra]|]); lia|]). lia.
Qed.

Definition wrvmf : list R := [0; 1; 0; 0; 0; 0; 1].
Definition wleg : hg := mk_hg [1; 1; 0; 0; 0; 0; 2] vars0 [1 / 2; 0; 0] [1 / 2 * 2; 0 * 2; 0 * 2] wrvmf 1 2 (/ G0) 0 1 1 0 0 (/ G0 * G0).
Definition wend : list R := list7 (ramp 1 1) ++ map (fun k => wW 1 (k / 10) (k mod 10)) (seq 0 70).
Definition wtas (p : list R) (t0 t1 : R) (s : list R) : option (list R) :=
  if list_eq_dec Req_EM_T p [0; 1; 1; 0; 0] then if Req_EM_T (t1 - t0) 1 then if list_eq_dec Req_EM_T s ([1; 1; 0; 0; 0; 0; 2] ++ vars0) then Some wend else None else None else None.
Lemma veff_1 : / G0 * G0 = 1. Proof. unfold G0. lra. Qed.
Lemma lam_0 c : lam c 0 = 0. Proof. unfold lam. replace (1 - c * 0 / 2) with 1 by field. apply ln_1. Qed.
Lemma ramp_0 c : ramp c 0 = ((V 1 1 0, V 0 0 0), 2).
Proof. unfold ramp. rewrite lam_0, Ropp_0, !Rmult_0_r, Rplus_0_r, Rminus_0_r. repeat f_equal; ring. Qed.
Lemma arc_to_stark mu veff u h q : veff <> 0 -> arc (thrust_field mu veff u) h q -> arc (stark_dyn mu veff u) h q.
Proof. intros V A t Ht. destruct (A t Ht) as [O D]. split; [exact O|]. rewrite stark_field by assumption. exact D. Qed.
Lemma var_to_stark mu veff u h q W : veff <> 0 -> arc (thrust_field mu veff u) h q -> variational (thrust_field mu veff) u h q W -> variational (stark_dyn mu veff) u h q W.
Proof.
  intros V A H t i j Ht Hi Hj Hz. destruct (A t Ht) as [O _]. eapply der_to; [apply (H t i j Ht Hi Hj Hz)|].
  rewrite (partial_stark mu veff (q t) u i j V O). f_equal. apply sum_ext. intros k Hk. rewrite partial_stark by assumption. reflexivity.
Qed.
Lemma wW_0 i j : (i < 7)%nat -> (j < 10)%nat -> wW 0 i j = if Nat.eqb i j then 1 else 0.
Proof.
  intros Hi Hj. assert (L : ln (1 - 0 / 2) = 0) by (replace (1 - 0 / 2) with 1 by field; apply ln_1).
  do 7 (destruct i as [|i]; [do 10 (destruct j as [|j]; [cbn [wW Nat.eqb]; try rewrite L; lra|]); lia|]). lia.
Qed.
Lemma wtas_exact : tas_var_exact wtas.
Proof.
  intros mu veff ux uy uz t0 t1 s s' E Ls. unfold wtas in E.
  destruct (list_eq_dec Req_EM_T [mu; veff; ux; uy; uz] [0; 1; 1; 0; 0]) as [Ep|]; [|discriminate E]. destruct (Req_EM_T (t1 - t0) 1) as [Et|]; [|discriminate E].
  destruct (list_eq_dec Req_EM_T s ([1; 1; 0; 0; 0; 0; 2] ++ vars0)) as [Es|]; [|discriminate E].
  assert (Ee : s' = wend) by congruence. injection Ep as -> -> -> -> ->. rewrite Et, Ee, Es. split; [reflexivity|]. exists (ramp 1), wW.
  assert (A := ramp_arc 1 ltac:(lra)). split; [apply arc_to_stark; [lra|exact A]|]. split; [apply var_to_stark; [lra|exact A|exact wvar]|].
  split; [rewrite ramp_0; reflexivity|]. split; [reflexivity|]. intros i j Hi Hj. split.
  - rewrite wW_0 by assumption. rewrite app_nth2 by (cbn [length]; lia). cbn [length]. replace (7 + 10 * i + j - 7)%nat with (10 * i + j)%nat by lia. symmetry. apply vars0_nth; assumption.
  - unfold wend. rewrite app_nth2 by (cbn [length list7]; lia). change (length (list7 (ramp 1 1))) with 7%nat. replace (7 + 10 * i + j - 7)%nat with (10 * i + j)%nat by lia.
    rewrite HfGradLin.nth_map_seq by lia. rewrite (Nat.mul_comm 10 i), Nat.add_comm, Nat.div_add, Nat.mod_add by lia. rewrite Nat.div_small, Nat.mod_small by exact Hj. reflexivity.
Qed.
Lemma wleg_proper : proper_hf wleg.
Proof.
  split; [cbn; repeat split; lia|]. split; [reflexivity|]. split; [reflexivity|]. split; [reflexivity|]. split; [reflexivity|]. split; [reflexivity|]. split; [reflexivity|]. split; [reflexivity|].
  cbn. apply Rinv_0_lt_compat. unfold G0. lra.
Qed.
Lemma wleg_thrusting : thrusting wleg.
Proof. split; [cbn; lra|]. intros i Hi. cbn in Hi. replace i with 0%nat by lia. intros E. apply (f_equal vx) in E. cbn in E. lra. Qed.
Lemma wtas_run t : wtas [0; / G0 * G0; 1 / 2 * 2; 0 * 2; 0 * 2] 0 (1 * (1 / 1)) ([1; 1; 0; 0; 0; 0; 2] ++ vars0) = t -> t = Some wend.
Proof.
  intros <-. unfold wtas. replace (1 / 2 * 2) with 1 by field. rewrite veff_1, !Rmult_0_l. destruct (list_eq_dec Req_EM_T [0; 1; 1; 0; 0] [0; 1; 1; 0; 0]) as [_|N]; [|contradiction].
  destruct (Req_EM_T (1 * (1 / 1) - 0) 1) as [_|N]; [|exfalso; apply N; field]. destruct (list_eq_dec Req_EM_T ([1; 1; 0; 0; 0; 0; 2] ++ vars0) ([1; 1; 0; 0; 0; 0; 2] ++ vars0)) as [_|N]; [reflexivity|contradiction].
Qed.
Lemma wleg_runs : exists A B G, compute_mc_grad wtas wleg = Ret (A, B, G).
Proof.
  assert (S := mc_grad_safe wtas wleg wleg_proper (exact_sized _ wtas_exact)).
  assert (N : compute_mc_grad wtas wleg <> Throw DomainError).
  { unfold compute_mc_grad, compute_all_gradients. change (Z.to_nat (g_fwd wleg)) with 1%nat. change (Z.to_nat (g_bck wleg)) with 0%nat. cbn [vfwd vbck].
    match goal with |- context [bind (cut ?a ?b ?c)] => change (cut a b c) with (Ret [1 / 2 * 2; 0 * 2; 0 * 2]) end. cbn [bind].
    change (IZR (u32 (0 + 1)) * (g_tof wleg / IZR (g_nseg wleg))) with (1 * (1 / 1)).
    unfold run. change (g_pmu wleg :: g_pveff wleg :: [1 / 2 * 2; 0 * 2; 0 * 2]) with [0; / G0 * G0; 1 / 2 * 2; 0 * 2; 0 * 2]. change (g_rvms wleg ++ g_vars wleg) with ([1; 1; 0; 0; 0; 0; 2] ++ vars0).
    rewrite (wtas_run _ eq_refl). generalize wend. intros w E. cbv -[R Rplus Rmult Rinv Ropp IZR dxdx_of dxdu_of firstn mdot state_derivative final_array add_l negl eye7 map zeros Rdiv] in E. discriminate E. }
  destruct (compute_mc_grad wtas wleg) as [[[A B] G]|e|]; [exists A, B, G; reflexivity|exfalso; apply N; rewrite S; reflexivity|contradiction].
Qed.

(** the throttle is moved away from 1/2 *)
Definition wth (e : R) : list R := [1 / 2 + e; 0; 0].
Definition wy (e : R) : col7 := minus7 (ramp (2 * (1 / 2 + e)) 1) (col_of wrvmf).
Lemma wy_flown e : Rabs e < 1 / 4 -> flown 0 (/ G0 * G0) 2 1 1 (col_of [1; 1; 0; 0; 0; 0; 2]) (wth e) (col_of wrvmf) 1 (wy e).
Proof.
  intros He. apply Rabs_lt_between in He. rewrite veff_1. unfold flown. cbn [throttles seq map firstn skipn rev legs]. exists (ramp (2 * (1 / 2 + e)) 1), (col_of wrvmf).
  split; [|split; [reflexivity|reflexivity]]. exists (ramp (2 * (1 / 2 + e)) 1). split; [|reflexivity]. exists (ramp (2 * (1 / 2 + e))). replace (1 / INR 1) with 1 by (cbn; field).
  split; [|split; [rewrite ramp_0; reflexivity|reflexivity]]. replace (vscal 2 (thr_vec (wth e) 0)) with (V (2 * (1 / 2 + e)) 0 0) by (unfold vscal, thr_vec, wth; cbn; apply vec_eq; cbn; ring).
  apply ramp_arc. lra.
Qed.
Lemma const_derive7 (p : col7) t : derive7 (fun _ => p) t ((V 0 0 0, V 0 0 0), 0).
Proof. apply comp7_derive. intros i Hi. eapply der_to; [apply (der_const (comp7 p i))|]. idx7 i Hi; reflexivity. Qed.
Lemma wdth : derive_list wth 0 [1; 0; 0].
Proof.
  split; [reflexivity|]. intros j. unfold wth. destruct j as [|[|[|j]]]; cbn [nth].
  - eapply der_to; [apply der_plus; [apply der_const|apply der_id]|]. ring.
  - apply der_const.
  - apply der_const.
  - destruct j; apply der_const.
Qed.
Lemma w_not_plain A B G k : hf_jacobian 0 (/ G0 * G0) 2 1 1 (col_of [1; 1; 0; 0; 0; 0; 2]) [1 / 2; 0; 0] (col_of wrvmf) 1 k A B G -> k * nth 24 G 0 = -2.
Proof.
  intros [_ [_ [_ J]]].
  specialize (J (fun _ => col_of [1; 1; 0; 0; 0; 0; 2]) wth (fun _ => col_of wrvmf) (fun _ => 1) wy ((V 0 0 0, V 0 0 0), 0) [1; 0; 0] ((V 0 0 0, V 0 0 0), 0) 0).
  specialize (J eq_refl ltac:(unfold wth; rewrite Rplus_0_r; reflexivity) eq_refl eq_refl (const_derive7 _ 0) wdth (const_derive7 _ 0) (der_const 1 0)).
  specialize (J ltac:(exists (1 / 4); split; [lra|]; intros e He; apply wy_flown; exact He)).
  destruct J as [_ J]. cbn [snd] in J.
  assert (D : is_derive (fun u => snd (wy u)) 0 (-2)). { unfold wy, minus7. cbn [snd ramp]. auto_derive; [exact I|ring]. }
  apply is_derive_unique in J. apply is_derive_unique in D. rewrite D in J. rewrite J. unfold plus7, apply7, row. cbn [snd fst list7 sum_n map app nth vx vy vz plus mult]. change (7 * 6)%nat with 42%nat; change (3 * 1 + 1)%nat with 4%nat; cbn [sum_n Nat.mul Nat.add Init.Nat.add Init.Nat.mul]; ring.
Qed.
Lemma plain_refuted : exists (l : hg) tas_var A B G, tas_var_exact tas_var /\ proper_hf l /\ thrusting l /\ compute_mc_grad tas_var l = Ret (A, B, G) /\
  ~ hf_jacobian (g_mu l) (g_isp l * G0) (g_T l) (Z.to_nat (g_nseg l)) (Z.to_nat (g_fwd l)) (col_of (g_rvms l)) (g_thr l) (col_of (g_rvmf l)) (g_tof l) 1 A B G.
Proof.
  destruct wleg_runs as [A [B [G E]]]. exists wleg, wtas, A, B, G. split; [exact wtas_exact|]. split; [exact wleg_proper|]. split; [exact wleg_thrusting|]. split; [exact E|].
  intros J. assert (J2 := mc_grad_jacobian wtas wleg wleg_proper A B G wtas_exact wleg_thrusting E).
  assert (Q1 := w_not_plain A B G 1 J). assert (Q2 := w_not_plain A B G 2 J2). lra.
Qed.

(** with unit maximum thrust the returned matrices are the plain derivatives *)
Lemma unit_thrust tas_var l A B G : tas_var_exact tas_var -> proper_hf l -> thrusting l -> g_T l = 1 -> compute_mc_grad tas_var l = Ret (A, B, G) ->
  hf_jacobian (g_mu l) (g_isp l * G0) 1 (Z.to_nat (g_nseg l)) (Z.to_nat (g_fwd l)) (col_of (g_rvms l)) (g_thr l) (col_of (g_rvmf l)) (g_tof l) 1 A B G.
Proof. intros X P Q T E. assert (J := mc_grad_jacobian tas_var l P A B G X Q E). rewrite T in J. exact J. Qed.
Lemma gradient_scaled tas_var l A B G : tas_var_exact tas_var -> proper_hf l -> thrusting l -> compute_mc_grad tas_var l = Ret (A, B, G) ->
  hf_jacobian (g_mu l) (g_isp l * G0) (g_T l) (Z.to_nat (g_nseg l)) (Z.to_nat (g_fwd l)) (col_of (g_rvms l)) (g_thr l) (col_of (g_rvmf l)) (g_tof l) (g_T l) A B G.
Proof. intros X P Q E. exact (mc_grad_jacobian tas_var l P A B G X Q E). Qed.
Lemma gradient_safe tas_var l : tas_var_sized tas_var -> proper_hf l ->
  match compute_mc_grad tas_var l with
  | Ret (A, B, G) => length A = 49%nat /\ length B = 49%nat /\ length G = (7 * (3 * Z.to_nat (g_nseg l) + 1))%nat
  | Throw e => e = DomainError
  | UB => False
  end.
Proof. intros X P. exact (mc_grad_safe tas_var l P X). Qed.
Lemma mismatch_safe tas l : tas_sized tas -> proper_hf l ->
  match compute_mismatch_hf tas l with Ret y => length y = 7%nat | Throw e => e = DomainError | UB => False end.
Proof. intros X P. exact (mismatch_hf_safe tas l P X). Qed.
Lemma mismatch_flown tas l y : tas_exact tas -> proper_hf l -> compute_mismatch_hf tas l = Ret y ->
  flown (g_mu l) (g_isp l * G0) (g_T l) (Z.to_nat (g_nseg l)) (Z.to_nat (g_fwd l)) (col_of (g_rvms l)) (g_thr l) (col_of (g_rvmf l)) (g_tof l) (col_of y).
Proof. intros X P. exact (mismatch_hf_flown tas l P (tas_exact_sized tas X) y X). Qed.
(** a leg of one segment at thrust 1: the mass at its end falls by 2 per unit of throttle, and the code returns 1 *)
Lemma wleg_mass : exists A B G, compute_mc_grad wtas wleg = Ret (A, B, G) /\ nth 24 G 0 = -1 /\
  hf_jacobian 0 (g_isp wleg * G0) 2 1 1 (col_of [1; 1; 0; 0; 0; 0; 2]) [1 / 2; 0; 0] (col_of wrvmf) 1 2 A B G.
Proof.
  destruct wleg_runs as [A [B [G E]]]. exists A, B, G. assert (J2 := mc_grad_jacobian wtas wleg wleg_proper A B G wtas_exact wleg_thrusting E).
  assert (Q2 := w_not_plain A B G 2 J2). split; [exact E|]. split; [lra|exact J2].
Qed.
