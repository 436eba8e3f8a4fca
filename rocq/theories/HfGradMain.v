(** * compute_mc_grad returns the Jacobian of the mismatch *)
From Coq Require Import Reals Lra Lia List ZArith Bool.
From Coquelicot Require Import Coquelicot.
From Verif Require Import Outcome RealLib Vec3 TwoBodySpec DynSpec DynModel DynProofs SfModel SfSpec SfGrad OdeLib OdeSd HfGradModel HfGradSpec HfGradFlow HfGradAlg HfGradLin HfGradChain HfGradAll.
Import ListNotations.
Open Scope R_scope.

Lemma flat_nth_lt {A} w (f : nat -> list A) d p : forall a i j, (forall x, (a <= x < a + p)%nat -> length (f x) = w) -> (i < p)%nat -> (j < w)%nat ->
  nth (w * i + j) (flat_map f (seq a p)) d = nth j (f (a + i)%nat) d.
Proof.
  induction p as [|p IH]; intros a i j L Hi Hj; [lia|]. cbn [seq flat_map]. assert (La := L a ltac:(lia)). destruct i as [|i].
  - rewrite Nat.mul_0_r, Nat.add_0_l, Nat.add_0_r. apply app_nth1. rewrite La. exact Hj.
  - rewrite app_nth2; rewrite La; [|lia]. replace (w * S i + j - w)%nat with (w * i + j)%nat by lia. rewrite IH; [f_equal; f_equal; lia|intros; apply L; lia|lia|lia].
Qed.
Lemma nth_firstn {A} (d : A) n : forall j v, (j < n)%nat -> nth j (firstn n v) d = nth j v d.
Proof. induction n as [|n IH]; intros j v H; [lia|]. destruct v as [|a v]; [reflexivity|]. destruct j as [|j]; [reflexivity|]. cbn. apply IH. lia. Qed.
Lemma nth_skipn {A} (d : A) n : forall j v, nth j (skipn n v) d = nth (n + j) v d.
Proof. induction n as [|n IH]; intros j v; [reflexivity|]. destruct v as [|a v]; [destruct j; reflexivity|]. cbn. apply IH. Qed.
Lemma dxdx_nth s i j : length s = 77%nat -> (i < 7)%nat -> (j < 7)%nat -> nth (7 * i + j) (dxdx_of s) 0 = nth (7 + 10 * i + j) s 0.
Proof.
  intros L Hi Hj. unfold dxdx_of. rewrite flat_nth_lt; [|intros x Hx; rewrite firstn_length, skipn_length; lia|exact Hi|exact Hj].
  rewrite nth_firstn, nth_skipn by exact Hj. reflexivity.
Qed.
Lemma dxdu_nth s i j : length s = 77%nat -> (i < 7)%nat -> (j < 3)%nat -> nth (3 * i + j) (dxdu_of s) 0 = nth (7 + 10 * i + (7 + j)) s 0.
Proof.
  intros L Hi Hj. unfold dxdu_of. rewrite flat_nth_lt; [|intros x Hx; rewrite firstn_length, skipn_length; lia|exact Hi|exact Hj].
  rewrite nth_firstn, nth_skipn by exact Hj. f_equal. lia.
Qed.
Lemma col_of_app x v : length x = 7%nat -> col_of (x ++ v) = col_of x.
Proof. intros L. unfold col_of. rewrite !app_nth1 by lia. reflexivity. Qed.
Lemma col_of_first s : col_of (firstn 7 s) = col_of s.
Proof. unfold col_of. rewrite !nth_firstn by lia. reflexivity. Qed.
Lemma vars0_len : length vars0 = 70%nat. Proof. reflexivity. Qed.
Lemma vars0_nth i j : (i < 7)%nat -> (j < 10)%nat -> nth (10 * i + j) vars0 0 = if Nat.eqb i j then 1 else 0.
Proof.
  intros Hi Hj. unfold vars0. rewrite nth_map_seq by lia. rewrite (Nat.mul_comm 10 i), Nat.add_comm, Nat.div_add, Nat.mod_add by lia. rewrite Nat.div_small, Nat.mod_small by exact Hj. reflexivity.
Qed.
Lemma comp7_col s k : (k < 7)%nat -> comp7 (col_of s) k = nth k s 0.
Proof. intros Hk. idx7 k Hk; reflexivity. Qed.
Lemma state_derivative_nth l s u k : (k < 7)%nat -> nth k (state_derivative l s u) 0 = comp7 (stark_dyn (g_mu l) (g_isp l * G0) (vscal (g_T l) u) (col_of s)) k.
Proof.
  intros Hk. unfold state_derivative. cbv zeta. rewrite leg_field. change ((V (nth 0 s 0) (nth 1 s 0) (nth 2 s 0), V (nth 3 s 0) (nth 4 s 0) (nth 5 s 0)), nth 6 s 0) with (col_of s).
  destruct (stark_dyn (g_mu l) (g_isp l * G0) (vscal (g_T l) u) (col_of s)) as [[r v] m]. reflexivity.
Qed.

Lemma firstn_seq k m : forall a, (k <= m)%nat -> firstn k (seq a m) = seq a k.
Proof. revert m. induction k as [|k IH]; intros m a L; [reflexivity|]. destruct m as [|m]; [lia|]. cbn [seq firstn]. rewrite IH by lia. reflexivity. Qed.
Lemma skipn_seq k m : forall a, (k <= m)%nat -> skipn k (seq a m) = seq (a + k) (m - k).
Proof. revert m. induction k as [|k IH]; intros m a L; [rewrite Nat.add_0_r, Nat.sub_0_r; reflexivity|]. destruct m as [|m]; [lia|]. cbn [seq skipn Nat.sub]. rewrite IH by lia. f_equal; lia. Qed.
Lemma us_firstn T m k : (k <= m)%nat -> forall th, firstn k (map (vscal T) (throttles m th)) = map (fun j => vscal T (thr_vec th j)) (seq 0 k).
Proof. intros L th. unfold throttles. rewrite map_map, firstn_map, firstn_seq by exact L. reflexivity. Qed.
Lemma rev_seq_map {A} (f : nat -> A) m a : rev (map f (seq a m)) = map (fun j => f (a + m - 1 - j)%nat) (seq 0 m).
Proof.
  revert a. induction m as [|m IH]; intros a; [reflexivity|]. change (seq a (S m)) with (a :: seq (S a) m). cbn [map rev]. rewrite IH. rewrite seq_S, map_app. cbn [map plus]. f_equal; [|f_equal; f_equal; lia].
  apply map_ext_in. intros j Hj. apply in_seq in Hj. f_equal. lia.
Qed.
Lemma us_skipn T m k : (k <= m)%nat -> forall th, rev (skipn k (map (vscal T) (throttles m th))) = map (fun j => vscal T (thr_vec th (m - 1 - j))) (seq 0 (m - k)).
Proof.
  intros L th. unfold throttles. rewrite map_map, skipn_map, skipn_seq by exact L. rewrite rev_seq_map. apply map_ext. intros j. do 2 f_equal. lia.
Qed.

Lemma exact_sized tas : tas_var_exact tas -> tas_var_sized tas.
Proof. intros H a b c d e t t1 s s' E L. exact (proj1 (H a b c d e t t1 s s' E L)). Qed.

Section Main.
Variable tas_var : list R -> R -> R -> list R -> option (list R).
Variable l : hg.
Hypothesis Hl : proper_hf l.
Let n : nat := Z.to_nat (g_nseg l).
Let nf : nat := Z.to_nat (g_fwd l).
Let nb : nat := Z.to_nat (g_bck l).
Let veff : R := g_isp l * G0.
Let h : R := g_tof l / INR n.

Lemma veff_nz : veff <> 0.
Proof. destruct Hl as [_ [_ [_ [_ [_ [_ [_ [_ P]]]]]]]]. unfold veff. apply Rgt_not_eq. apply Rmult_lt_0_compat; [exact P|]. unfold G0. lra. Qed.
Definition thrust_of (j : nat) : vec := vscal (g_T l) (thr_vec (g_thr l) j).
Lemma thrust3_vec j : thrust3 l j = [vx (thrust_of j); vy (thrust_of j); vz (thrust_of j)].
Proof. unfold thrust3, thrust_of, vscal, thr_vec. cbn [vx vy vz]. rewrite !(Rmult_comm (g_T l)). reflexivity. Qed.

(** one call of the exact variational integrator *)
Definition seg_of (d : R) (j : nat) (x s' : list R) : Prop :=
  thrust_of j <> vzero -> seg_data (g_mu l) veff d (thrust_of j) (col_of x) (col_of (firstn 7 s')) (dxdx_of s') (dxdu_of s') (state_derivative l x (thr_vec (g_thr l) j)).
Lemma seg_of_exact : tas_var_exact tas_var -> forall j t t1 x s', (j < n)%nat -> length x = 7%nat -> tas_var (g_pmu l :: g_pveff l :: thrust3 l j) t t1 (x ++ g_vars l) = Some s' ->
  length s' = 77%nat /\ seg_of (t1 - t) j x s'.
Proof.
  intros HT j t t1 x s' Hj Lx E. pose proof Hl as [_ [_ [_ [_ [_ [V0 [P1 [P2 _]]]]]]]]. rewrite P1, P2, V0, thrust3_vec in E.
  destruct (HT _ _ _ _ _ _ _ _ _ E) as [L77 [q [W [A [Va [Q0 [Q1 HW]]]]]]]; [rewrite app_length, Lx, vars0_len; reflexivity|]. split; [exact L77|].
  intros Nz. assert (Eu : V (vx (thrust_of j)) (vy (thrust_of j)) (vz (thrust_of j)) = thrust_of j) by (destruct (thrust_of j); reflexivity). rewrite Eu in A, Va. fold veff in A, Va.
  rewrite col_of_app in Q0 by exact Lx.
  assert (A' := arc_stark _ _ _ _ _ veff_nz A).
  split; [exact Nz|]. split.
  - intros k Hk. rewrite state_derivative_nth by exact Hk. fold veff. fold (thrust_of j). rewrite stark_field; [reflexivity| |apply veff_nz]. rewrite <- Q0. apply (A 0). unfold between. split; [apply Rmin_l|apply Rmax_l].
  - exists q, W. split; [exact A'|]. split; [apply var_stark; [apply veff_nz|exact A|exact Va]|]. split; [exact Q0|]. split; [rewrite col_of_first; exact Q1|]. split; [|split].
    + intros i k Hi Hk. destruct (HW i k Hi Hk) as [-> _]. rewrite app_nth2 by lia. rewrite Lx. replace (7 + 10 * i + k - 7)%nat with (10 * i + k)%nat by lia. apply vars0_nth; assumption.
    + intros i k Hi Hk. destruct (HW i k Hi ltac:(lia)) as [_ ->]. rewrite dxdx_nth by assumption. reflexivity.
    + intros i k Hi Hk. destruct (HW i (7 + k)%nat Hi ltac:(lia)) as [_ ->]. rewrite dxdu_nth by assumption. reflexivity.
Qed.

Lemma proper_nat : g_nseg l = Z.of_nat n /\ g_fwd l = Z.of_nat nf /\ g_bck l = Z.of_nat nb /\ (nf + nb = n)%nat /\ (0 < n)%nat /\ (3 * Z.of_nat n + 1 < 2 ^ 32)%Z /\
  length (g_thr l) = (3 * n)%nat /\ g_thrusts l = map (fun x => x * g_T l) (g_thr l) /\ length (g_rvms l) = 7%nat /\ length (g_rvmf l) = 7%nat.
Proof. destruct Hl as [[A [B [C [D E]]]] [F [G [H [I _]]]]]. unfold n, nf, nb. rewrite !Z2Nat.id by lia. repeat split; try assumption; lia. Qed.

(** no undefined behaviour and none of the two runtime errors, whatever the integrator returns *)
Lemma mc_grad_safe : tas_var_sized tas_var ->
  match compute_mc_grad tas_var l with Ret (A, B, G) => length A = 49%nat /\ length B = 49%nat /\ length G = (7 * (3 * n + 1))%nat | Throw e => e = DomainError | UB => False end.
Proof.
  intros HT. destruct proper_nat as [En [Ef [Eb [Hn [Hp [Hb [Lt [Et [Ls Lf]]]]]]]]].
  assert (Q := all_gradients_ok tas_var l n nf nb En Ef Eb Hn Hp Hb Lt Et Ls Lf (fun _ _ _ _ => True)).
  assert (V0 : g_vars l = vars0) by apply Hl.
  specialize (Q ltac:(intros j t t1 x s' _ Lx E; split; [|exact I]; apply (HT _ _ _ _ _ _ _ _ _ E); rewrite app_length, Lx, V0, vars0_len; reflexivity)).
  unfold compute_mc_grad. destruct (compute_all_gradients tas_var l) as [[[M U] F]|e|]; [|exact Q|exact Q]. cbn [bind].
  destruct Q as [LM [LU [LF [xf [Q1 Q2]]]]].
  destruct (relevant_spec n nf nb Hn Hb M U F LM LU LF Hp) as [th [Lth [Hth E]]]. rewrite En, Ef, Eb, E.
  assert (LL : forall j, (j < n)%nat -> length (nth j M []) = 49%nat).
  { assert (D49 : forall s, length s = 77%nat -> length (dxdx_of s) = 49%nat).
    { intros s L. unfold dxdx_of. cbn [seq flat_map]. rewrite !app_length, !firstn_length, !skipn_length, L. reflexivity. }
    intros j Hj. destruct (Nat.lt_ge_cases j nf) as [L|L].
    - destruct (Q1 j L) as [s' [L7 [_ [_ [-> _]]]]]. apply D49. exact L7.
    - destruct (Q2 (n - 1 - j)%nat ltac:(lia)) as [s' [L7 [_ [_ [E2 _]]]]]. replace (n - 1 - (n - 1 - j))%nat with j in E2 by lia. rewrite E2. apply D49. exact L7. }
  assert (LP : forall k, (0 < nf)%nat -> length (Pf nf M k) = 49%nat) by (intros [|k] Z; [cbn [Pf]; apply LL; lia|apply mdot_len]).
  assert (LB : forall k, (0 < nb)%nat -> length (Pb nf M k) = 49%nat) by (intros [|k] Z; [cbn [Pb]; apply LL; lia|apply mdot_len]).
  split; [|split].
  - unfold grad_A. destruct (Nat.ltb_spec 0 nf) as [L|L]; [apply LP; exact L|reflexivity].
  - unfold grad_B. destruct (Nat.ltb_spec 0 nb) as [L|L]; [unfold negl; rewrite map_length; apply LB; exact L|reflexivity].
  - unfold final_array. rewrite (flat_len_w (3 * n + 1)); [lia|]. intros. rewrite app_length, map_length, seq_length. reflexivity.
Qed.

Definition du_of (k : R) (dth : list R) (j c : nat) : R := k * nth (3 * j + c) dth 0.
Lemma thr_derive (th : R -> list R) dth k j : derive_list th 0 dth -> u_derive (fun e => vscal k (thr_vec (th e) j)) 0 (du_of k dth j).
Proof.
  intros [_ D] c Hc. unfold comp3, du_of, vscal, thr_vec. destruct c as [|[|[|c]]]; try lia; cbn [vx vy vz nth].
  - apply der_scal. replace (3 * j + 0)%nat with (3 * j)%nat by lia. apply D.
  - apply der_scal. apply D.
  - apply der_scal. apply D.
Qed.
Lemma mc_grad_jacobian A B G : tas_var_exact tas_var -> thrusting l -> compute_mc_grad tas_var l = Ret (A, B, G) ->
  hf_jacobian (g_mu l) veff (g_T l) n nf (col_of (g_rvms l)) (g_thr l) (col_of (g_rvmf l)) (g_tof l) (g_T l) A B G.
Proof.
  intros HT [T0 Nz] Eg. destruct proper_nat as [En [Ef [Eb [Hn [Hp [Hb [Lt [Et [Ls Lf]]]]]]]]].
  assert (Sz := mc_grad_safe (exact_sized _ HT)). rewrite Eg in Sz. destruct Sz as [SA [SB SG]].
  split; [exact SA|]. split; [exact SB|]. split; [exact SG|]. clear SA SB SG.
  assert (Q := all_gradients_ok tas_var l n nf nb En Ef Eb Hn Hp Hb Lt Et Ls Lf seg_of (seg_of_exact HT)).
  unfold compute_mc_grad in Eg. destruct (compute_all_gradients tas_var l) as [[[M U] F]|e|]; [|discriminate Eg|discriminate Eg]. cbn [bind] in Eg.
  destruct Q as [LM [LU [LF [xf [Q1 Q2]]]]].
  destruct (relevant_spec n nf nb Hn Hb M U F LM LU LF Hp) as [th0 [Lth [Hth E]]]. rewrite En, Ef, Eb, E in Eg. clear E.
  assert (EA : grad_A nf M = A) by congruence. assert (EB : grad_B nf nb M = B) by congruence. assert (EG : final_array n th0 (map (fun x => x / IZR (Z.of_nat n)) (tof_acc nf M F n)) = G) by congruence. clear Eg.
  intros xs th xf1 tof y dxs dth dxf dtof X0 Th0 Xf0 Tof0 Dxs Dth Dxf Dtof Fl.
  assert (Nt : forall j, (j < n)%nat -> thrust_of j <> vzero).
  { intros j Hj Z. apply (Nz j Hj). unfold thrust_of, vscal, vzero in Z. destruct (thr_vec (g_thr l) j) as [a b c]. cbn [vx vy vz] in Z.
    assert (Z1 := f_equal vx Z). assert (Z2 := f_equal vy Z). assert (Z3 := f_equal vz Z). cbn [vx vy vz] in Z1, Z2, Z3.
    apply Rmult_integral in Z1. apply Rmult_integral in Z2. apply Rmult_integral in Z3. destruct Z1 as [?|Z1]; [contradiction|]. destruct Z2 as [?|Z2]; [contradiction|]. destruct Z3 as [?|Z3]; [contradiction|]. subst. reflexivity. }
  assert (DH : is_derive (fun e => tof e / INR n) 0 (dtof / INR n)).
  { apply (is_derive_ext (fun e => / INR n * tof e)); [intros e; exact (Rmult_comm _ _)|]. eapply der_to; [apply der_scal; exact Dtof|]. apply Rmult_comm. }
  assert (DH' : is_derive (fun e => - (tof e / INR n)) 0 (- (dtof / INR n))) by (apply der_opp; exact DH).
  (* forward *)
  assert (FF := fam_legs (g_mu l) veff veff_nz (fun j e => vscal (g_T l) (thr_vec (th e) j)) (fun e => tof e / INR n) h (dtof / INR n)
     (fun j => col_of (stf l xf j)) (fun j => nth j M []) (fun j => nth j U []) (fun j => nth j F []) (du_of (g_T l) dth) ltac:(cbv beta; rewrite Tof0; reflexivity) DH nf (fun e x => x = xs e) (comp7 dxs)).
  specialize (FF ltac:(intros j Hj; split; [|apply thr_derive; exact Dth]; destruct (Q1 j Hj) as [s' [_ [S1 [S2 [S3 [S4 S5]]]]]]; cbv beta; rewrite Th0, S3, S4, S5; cbn [stf]; rewrite S2; apply S1, Nt; lia)).
  specialize (FF ltac:(cbn [stf]; rewrite <- X0; apply fam_curve; exact Dxs)).
  (* backward *)
  assert (FB := fam_legs (g_mu l) veff veff_nz (fun j e => vscal (g_T l) (thr_vec (th e) (n - 1 - j))) (fun e => - (tof e / INR n)) (- h) (- (dtof / INR n))
     (fun j => col_of (stb l n xf j)) (fun j => nth (n - 1 - j) M []) (fun j => nth (n - 1 - j) U []) (fun j => nth (n - 1 - j) F []) (fun j => du_of (g_T l) dth (n - 1 - j)) ltac:(cbv beta; rewrite Tof0; reflexivity) DH' nb (fun e x => x = xf1 e) (comp7 dxf)).
  specialize (FB ltac:(intros j Hj; split; [|apply (thr_derive th dth (g_T l) (n - 1 - j)); exact Dth]; destruct (Q2 j Hj) as [s' [_ [S1 [S2 [S3 [S4 S5]]]]]]; cbv beta; rewrite Th0, S3, S4, S5; cbn [stb]; rewrite S2; apply S1, Nt; lia)).
  specialize (FB ltac:(cbn [stb]; rewrite <- Xf0; apply fam_curve; exact Dxf)).
  apply comp7_derive. intros i Hi. eapply der_to.
  - apply (fam_minus _ _ _ _ _ _ y FF FB); [|exact Hi]. destruct Fl as [eps [Ep Fl]]. exists eps. split; [exact Ep|]. intros e Ee. destruct (Fl e Ee) as [pf [pb [L1 [L2 Ey]]]]. exists pf, pb.
    split; [exists (xs e); split; [reflexivity|]; rewrite us_firstn in L1 by lia; exact L1|]. split; [exists (xf1 e); split; [reflexivity|]; rewrite us_skipn in L2 by lia; replace (n - nf)%nat with nb in L2 by lia; exact L2|exact Ey].
  - rewrite !comp7_plus, !comp7_apply by exact Hi.
    assert (T := total_arrays n nf nb Hn Hp M U F (comp7 dxs) (comp7 dxf) (du_of (g_T l) dth) (dtof / INR n) th0 dtof i Hi Hth eq_refl). unfold fwd_lin, bck_lin in T. rewrite T, EA, EB, EG.
    assert (Ld : length dth = (3 * n)%nat) by (destruct Dth as [-> _]; rewrite Th0; exact Lt).
    f_equal; f_equal. unfold row, ap. apply sum_ext. intros c Hc. f_equal. destruct (Nat.ltb_spec c (3 * n)) as [L|L].
    + rewrite app_nth1 by (rewrite map_length, Ld; exact L). rewrite (nth_indep _ 0 (g_T l * 0)) by (rewrite map_length, Ld; exact L). rewrite (map_nth (Rmult (g_T l))). unfold du_of. f_equal. f_equal. symmetry. apply Nat.div_mod. lia.
    + rewrite app_nth2 by (rewrite map_length, Ld; exact L). rewrite map_length, Ld. replace (c - 3 * n)%nat with 0%nat by lia. reflexivity.
Qed.
End Main.
