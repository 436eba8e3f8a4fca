(** * The point-to-point problem *)
From Coq Require Import Reals Lra Lia ZArith Bool.
From Coquelicot Require Import Coquelicot.
From Coq Require Import List.
From Verif Require Import Outcome PartialReal RealLib KepSpec Vec3 TwoBodyModel TwoBodySpec TcModel TcSpec TcProofs MgaSpec DynModel KplaModel StmProofs SfModel SfSpec SfGrad SfMain SfJac DirectModel DirectSpec SparseLib.
Import ListNotations.
Open Scope R_scope.

(** ** The leg *)
Lemma int_part_bounds n cut : 0 <= cut <= 1 -> (0 <= Int_part (INR n * cut) <= Z.of_nat n)%Z.
Proof.
  intros [C1 C2]. pose proof (pos_INR n) as N. destruct (base_Int_part (INR n * cut)) as [B1 B2].
  assert (H1 : 0 <= INR n * cut) by (apply Rmult_le_pos; lra). assert (H2 : INR n * cut <= INR n) by nra. rewrite INR_IZR_INZ in *. split.
  - assert (-1 < Int_part (IZR (Z.of_nat n) * cut))%Z; [|lia]. apply lt_IZR. lra.
  - apply le_IZR. lra.
Qed.
Lemma set_leg_ok rvs ms rvf mf tof T isp mu cut n th : (0 < n)%nat -> length th = (3 * n)%nat -> 0 <= tof ->
  set_leg rvs ms rvf mf (tof * day2sec) T isp mu cut th = Ret (direct_leg rvs ms rvf mf tof T isp mu cut n th).
Proof.
  intros N L Tf. unfold set_leg, direct_leg, fwd_of, day2sec. destruct (Rlt_dec (tof * 86400) 0) as [F|_]; [lra|].
  rewrite L. replace (Z.of_nat (3 * n)) with (Z.of_nat n * 3)%Z by lia. rewrite Z.mod_mul, Z.div_mul by lia.
  replace (Z.eqb (Z.of_nat n * 3) 0) with false by (symmetry; apply Z.eqb_neq; lia). cbn [Z.eqb negb orb]. rewrite <- INR_IZR_INZ. reflexivity.
Qed.
Lemma direct_proper rvs ms rvf mf tof T isp mu cut n th : (0 < n)%nat -> length th = (3 * n)%nat -> 0 <= cut <= 1 -> 0 < ms -> 0 < mu -> 0 <= T -> 0 < isp -> 0 < mf -> 0 < tof ->
  proper (direct_leg rvs ms rvf mf tof T isp mu cut n th).
Proof.
  intros N L C Ms Mu Th Isp Mf Tf. unfold proper, direct_leg, fwd_of. cbn. pose proof (int_part_bounds n cut C). rewrite Nat2Z.id.
  repeat split; try lia; try assumption; try lra.
Qed.
Lemma py_last_app a b : py_last (a ++ [b]) = Ret b. Proof. unfold py_last. rewrite rev_app_distr. reflexivity. Qed.

(** ** Throttle constraints as lists *)
Lemma tc_list n th : length th = (3 * n)%nat -> compute_throttle_constraints (Z.of_nat n) th = Ret (map (throttle_norm th) (seq 0 n)).
Proof.
  intros L. destruct (throttle_constraints (Z.of_nat n) th) as [c [E [Lc N]]]; [lia|lia|]. rewrite E. f_equal.
  apply (nth_ext _ _ 0 0); [rewrite map_length, seq_length; lia|]. intros i I. rewrite N by lia.
  rewrite (nth_indep _ 0 (throttle_norm th 0)) by (rewrite map_length, seq_length; lia). rewrite map_nth, seq_nth by lia. reflexivity.
Qed.
Definition tc_line (th : list R) (i : nat) : list R := [2 * nth (3 * i) th 0; 2 * nth (3 * i + 1) th 0; 2 * nth (3 * i + 2) th 0].
Lemma nth_firstn_lt (k : nat) : forall (l : list R) j, (j < k)%nat -> nth j (firstn k l) 0 = nth j l 0.
Proof. induction k as [|k IH]; intros l j J; [lia|]. destruct l as [|x l]; [reflexivity|]. destruct j; [reflexivity|]. cbn. apply IH. lia. Qed.
Lemma tc_rows_list n th : length th = (3 * n)%nat -> exists t, compute_tc_grad (Z.of_nat n) th = Ret t /\
  forall k i, (i + k <= n)%nat -> tc_rows k i (Z.of_nat n) t = Ret (flat_map (tc_line th) (seq i k)).
Proof.
  intros L. destruct (tc_grad_entries (Z.of_nat n) th) as [t [E [Lt N]]]; [lia|lia|]. exists t. split; [exact E|].
  assert (Row : forall i, (i < n)%nat -> firstn 3 (skipn (3 * i) (mrow (3 * n) t i)) = tc_line th i).
  { intros i I. assert (Lr : length (mrow (3 * n) t i) = (3 * n)%nat) by (apply mrow_len; nia).
    apply (nth_ext _ _ 0 0); [rewrite firstn_length, skipn_length, Lr; change (length (tc_line th i)) with 3%nat; lia|]. intros j J. rewrite firstn_length, skipn_length, Lr in J.
    rewrite nth_firstn_lt by lia. rewrite nth_skipn0. unfold mrow. rewrite nth_firstn_lt by lia. rewrite nth_skipn0.
    specialize (N (Z.of_nat i) (3 * Z.of_nat i + Z.of_nat j)%Z ltac:(lia) ltac:(lia)).
    replace (Z.to_nat (Z.of_nat i * (3 * Z.of_nat n) + (3 * Z.of_nat i + Z.of_nat j))) with (3 * n * i + (3 * i + j))%nat in N by nia. rewrite N.
    replace ((3 * Z.of_nat i <=? 3 * Z.of_nat i + Z.of_nat j)%Z && (3 * Z.of_nat i + Z.of_nat j <? 3 * Z.of_nat i + 3)%Z) with true by (symmetry; apply andb_true_intro; lia).
    replace (Z.to_nat (3 * Z.of_nat i + Z.of_nat j)) with (3 * i + j)%nat by lia. unfold tc_line.
    destruct j as [|[|[|j]]]; [|reflexivity|reflexivity|lia]. rewrite Nat.add_0_r. reflexivity. }
  induction k as [|k IH]; intros i I; [reflexivity|]. cbn [tc_rows seq flat_map]. replace (Z.of_nat i <? Z.of_nat n)%Z with true by (symmetry; apply Z.ltb_lt; lia).
  rewrite IH by lia. cbn [bind]. rewrite Nat2Z.id, Row by lia. reflexivity.
Qed.
(** along a curve *)
Lemma tc_der th d i : derive_list th 0 d -> is_derive (fun e => throttle_norm (th e) i) 0 (dots (tc_line (th 0) i) [nth (3 * i) d 0; nth (3 * i + 1) d 0; nth (3 * i + 2) d 0]).
Proof.
  intros [_ D]. unfold throttle_norm, tc_line. pose proof (D (3 * i)%nat) as D0. pose proof (D (3 * i + 1)%nat) as D1. pose proof (D (3 * i + 2)%nat) as D2.
  pose proof (der_mult _ _ _ _ _ D0 D0) as E0. pose proof (der_mult _ _ _ _ _ D1 D1) as E1. pose proof (der_mult _ _ _ _ _ D2 D2) as E2.
  pose proof (der_minus _ _ _ _ _ (der_plus _ _ _ _ _ (der_plus _ _ _ _ _ E0 E1) E2) (der_const 1 0)) as E. cbv beta in E.
  eapply der_eq; [exact E|]. cbn [dots]. match goal with |- ?a = ?b => change (@eq R a b) end. ring.
Qed.

(** ** Scaling *)
Lemma pdivs_some a s : s <> 0 -> pdivs a s = Some (map (fun x => x / s) a).
Proof. intros S. unfold pdivs. destruct (Req_EM_T s 0); [contradiction|reflexivity]. Qed.
Lemma pconcat_some l : pconcat (map Some l) = Some (concat l).
Proof. induction l as [|a l IH]; [reflexivity|]. cbn. rewrite IH. reflexivity. Qed.
Lemma scale_some M L Ve mf y th n : M <> 0 -> L <> 0 -> Ve <> 0 -> forall tail, 
  scale_fitness (- mf) (seven y) (map (throttle_norm th) (seq 0 n) ++ tail) M L Ve = Some (direct_fitness M L Ve mf y n th ++ tail).
Proof. intros HM HL HV tail. unfold scale_fitness. rewrite !pdivs_some by assumption. unfold direct_fitness. rewrite <- app_assoc. cbn [pconcat obind map firstn skipn seven app]. rewrite app_nil_r. reflexivity. Qed.

(** ** Fitness *)
Lemma p2p_leg_at P mf th tof : (0 < p_nseg P)%nat -> length th = (3 * p_nseg P)%nat -> 0 < tof -> p2p_leg P (mf :: th ++ [tof]) = Ret (p2p_of P mf th tof).
Proof.
  intros N L Tf. unfold p2p_leg. change (mf :: th ++ [tof]) with ((mf :: th) ++ [tof]). rewrite py_last_app. cbn [bind]. unfold py_get, py_mid. cbn [app nth_error bind skipn].
  rewrite removelast_last. apply set_leg_ok; [exact N|exact L|lra].
Qed.
Lemma p2p_of_proper P mf th tof : p2p_ok P -> length th = (3 * p_nseg P)%nat -> 0 < mf -> 0 < tof -> proper (p2p_of P mf th tof).
Proof. intros [N [C [Ms [Mu [T [I _]]]]]] L Mf Tf. apply direct_proper; assumption. Qed.
Theorem p2p_fitness_sound newton P z f r : newton_sound newton -> p2p_ok P -> p2p_value any_arc P z f -> p2p_fitness newton P z = Ret r -> r = Some f.
Proof.
  intros NS K [mf [th [tof [y [-> [L [Mf [Tf [Y ->]]]]]]]]]. pose proof (p2p_of_proper P mf th tof K L Mf Tf) as Pr. destruct K as [N [_ [_ [_ [_ [_ [HM [HL HV]]]]]]]].
  unfold p2p_fitness. rewrite (p2p_leg_at P mf th tof N L Tf). cbn [bind py_get nth_error].
  destruct (compute_mismatch_constraints newton (p2p_of P mf th tof)) as [y'| |] eqn:E; cbn [bind]; try discriminate.
  rewrite (mismatch_sound newton _ _ _ NS Pr Y E). cbn [p2p_of direct_leg s_nseg s_thr]. rewrite (tc_list (p_nseg P) th L). cbn [bind]. intros [= <-].
  rewrite <- (app_nil_r (map (throttle_norm th) (seq 0 (p_nseg P)))), scale_some by assumption. rewrite app_nil_r. reflexivity.
Qed.
Theorem p2p_fitness_total newton P z f : newton_ok newton -> p2p_ok P -> p2p_value safe_arc P z f -> p2p_fitness newton P z = Ret (Some f).
Proof.
  intros NK K [mf [th [tof [y [-> [L [Mf [Tf [[pf [pb [F [B ->]]]] ->]]]]]]]]]. pose proof (p2p_of_proper P mf th tof K L Mf Tf) as Pr. destruct K as [N [_ [_ [_ [_ [_ [HM [HL HV]]]]]]]].
  unfold p2p_fitness. rewrite (p2p_leg_at P mf th tof N L Tf). cbn [bind py_get nth_error].
  destruct (mismatch_total newton _ pf pb NK Pr F B) as [-> _]. cbn [bind].
  cbn [p2p_of direct_leg s_nseg s_thr]. rewrite (tc_list (p_nseg P) th L). cbn [bind].
  rewrite <- (app_nil_r (map (throttle_norm th) (seq 0 (p_nseg P)))), scale_some by assumption. rewrite app_nil_r. reflexivity.
Qed.

(** ** Gradient *)
Lemma der7 y d k : (k < 7)%nat -> derive7 y 0 d -> is_derive (fun e => nth k (list7 (y e)) 0) 0 (nth k (list7 d) 0).
Proof.
  intros K [[[A [B C]] [D [E F]]] G]. destruct k as [|[|[|[|[|[|[|k]]]]]]]; [exact A|exact B|exact C|exact D|exact E|exact F|exact G|lia].
Qed.
Lemma nth_plus7 a b k : nth k (list7 (plus7 a b)) 0 = nth k (list7 a) 0 + nth k (list7 b) 0.
Proof. destruct k as [|[|[|[|[|[|[|k]]]]]]]; try reflexivity. destruct k; cbn; ring. Qed.
Lemma nth_apply7 w m d k : (k < 7)%nat -> nth k (list7 (apply7 w m d)) 0 = row w m d k.
Proof. intros K. destruct k as [|[|[|[|[|[|[|k]]]]]]]; try reflexivity. lia. Qed.
Definition unit_of (M L Ve : R) (k : nat) : R := if Nat.ltb k 3 then L else if Nat.ltb k 6 then Ve else M.
Lemma unit_nz M L Ve k : M <> 0 -> L <> 0 -> Ve <> 0 -> unit_of M L Ve k <> 0.
Proof. intros. unfold unit_of. destruct (Nat.ltb k 3); [assumption|]. destruct (Nat.ltb k 6); assumption. Qed.
Lemma fit_mis M L Ve mf y n th t k : (k < 7)%nat -> nth (S k) (direct_fitness M L Ve mf y n th ++ t) 0 = nth k (list7 y) 0 / unit_of M L Ve k.
Proof. intros K. destruct k as [|[|[|[|[|[|[|k]]]]]]]; try reflexivity. lia. Qed.
Lemma fit_tc M L Ve mf y n th t i : (i < n)%nat -> nth (8 + i) (direct_fitness M L Ve mf y n th ++ t) 0 = throttle_norm th i.
Proof.
  intros K. unfold direct_fitness. rewrite <- app_assoc, app_nth2 by (cbn [length]; lia). cbn [length]. replace (8 + i - 8)%nat with i by lia.
  rewrite app_nth1 by (rewrite map_length, seq_length; exact K).
  rewrite (nth_indep _ 0 (throttle_norm th 0)) by (rewrite map_length, seq_length; lia). rewrite map_nth, seq_nth by lia. reflexivity.
Qed.
Lemma fit_len M L Ve mf y n th : length (direct_fitness M L Ve mf y n th) = (8 + n)%nat.
Proof. unfold direct_fitness. rewrite app_length, map_length, seq_length. reflexivity. Qed.

(** a decision vector in its parts *)
Lemma parts m n (l : list R) : length l = (m + n + 1)%nat -> l = firstn m l ++ firstn n (skipn m l) ++ [nth (m + n) l 0].
Proof.
  intros L. rewrite <- (firstn_skipn m l) at 1. f_equal. rewrite <- (firstn_skipn n (skipn m l)) at 1. f_equal.
  rewrite (skipn_S_cons 0) by (rewrite skipn_length; lia). rewrite nth_skipn0. f_equal. apply length_zero_iff_nil. rewrite !skipn_length. lia.
Qed.
Lemma parts_at m n (a th : list R) t l : l = a ++ th ++ [t] -> length a = m -> length th = n -> firstn m l = a /\ firstn n (skipn m l) = th /\ nth (m + n) l 0 = t.
Proof.
  intros -> La Lt. split; [|split].
  - rewrite firstn_app, La, Nat.sub_diag. cbn [firstn]. rewrite app_nil_r. apply firstn_all2. lia.
  - rewrite skipn_app, La, Nat.sub_diag. rewrite (skipn_all2 a) by lia. cbn [skipn app]. rewrite firstn_app, Lt, Nat.sub_diag. cbn [firstn]. rewrite app_nil_r. apply firstn_all2. lia.
  - rewrite app_nth2 by lia. rewrite app_nth2 by lia. replace (m + n - length a - length th)%nat with 0%nat by lia. reflexivity.
Qed.

Definition p2p_nums (B G : list R) (w : nat) (k : nat) (s : R) : list R := on_last (fun a => a * day2sec) (map (fun a => a / s) (mlast 7 B k :: mrow w G k)).
Definition p2p_block (P : p2p) (B G th : list R) (i : nat) : block :=
  let n := p_nseg P in
  match i with
  | O => (0%nat, [0%nat], [-1 / p_M P])
  | S k => if Nat.ltb k 7 then (S k, seq 0 (2 + 3 * n), p2p_nums B G (3 * n + 1) k (unit_of (p_M P) (p_L P) (p_Vel P) k))
           else (S k, [3 * (k - 7) + 1; 3 * (k - 7) + 2; 3 * (k - 7) + 3]%nat, tc_line th (k - 7))
  end.
Lemma flat_shift {A} (f g : nat -> list A) n : (forall i, (i < n)%nat -> f (8 + i)%nat = g i) -> flat_map f (seq 8 n) = flat_map g (seq 0 n).
Proof.
  intros E. assert (Q : forall m a, (a + m <= n)%nat -> flat_map f (seq (8 + a) m) = flat_map g (seq a m)).
  { induction m as [|m IH]; intros a L; [reflexivity|]. cbn [seq flat_map]. rewrite E by lia. f_equal. apply (IH (S a)). lia. }
  apply (Q n 0%nat). lia.
Qed.
Lemma flat_map_map {A B C} (f : A -> B) (g : B -> list C) l : flat_map g (map f l) = flat_map (fun x => g (f x)) l.
Proof. induction l as [|a l IH]; [reflexivity|]. cbn. rewrite IH. reflexivity. Qed.
Lemma p2p_pat P B G th : p2p_sparsity P = bpat (map (p2p_block P B G th) (seq 0 (8 + p_nseg P))).
Proof.
  rewrite seq_app, map_app, bpat_app. unfold p2p_sparsity. cbv zeta. rewrite app_assoc. f_equal.
  unfold bpat. rewrite flat_map_map. symmetry. apply flat_shift. intros i I. cbn [Nat.add p2p_block Nat.ltb Nat.leb bkey bcol fst snd map Nat.sub].
  rewrite Nat.sub_0_r. reflexivity.
Qed.
Lemma p2p_val P B G th : p_M P <> 0 -> p_L P <> 0 -> p_Vel P <> 0 -> let n := p_nseg P in let w := (3 * n + 1)%nat in
  pconcat ([pdivs [-1] (p_M P)] ++ map (fun i => p2p_line B G w i (p_L P)) (seq 0 3) ++ map (fun i => p2p_line B G w i (p_Vel P)) (seq 3 3)
           ++ map (fun i => p2p_line B G w i (p_M P)) (seq 6 1) ++ [Some (flat_map (tc_line th) (seq 0 n))])
  = Some (bval (map (p2p_block P B G th) (seq 0 (8 + n)))).
Proof.
  intros HM HL HV n w. unfold p2p_line. cbn [seq map app]. rewrite !pdivs_some by assumption. cbn [pconcat obind]. f_equal.
  rewrite seq_app, map_app, bval_app. change (seq 0 8) with [0; 1; 2; 3; 4; 5; 6; 7]%nat. unfold bval at 1. cbn [map flat_map Nat.add].
  assert (E : bval (map (p2p_block P B G th) (seq 8 n)) = flat_map (tc_line th) (seq 0 n)).
  { unfold bval. rewrite flat_map_map. apply flat_shift. intros i I. cbn [Nat.add p2p_block Nat.ltb Nat.leb bnum fst snd Nat.sub]. rewrite Nat.sub_0_r. reflexivity. }
  rewrite E. rewrite !app_nil_r, <- !app_assoc. reflexivity.
Qed.
(** the derivative of a scaled mismatch *)
Lemma mis_der y A B G w a b d s k : (k < 7)%nat -> derive7 y 0 (plus7 (apply7 7 A a) (plus7 (apply7 7 B b) (apply7 w G d))) ->
  is_derive (fun e => nth k (list7 (y e)) 0 / s) 0 ((row 7 A a k + row 7 B b k + row w G d k) / s).
Proof.
  intros K D. pose proof (der7 _ _ k K D) as E. rewrite !nth_plus7, !nth_apply7 in E by exact K.
  unfold Rdiv. pose proof (der_mult _ _ _ _ _ E (der_const (/ s) 0)) as Q. cbv beta in Q. eapply der_to; [exact Q|]. ring.
Qed.
Lemma row_zero m k : row 7 m (list7 (vzero, vzero, 0)) k = 0.
Proof. unfold row, list7, vzero. cbn [sum_n fst snd vx vy vz nth]. ring. Qed.
Lemma row_mass m x k : row 7 m (list7 (vzero, vzero, x)) k = mlast 7 m k * x.
Proof. unfold row, list7, vzero, mlast. cbn [sum_n fst snd vx vy vz nth Nat.sub]. ring. Qed.
Lemma sder_const s : sderive (fun _ => s) 0 (vzero, vzero). Proof. split; apply vder_const. Qed.
(** curves of decision vectors *)
Lemma curve_parts m n c d z : c 0 = z -> (forall e, length (c e) = length z) -> length z = (m + n + 1)%nat -> derive_list c 0 d ->
  (forall e, c e = firstn m (c e) ++ firstn n (skipn m (c e)) ++ [nth (m + n) (c e) 0]) /\ (forall e, length (firstn n (skipn m (c e))) = n) /\
  derive_list (fun e => firstn n (skipn m (c e))) 0 (firstn n (skipn m d)) /\ is_derive (fun e => nth (m + n) (c e) 0) 0 (nth (m + n) d 0) /\
  d = firstn m d ++ firstn n (skipn m d) ++ [nth (m + n) d 0] /\ length d = (m + n + 1)%nat.
Proof.
  intros C0 Lc Lz D. assert (Ld : length d = (m + n + 1)%nat) by (destruct D as [D _]; rewrite D, C0; exact Lz). split; [|split; [|split; [|split; [|split]]]].
  - intros e. apply parts. rewrite Lc. exact Lz.
  - intros e. rewrite firstn_length, skipn_length, Lc, Lz. lia.
  - apply derive_firstn, derive_skipn, D.
  - apply D.
  - apply parts, Ld.
  - exact Ld.
Qed.
Lemma nth_mid m n d j : (j < n)%nat -> nth j (firstn n (skipn m d)) 0 = nth (m + j) d 0.
Proof. intros J. rewrite nth_firstn_lt by exact J. apply nth_skipn0. Qed.
Lemma p2p_dots B G w k s dmf dth dt : (w * k + w <= length G)%nat -> w = (length dth + 1)%nat ->
  dots (p2p_nums B G w k s) (dmf :: dth ++ [dt]) = (mlast 7 B k * dmf + row w G (dth ++ [dt * 86400]) k) / s.
Proof.
  intros LG W. rewrite row_mrow by exact LG. unfold p2p_nums. assert (Lm : length (mrow w G k) = (length dth + 1)%nat) by (rewrite mrow_len by exact LG; exact W).
  destruct (snoc_of _ _ Lm) as [r [a [-> Lr]]]. cbn [map]. rewrite map_app. change (map (fun x => x / s) [a]) with [a / s].
  change (mlast 7 B k / s :: map (fun x => x / s) r ++ [a / s]) with ((mlast 7 B k / s :: map (fun x => x / s) r) ++ [a / s]). rewrite on_last_app.
  cbn [app dots]. rewrite !dots_app by (rewrite ?map_length; exact Lr). rewrite dots_map_div. cbn [dots]. unfold day2sec, Rdiv. ring.
Qed.
Theorem p2p_gradient_jacobian newton P z f0 g : newton_sound newton -> p2p_ok P -> p2p_value any_arc P z f0 -> p2p_gradient newton P z = Ret (Some g) ->
  sparse_jacobian (p2p_value any_arc P) z f0 (p2p_sparsity P) g.
Proof.
  intros NS K Val H. pose proof K as Ks. destruct Val as [mf [th [tof [y0 [Ez [L [Mf [Tf [Y Ef]]]]]]]]]. pose proof (p2p_of_proper P mf th tof K L Mf Tf) as Pr.
  destruct K as [N [C [Ms [Mu [T [I [HM [HL HV]]]]]]]]. unfold p2p_gradient in H. rewrite Ez, (p2p_leg_at P mf th tof N L Tf) in H. cbn [bind] in H.
  destruct (compute_mc_grad newton (p2p_of P mf th tof)) as [[[[A B] G]|]| |] eqn:GR; cbn [bind] in H; try discriminate.
  2:{ destruct (compute_tc_grad _ _); cbn [bind] in H; try discriminate. destruct (tc_rows _ _ _ _); discriminate. }
  destruct (grad_jacobian newton _ _ _ _ _ NS Pr Y GR) as [LA [LB [LG J]]].
  destruct (tc_rows_list (p_nseg P) th L) as [t [Et Rw]]. cbn [p2p_of direct_leg s_nseg s_thr s_mu s_rvs s_ms s_rvf s_mf s_tof] in *. rewrite Nat2Z.id in *.
  rewrite Et in H. cbn [bind] in H. rewrite (Rw (p_nseg P) 0%nat) in H by lia. cbn [bind] in H. rewrite (p2p_val P B G th HM HL HV) in H.
  assert (Eg : g = bval (map (p2p_block P B G th) (seq 0 (8 + p_nseg P)))) by (injection H as <-; reflexivity). clear H.
  rewrite (p2p_pat P B G th), Eg. set (n := p_nseg P) in *. set (mk := p2p_block P B G th).
  assert (Lf : length f0 = (8 + n)%nat) by (rewrite Ef; apply fit_len).
  assert (Lz : length z = (1 + 3 * n + 1)%nat) by (rewrite Ez; cbn [length]; rewrite app_length; cbn [length]; lia).
  assert (BL : forall k, (k < 8 + n)%nat -> bkey (mk k) = k /\ bfit (mk k) /\ NoDup (bcol (mk k)) /\ forall j, In j (bcol (mk k)) -> (j < length z)%nat).
  { intros [|k] Hk; unfold mk, p2p_block.
    - cbn [bkey bcol bnum bfit fst snd]. split; [reflexivity|]. split; [reflexivity|]. split; [repeat constructor; intros []|]. intros j [<-|[]]. lia.
    - destruct (Nat.ltb_spec k 7) as [K7|K7]; cbn [bkey bcol bnum fst snd]; (split; [reflexivity|]).
      + split; [|split; [apply seq_NoDup|intros j Q; apply in_seq in Q; fold n in Q; lia]].
        unfold bfit, bcol, bnum, p2p_nums. cbn [fst snd]. rewrite on_last_len, map_length, seq_length. cbn [length]. rewrite mrow_len by (fold n; nia). fold n. lia.
      + split; [reflexivity|]. split.
        * repeat constructor; cbn [In]; lia.
        * intros j [<-|[<-|[<-|[]]]]; lia. }
  destruct (seq_blocks mk (8 + n) (length z) BL) as [S1 [S2 S3]]. split; [exact S1|]. split; [exact S2|]. split; [intros i j Q; rewrite Lf; apply S3, Q|].
  intros c d _ C0 Lc D. destruct (curve_parts 1 (3 * n) c d z C0 Lc Lz D) as [Pt [Lth [Dth [Dtof [Pd Ld]]]]].
  destruct (parts_at 1 (3 * n) [mf] th tof z Ez eq_refl L) as [_ [Zth Ztof]].
  assert (F1 : forall l : list R, (0 < length l)%nat -> firstn 1 l = [nth 0 l 0]) by (intros [|x l] Q; [cbn in Q; lia|reflexivity]).
  pose proof (proj2 D 0%nat) as Dmf.
  destruct (J (fun _ => p_rvs P) (fun _ => p_ms P) (fun e => firstn (3 * n) (skipn 1 (c e))) (fun _ => p_rvf P) (fun e => nth 0 (c e) 0) (fun e => nth (1 + 3 * n) (c e) 0 * 86400)
              (vzero, vzero) 0 (firstn (3 * n) (skipn 1 d)) (vzero, vzero) (nth 0 d 0) (nth (1 + 3 * n) d 0 * 86400)) as [y [eps [E0 [Y0 [Ym Dy]]]]].
  all: try reflexivity.
  { rewrite C0. exact Zth. }
  { rewrite C0, Ez. reflexivity. }
  { rewrite C0, Ztof. reflexivity. }
  { apply sder_const. } { apply der_const. } { exact Lth. } { exact Dth. } { apply sder_const. } { exact Dmf. }
  { pose proof (der_mult _ _ _ _ _ Dtof (der_const 86400 0)) as Q. cbv beta in Q. eapply der_to; [exact Q|]. ring. }
  destruct (near_gt _ _ 0 Dmf) as [e1 [E1 M1]]; [rewrite C0, Ez; exact Mf|]. destruct (near_gt _ _ 0 Dtof) as [e2 [E2 M2]]; [rewrite C0, Ztof; exact Tf|].
  exists (fun e => direct_fitness (p_M P) (p_L P) (p_Vel P) (nth 0 (c e) 0) (y e) n (firstn (3 * n) (skipn 1 (c e)))), (Rmin eps (Rmin e1 e2)).
  split; [repeat apply Rmin_glb_lt; assumption|]. split; [rewrite C0, Zth, Y0, Ef, Ez; reflexivity|]. split.
  - intros e He. pose proof (Rmin_l eps (Rmin e1 e2)). pose proof (Rmin_r eps (Rmin e1 e2)). pose proof (Rmin_l e1 e2). pose proof (Rmin_r e1 e2).
    exists (nth 0 (c e) 0), (firstn (3 * n) (skipn 1 (c e))), (nth (1 + 3 * n) (c e) 0), (y e). split; [rewrite (Pt e) at 1; rewrite F1 by (rewrite Lc, Lz; lia); reflexivity|].
    split; [apply Lth|]. split; [apply M1; lra|]. split; [apply M2; lra|]. split; [|reflexivity].
    apply (Ym e). lra.
  - intros i Hi. rewrite Lf in Hi. rewrite (entry_seq mk (8 + n) d i) by (try exact Hi; intros k Hk; destruct (BL k Hk) as [Q1 [Q2 _]]; split; assumption).
    destruct i as [|k]; [|unfold mk, p2p_block; destruct (Nat.ltb_spec k 7) as [K7|K7]].
    + cbn [mk p2p_block bcol bnum fst snd pick map dots direct_fitness app nth]. unfold Rdiv.
      pose proof (der_mult _ _ _ _ _ (der_opp _ _ _ Dmf) (der_const (/ p_M P) 0)) as Q. cbv beta in Q. eapply der_to; [exact Q|]. ring.
    + cbn [bcol bnum fst snd]. rewrite pick_seq by (fold n; lia). cbn [skipn]. rewrite firstn_all2 by (fold n; lia).
      eapply der_ext; [intros e; rewrite <- (app_nil_r (direct_fitness _ _ _ _ _ _ _)); symmetry; apply fit_mis; exact K7|].
      eapply der_to; [apply (mis_der y A B G _ _ _ _ _ k K7 Dy)|]. rewrite row_zero, row_mass.
      assert (Pd' : nth 0 d 0 :: firstn (3 * n) (skipn 1 d) ++ [nth (1 + 3 * n) d 0] = d) by (rewrite Pd at 4; rewrite F1 by lia; reflexivity).
      assert (Ldt : length (firstn (3 * n) (skipn 1 d)) = (3 * n)%nat) by (rewrite firstn_length, skipn_length; lia).
      match goal with |- _ = dots ?v d => transitivity (dots v (nth 0 d 0 :: firstn (3 * n) (skipn 1 d) ++ [nth (1 + 3 * n) d 0])); [|rewrite Pd'; reflexivity] end.
      rewrite p2p_dots by (fold n; nia). fold n. rewrite Rplus_0_l. reflexivity.
    + cbn [bcol bnum fst snd pick map]. replace (S k) with (8 + (k - 7))%nat by lia.
      eapply der_ext; [intros e; rewrite <- (app_nil_r (direct_fitness _ _ _ _ _ _ _)); symmetry; apply fit_tc; lia|].
      eapply der_to; [apply (tc_der _ _ (k - 7) Dth)|]. rewrite C0, Zth. rewrite !nth_mid by lia. unfold tc_line. cbn [dots].
      replace (1 + 3 * (k - 7))%nat with (3 * (k - 7) + 1)%nat by lia. replace (1 + (3 * (k - 7) + 1))%nat with (3 * (k - 7) + 2)%nat by lia.
      replace (1 + (3 * (k - 7) + 2))%nat with (3 * (k - 7) + 3)%nat by lia. reflexivity.
Qed.
Lemma p2p_gradient_cases newton P mf th tof : p2p_ok P -> length th = (3 * p_nseg P)%nat -> 0 < tof ->
  forall o, compute_mc_grad newton (p2p_of P mf th tof) = Ret o ->
  p2p_gradient newton P (mf :: th ++ [tof]) = Ret (match o with None => None | Some (_, B, G) => Some (bval (map (p2p_block P B G th) (seq 0 (8 + p_nseg P)))) end).
Proof.
  intros [N [C [Ms [Mu [T [I [HM [HL HV]]]]]]]] L Tf o E. unfold p2p_gradient. rewrite (p2p_leg_at P mf th tof N L Tf). cbn [bind]. rewrite E. cbn [bind].
  destruct (tc_rows_list (p_nseg P) th L) as [t [Et Rw]]. cbn [p2p_of direct_leg s_nseg s_thr]. rewrite Et. cbn [bind]. rewrite (Rw (p_nseg P) 0%nat) by lia. cbn [bind].
  destruct o as [[[A B] G]|]; [|reflexivity]. rewrite Nat2Z.id, (p2p_val P B G th HM HL HV). reflexivity.
Qed.
Lemma p2p_safe_any P z f : p2p_value safe_arc P z f -> p2p_value any_arc P z f.
Proof. intros [mf [th [tof [y [E [L [Mf [Tf [Y F]]]]]]]]]. exists mf, th, tof, y. split; [exact E|]. split; [exact L|]. split; [exact Mf|]. split; [exact Tf|]. split; [apply good_leg, Y|exact F]. Qed.
Theorem p2p_gradient_total newton P z f0 : newton_ok newton -> newton_sound newton -> p2p_ok P -> p2p_value safe_arc P z f0 ->
  (forall i, (i < p_nseg P)%nat -> thr_vec (skipn 1 z) i <> vzero) ->
  exists g, p2p_gradient newton P z = Ret (Some g) /\ sparse_jacobian (p2p_value any_arc P) z f0 (p2p_sparsity P) g.
Proof.
  intros NK NS K Val U. assert (E : exists g, p2p_gradient newton P z = Ret (Some g)).
  - destruct Val as [mf [th [tof [y0 [-> [L [Mf [Tf [Y Ef]]]]]]]]]. pose proof (p2p_of_proper P mf th tof K L Mf Tf) as Pr.
    destruct (grad_total newton NK NS (p2p_of P mf th tof) Pr y0 Y) as [A [B [G [E _]]]].
    + cbn [p2p_of direct_leg s_nseg s_thr]. rewrite Nat2Z.id. intros i Hi Z. apply (U i Hi). rewrite <- Z. cbn [skipn]. unfold thr_vec. rewrite !app_nth1 by lia. reflexivity.
    + rewrite (p2p_gradient_cases newton P mf th tof K L Tf _ E). eexists. reflexivity.
  - destruct E as [g E]. exists g. split; [exact E|]. apply (p2p_gradient_jacobian newton P z f0 g NS K (p2p_safe_any _ _ _ Val) E).
Qed.
Theorem p2p_gradient_nan newton P z f0 i : newton_ok newton -> newton_sound newton -> p2p_ok P -> p2p_value safe_arc P z f0 ->
  (i < p_nseg P)%nat -> thr_vec (skipn 1 z) i = vzero -> p2p_gradient newton P z = Ret None.
Proof.
  intros NK NS K [mf [th [tof [y0 [-> [L [Mf [Tf [Y Ef]]]]]]]]] Hi Z. pose proof (p2p_of_proper P mf th tof K L Mf Tf) as Pr.
  apply (p2p_gradient_cases newton P mf th tof K L Tf None). apply (grad_nan newton NK NS (p2p_of P mf th tof) Pr y0 i Y).
  - cbn [p2p_of direct_leg s_nseg]. rewrite Nat2Z.id. exact Hi.
  - cbn [p2p_of direct_leg s_thr]. rewrite <- Z. cbn [skipn]. unfold thr_vec. rewrite !app_nth1 by lia. reflexivity.
Qed.
