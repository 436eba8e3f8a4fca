(** * The per-segment arrays returned by compute_all_gradients *)
From Coq Require Import Reals Lra Lia List ZArith Bool.
From Verif Require Import Outcome Vec3 DynModel SfModel SfSpec HfGradModel HfGradAlg.
Import ListNotations.
Open Scope outcome_scope.

Lemma skipn_three {A} (d : A) v : forall i, (3 * i + 3 <= length v)%nat -> firstn 3 (skipn (3 * i) v) = [nth (3 * i) v d; nth (3 * i + 1) v d; nth (3 * i + 2) v d].
Proof.
  intros i H. rewrite <- (firstn_skipn (3 * i) v) at 2 3 4. rewrite !app_nth2 by (rewrite firstn_length; lia). rewrite !firstn_length.
  assert (L : (3 <= length (skipn (3 * i) v))%nat) by (rewrite skipn_length; lia). destruct (skipn (3 * i) v) as [|a [|b [|c w]]]; cbn in L; try lia.
  replace (3 * i - Nat.min (3 * i) (length v))%nat with 0%nat by lia. replace (3 * i + 1 - Nat.min (3 * i) (length v))%nat with 1%nat by lia. replace (3 * i + 2 - Nat.min (3 * i) (length v))%nat with 2%nat by lia. reflexivity.
Qed.
Lemma nth_scaled c v k : nth k (map (fun x => x * c)%R v) 0%R = (nth k v 0 * c)%R.
Proof. destruct (Nat.lt_ge_cases k (length v)) as [L|L]; [rewrite (nth_indep _ 0%R (0 * c)%R) by (rewrite map_length; exact L); rewrite (map_nth (fun x => x * c)%R); reflexivity|rewrite !nth_overflow by (try rewrite map_length; exact L); lra]. Qed.

Section All.
Variable tas_var : list R -> R -> R -> list R -> option (list R).
Variable l : hg.
Variables n nf nb : nat.
Hypothesis En : g_nseg l = Z.of_nat n.
Hypothesis Ef : g_fwd l = Z.of_nat nf.
Hypothesis Eb : g_bck l = Z.of_nat nb.
Hypothesis Hn : (nf + nb = n)%nat.
Hypothesis Hp : (0 < n)%nat.
Hypothesis Hb : (3 * Z.of_nat n + 1 < 2 ^ 32)%Z.
Hypothesis Lthr : length (g_thr l) = (3 * n)%nat.
Hypothesis Ethr : g_thrusts l = map (fun x => x * g_T l)%R (g_thr l).
Hypothesis Ls : length (g_rvms l) = 7%nat.
Hypothesis Lf : length (g_rvmf l) = 7%nat.
Let h : R := (g_tof l / INR n)%R.
Definition thrust3 (j : nat) : list R := [nth (3 * j) (g_thr l) 0 * g_T l; nth (3 * j + 1) (g_thr l) 0 * g_T l; nth (3 * j + 2) (g_thr l) 0 * g_T l]%R.
(** what is known of one call of the integrator *)
Variable Seg : R -> nat -> list R -> list R -> Prop.
Hypothesis HO : forall j t t1 x s', (j < n)%nat -> length x = 7%nat -> tas_var (g_pmu l :: g_pveff l :: thrust3 j) t t1 (x ++ g_vars l) = Some s' ->
  length s' = 77%nat /\ Seg (t1 - t) j x s'.

Definition lens (p : per_seg) : Prop := length (p_xf p) = n /\ length (p_dxdx p) = n /\ length (p_dxdu p) = n.
Definition rec_ok (p : per_seg) (d : R) (x : list R) (j : nat) : Prop :=
  exists s', length s' = 77%nat /\ Seg d j x s' /\ nth j (p_xf p) [] = firstn 7 s' /\ nth j (p_dxdx p) [] = dxdx_of s' /\ nth j (p_dxdu p) [] = dxdu_of s'.
(** the states at which the segments are begun, in the order in which they are flown *)
Definition stf (xf : list (list R)) (j : nat) : list R := match j with O => g_rvms l | S k => nth k xf [] end.
Definition stb (xf : list (list R)) (j : nat) : list R := match j with O => g_rvmf l | S k => nth (n - 1 - k) xf [] end.

Lemma cut_thrust j : (j < n)%nat -> cut (g_thrusts l) (Z.of_nat (3 * j)) (Z.of_nat (3 * j + 3)) = Ret (thrust3 j).
Proof.
  intros Hj. assert (L : length (g_thrusts l) = (3 * n)%nat) by (rewrite Ethr, map_length; exact Lthr).
  unfold cut. rewrite !(proj2 (Z.leb_le _ _)) by lia. cbn [andb]. rewrite Nat2Z.id. replace (Z.to_nat (Z.of_nat (3 * j + 3) - Z.of_nat (3 * j))) with 3%nat by lia.
  rewrite (skipn_three 0%R) by lia. rewrite Ethr, !nth_scaled. reflexivity.
Qed.
Lemma store_ok p j s' : lens p -> (j < n)%nat -> exists p', store p (Z.of_nat j) s' = Ret p' /\ lens p' /\
  nth j (p_xf p') [] = firstn 7 s' /\ nth j (p_dxdx p') [] = dxdx_of s' /\ nth j (p_dxdu p') [] = dxdu_of s' /\
  forall k, k <> j -> nth k (p_xf p') [] = nth k (p_xf p) [] /\ nth k (p_dxdx p') [] = nth k (p_dxdx p) [] /\ nth k (p_dxdu p') [] = nth k (p_dxdu p) [].
Proof.
  intros [L1 [L2 L3]] Hj. unfold store. rewrite !wr_ok by lia. cbn [bind]. eexists. split; [reflexivity|]. cbn [p_xf p_dxdx p_dxdu].
  split; [unfold lens; cbn [p_xf p_dxdx p_dxdu]; rewrite !upd_length by lia; auto|]. rewrite !upd_same by lia. repeat split; try reflexivity; rewrite upd_other by lia; reflexivity.
Qed.
Lemma rec_other p p' d x k : (nth k (p_xf p') [] = nth k (p_xf p) [] /\ nth k (p_dxdx p') [] = nth k (p_dxdx p) [] /\ nth k (p_dxdu p') [] = nth k (p_dxdu p) []) -> rec_ok p d x k -> rec_ok p' d x k.
Proof. intros [A [B C]] [s' [L [S [E1 [E2 E3]]]]]. exists s'. rewrite A, B, C. auto. Qed.

Lemma vfwd_ok : forall k i t x p, (i + k = nf)%nat -> t = (INR i * h)%R -> lens p -> length x = 7%nat -> x = stf (p_xf p) i -> (forall j, (j < i)%nat -> rec_ok p h (stf (p_xf p) j) j) ->
  match vfwd tas_var l k (Z.of_nat i) t x p with Ret p' => lens p' /\ forall j, (j < nf)%nat -> rec_ok p' h (stf (p_xf p') j) j | Throw e => e = DomainError | UB => False end.
Proof.
  induction k as [|k IH]; intros i t x p Hk Ht Lp Lx Ex Hr.
  - cbn [vfwd]. split; [exact Lp|]. intros j Hj. apply Hr. lia.
  - cbn [vfwd]. replace (u32 (Z.of_nat i * 3)) with (Z.of_nat (3 * i)) by (rewrite u32_id; lia). rewrite (u32_id (Z.of_nat i + 1)) by lia. replace (u32 (3 * (Z.of_nat i + 1))) with (Z.of_nat (3 * i + 3)) by (rewrite u32_id; lia).
    rewrite cut_thrust by lia. cbn [bind]. unfold run. match goal with |- context [tas_var ?a ?b ?c ?d] => destruct (tas_var a b c d) as [s'|] eqn:E end; cbn [bind]; [|reflexivity].
    destruct (HO i _ _ x s' ltac:(lia) Lx E) as [L77 SG]. destruct (store_ok p i s' Lp ltac:(lia)) as [p' [Es [Lp' [P1 [P2 [P3 PO]]]]]]. rewrite Es. cbn [bind].
    replace (Z.of_nat i + 1)%Z with (Z.of_nat (S i)) in * by lia.
    assert (T1 : (IZR (Z.of_nat (S i)) * (g_tof l / IZR (g_nseg l)) = INR (S i) * h)%R) by (rewrite En, <- !INR_IZR_INZ; reflexivity).
    rewrite T1 in SG |- *. replace (INR (S i) * h - t)%R with h in SG by (rewrite Ht, S_INR; ring).
    apply IH; [lia|reflexivity|exact Lp'|rewrite firstn_length; lia|cbn [stf]; symmetry; exact P1|].
    intros j Hj. destruct (Nat.eq_dec j i) as [->|N].
    + exists s'. split; [exact L77|]. replace (stf (p_xf p') i) with x; [auto|]. rewrite Ex. destruct i as [|i']; [reflexivity|]. cbn [stf]. symmetry. apply PO. lia.
    + apply (rec_other p p' h); [apply PO; exact N|]. replace (stf (p_xf p') j) with (stf (p_xf p) j); [apply Hr; lia|]. destruct j as [|j']; [reflexivity|]. cbn [stf]. symmetry. apply PO. lia.
Qed.
Lemma vbck_ok : forall k i t x p, (i + k = nb)%nat -> t = (g_tof l - INR i * h)%R -> lens p -> length x = 7%nat -> x = stb (p_xf p) i ->
  (forall j, (j < nf)%nat -> rec_ok p h (stf (p_xf p) j) j) -> (forall j, (j < i)%nat -> rec_ok p (- h) (stb (p_xf p) j) (n - 1 - j)) ->
  match vbck tas_var l k (Z.of_nat i) t x p with
  | Ret p' => lens p' /\ (forall j, (j < nf)%nat -> rec_ok p' h (stf (p_xf p') j) j) /\ forall j, (j < nb)%nat -> rec_ok p' (- h) (stb (p_xf p') j) (n - 1 - j)
  | Throw e => e = DomainError | UB => False end.
Proof.
  induction k as [|k IH]; intros i t x p Hk Ht Lp Lx Ex Hf Hr.
  - cbn [vbck]. split; [exact Lp|]. split; [exact Hf|]. intros j Hj. apply Hr. lia.
  - cbn [vbck]. rewrite (u32_id (Z.of_nat i + 1)) by lia. rewrite En. replace (u32 (Z.of_nat n - (Z.of_nat i + 1))) with (Z.of_nat (n - 1 - i)) by (rewrite u32_id; lia).
    replace (u32 (Z.of_nat (n - 1 - i) * 3)) with (Z.of_nat (3 * (n - 1 - i))) by (rewrite u32_id; lia). rewrite (u32_id (Z.of_nat n - Z.of_nat i)) by lia. replace (u32 ((Z.of_nat n - Z.of_nat i) * 3)) with (Z.of_nat (3 * (n - 1 - i) + 3)) by (rewrite u32_id; lia).
    rewrite cut_thrust by lia. cbn [bind]. unfold run. match goal with |- context [tas_var ?a ?b ?c ?d] => destruct (tas_var a b c d) as [s'|] eqn:E end; cbn [bind]; [|reflexivity].
    destruct (HO (n - 1 - i) _ _ x s' ltac:(lia) Lx E) as [L77 SG]. destruct (store_ok p (n - 1 - i) s' Lp ltac:(lia)) as [p' [Es [Lp' [P1 [P2 [P3 PO]]]]]]. rewrite Es. cbn [bind].
    replace (Z.of_nat i + 1)%Z with (Z.of_nat (S i)) in * by lia.
    assert (T1 : (IZR (Z.of_nat (S i)) * (g_tof l / IZR (Z.of_nat n)) = INR (S i) * h)%R) by (rewrite <- !INR_IZR_INZ; reflexivity).
    rewrite T1 in SG |- *. replace (g_tof l - INR (S i) * h - t)%R with (- h)%R in SG by (rewrite Ht, S_INR; ring).
    apply IH; [lia|reflexivity|exact Lp'|rewrite firstn_length; lia|cbn [stb]; symmetry; exact P1| |].
    + intros j Hj. apply (rec_other p p' h); [apply PO; lia|]. replace (stf (p_xf p') j) with (stf (p_xf p) j); [apply Hf; lia|]. destruct j as [|j']; [reflexivity|]. cbn [stf]. symmetry. apply PO. lia.
    + intros j Hj. destruct (Nat.eq_dec j i) as [->|N].
      * exists s'. split; [exact L77|]. replace (stb (p_xf p') i) with x; [auto|]. rewrite Ex. destruct i as [|i']; [reflexivity|]. cbn [stb]. symmetry. apply PO. lia.
      * apply (rec_other p p' (- h)); [apply PO; lia|]. replace (stb (p_xf p') j) with (stb (p_xf p) j); [apply Hr; lia|]. destruct j as [|j']; [reflexivity|]. cbn [stb]. symmetry. apply PO. lia.
Qed.

Lemma x0_fwd_ok xf : length xf = n -> forall k i x0, (i + k = nf)%nat -> (1 <= i)%nat -> length x0 = n -> (forall j, (j < i)%nat -> nth j x0 [] = stf xf j) ->
  exists x0', x0_fwd k (Z.of_nat i) xf x0 = Ret x0' /\ length x0' = n /\ forall j, (j < nf)%nat -> nth j x0' [] = stf xf j.
Proof.
  intros Lxf. induction k as [|k IH]; intros i x0 Hk Hi L H.
  - exists x0. split; [reflexivity|]. split; [exact L|]. intros j Hj. apply H. lia.
  - cbn [x0_fwd]. rewrite (rd_u [] xf _ (i - 1)) by lia. cbn [bind]. rewrite wr_ok by lia. cbn [bind]. replace (Z.of_nat i + 1)%Z with (Z.of_nat (S i)) by lia.
    apply IH; [lia|lia|rewrite upd_length by lia; exact L|]. intros j Hj. destruct (Nat.eq_dec j i) as [->|N]; [rewrite upd_same by lia; destruct i as [|i']; [lia|]; cbn [stf]; f_equal; lia|rewrite upd_other by lia; apply H; lia].
Qed.
Lemma x0_bck_ok xf : length xf = n -> forall k i x0, (i + k = nb)%nat -> (1 <= i)%nat -> length x0 = n -> (forall j, (j < nf)%nat -> nth j x0 [] = stf xf j) -> (forall j, (j < i)%nat -> nth (n - 1 - j) x0 [] = stb xf j) ->
  exists x0', x0_bck k (Z.of_nat i) (Z.of_nat n) xf x0 = Ret x0' /\ length x0' = n /\ (forall j, (j < nf)%nat -> nth j x0' [] = stf xf j) /\ forall j, (j < nb)%nat -> nth (n - 1 - j) x0' [] = stb xf j.
Proof.
  intros Lxf. induction k as [|k IH]; intros i x0 Hk Hi L H1 H2.
  - exists x0. split; [reflexivity|]. split; [exact L|]. split; [exact H1|]. intros j Hj. apply H2. lia.
  - cbn [x0_bck]. rewrite (u32_id (Z.of_nat n - 1)), (u32_id (Z.of_nat i - 1)) by lia. rewrite (rd_u [] xf _ (n - 1 - (i - 1))) by lia. cbn [bind]. rewrite (wr_u x0 _ (n - 1 - i)) by lia. cbn [bind]. replace (Z.of_nat i + 1)%Z with (Z.of_nat (S i)) by lia.
    apply IH; [lia|lia|rewrite upd_length by lia; exact L| |].
    + intros j Hj. rewrite upd_other by lia. apply H1. exact Hj.
    + intros j Hj. destruct (Nat.eq_dec j i) as [->|N]; [rewrite upd_same by lia; destruct i as [|i']; [lia|]; cbn [stb]; f_equal; lia|rewrite upd_other by lia; apply H2; lia].
Qed.
Lemma dtof_ok x0 : length x0 = n -> forall k i ret, (i + k = n)%nat -> length ret = n -> (forall j, (j < i)%nat -> nth j ret [] = state_derivative l (nth j x0 []) (thr_vec (g_thr l) j)) ->
  exists f, dtof_loop l k (Z.of_nat i) x0 ret = Ret f /\ length f = n /\ forall j, (j < n)%nat -> nth j f [] = state_derivative l (nth j x0 []) (thr_vec (g_thr l) j).
Proof.
  intros L0. induction k as [|k IH]; intros i ret Hk L H.
  - exists ret. split; [reflexivity|]. split; [exact L|]. intros j Hj. apply H. lia.
  - cbn [dtof_loop]. replace (Z.of_nat i * 3)%Z with (Z.of_nat (3 * i)) by lia. replace (Z.of_nat (3 * i) + 1)%Z with (Z.of_nat (3 * i + 1)) by lia. replace (Z.of_nat (3 * i) + 2)%Z with (Z.of_nat (3 * i + 2)) by lia.
    rewrite !(rd_ok 0%R) by lia. cbn [bind]. rewrite rd_ok by lia. cbn [bind]. rewrite wr_ok by lia. cbn [bind]. replace (Z.of_nat i + 1)%Z with (Z.of_nat (S i)) by lia.
    apply IH; [lia|rewrite upd_length by lia; exact L|]. intros j Hj. destruct (Nat.eq_dec j i) as [->|N]; [rewrite upd_same by lia; reflexivity|rewrite upd_other by lia; apply H; lia].
Qed.

Definition all_ok (M U F : list (list R)) : Prop :=
  length M = n /\ length U = n /\ length F = n /\
  exists xf, (forall j, (j < nf)%nat -> exists s', length s' = 77%nat /\ Seg h j (stf xf j) s' /\ nth j xf [] = firstn 7 s' /\ nth j M [] = dxdx_of s' /\ nth j U [] = dxdu_of s' /\ nth j F [] = state_derivative l (stf xf j) (thr_vec (g_thr l) j)) /\
  (forall j, (j < nb)%nat -> exists s', length s' = 77%nat /\ Seg (- h) (n - 1 - j) (stb xf j) s' /\ nth (n - 1 - j) xf [] = firstn 7 s' /\ nth (n - 1 - j) M [] = dxdx_of s' /\ nth (n - 1 - j) U [] = dxdu_of s' /\ nth (n - 1 - j) F [] = state_derivative l (stb xf j) (thr_vec (g_thr l) (n - 1 - j))).
Lemma all_gradients_ok : match compute_all_gradients tas_var l with Ret (M, U, F) => all_ok M U F | Throw e => e = DomainError | UB => False end.
Proof.
  unfold compute_all_gradients. rewrite En, Ef, Eb, !Nat2Z.id. cbv zeta.
  assert (Q := vfwd_ok nf 0 0%R (g_rvms l) (mk_ps (repeat (zeros 7) n) (repeat (zeros 49) n) (repeat (zeros 21) n)) ltac:(lia) ltac:(cbn; ring)).
  specialize (Q ltac:(unfold lens; cbn [p_xf p_dxdx p_dxdu]; rewrite !repeat_length; auto) Ls eq_refl ltac:(intros; lia)). change (Z.of_nat 0) with 0%Z in Q.
  destruct (vfwd tas_var l nf 0 0%R (g_rvms l) _) as [p1|e|]; [|exact Q|exact Q]. cbn [bind]. destruct Q as [L1 F1].
  assert (Q := vbck_ok nb 0 (g_tof l) (g_rvmf l) p1 ltac:(lia) ltac:(cbn; ring) L1 Lf eq_refl F1 ltac:(intros; lia)). change (Z.of_nat 0) with 0%Z in Q.
  destruct (vbck tas_var l nb 0 (g_tof l) (g_rvmf l) p1) as [p2|e|]; [|exact Q|exact Q]. cbn [bind]. destruct Q as [L2 [F2 B2]].
  pose proof L2 as [LX [LM LU]]. assert (R0 : length (repeat (zeros 7) n) = n) by apply repeat_length.
  match goal with |- context [bind ?X _] => assert (E1 : exists a, X = Ret a /\ length a = n /\ forall j, (j < Nat.min 1 nf)%nat -> nth j a [] = stf (p_xf p2) j) end.
  { destruct (Z.ltb_spec 0 (Z.of_nat nf)) as [L|L]; [|eexists; split; [reflexivity|]; split; [exact R0|intros; lia]].
    change 0%Z with (Z.of_nat 0). rewrite wr_ok by lia. eexists. split; [reflexivity|]. split; [rewrite upd_length by lia; exact R0|]. intros j Hj. replace j with 0%nat by lia. rewrite upd_same by lia. reflexivity. }
  destruct E1 as [a [E1 [La Ha]]]. rewrite E1. cbn [bind]. clear E1.
  assert (E2 : exists b, x0_fwd (nf - 1) 1 (p_xf p2) a = Ret b /\ length b = n /\ forall j, (j < nf)%nat -> nth j b [] = stf (p_xf p2) j).
  { destruct (Nat.eq_dec nf 0) as [Z|Z]; [rewrite Z; cbn [Nat.sub x0_fwd]; eexists; split; [reflexivity|]; split; [exact La|intros; lia]|].
    change 1%Z with (Z.of_nat 1). apply x0_fwd_ok; [exact LX|lia|lia|exact La|]. intros j Hj. apply Ha. lia. }
  destruct E2 as [b [E2 [Lb Hb2]]]. rewrite E2. cbn [bind]. clear E2.
  match goal with |- context [bind ?X _] => assert (E3 : exists c, X = Ret c /\ length c = n /\ (forall j, (j < nf)%nat -> nth j c [] = stf (p_xf p2) j) /\ forall j, (j < Nat.min 1 nb)%nat -> nth (n - 1 - j) c [] = stb (p_xf p2) j) end.
  { destruct (Z.ltb_spec 0 (Z.of_nat nb)) as [L|L]; [|eexists; split; [reflexivity|]; split; [exact Lb|]; split; [exact Hb2|intros; lia]].
    rewrite (wr_u b _ (n - 1)) by lia. eexists. split; [reflexivity|]. split; [rewrite upd_length by lia; exact Lb|]. split; [intros j Hj; rewrite upd_other by lia; apply Hb2; exact Hj|].
    intros j Hj. replace j with 0%nat by lia. rewrite Nat.sub_0_r, upd_same by lia. reflexivity. }
  destruct E3 as [c [E3 [Lc [Hc1 Hc2]]]]. rewrite E3. cbn [bind]. clear E3.
  assert (E4 : exists d, x0_bck (nb - 1) 1 (Z.of_nat n) (p_xf p2) c = Ret d /\ length d = n /\ (forall j, (j < nf)%nat -> nth j d [] = stf (p_xf p2) j) /\ forall j, (j < nb)%nat -> nth (n - 1 - j) d [] = stb (p_xf p2) j).
  { destruct (Nat.eq_dec nb 0) as [Z|Z]; [rewrite Z; cbn [Nat.sub x0_bck]; eexists; split; [reflexivity|]; split; [exact Lc|]; split; [exact Hc1|intros; lia]|].
    change 1%Z with (Z.of_nat 1). apply x0_bck_ok; [exact LX|lia|lia|exact Lc|exact Hc1|]. intros j Hj. apply Hc2. lia. }
  destruct E4 as [d [E4 [Ld [Hd1 Hd2]]]]. rewrite E4. cbn [bind]. clear E4.
  destruct (dtof_ok d Ld n 0 (repeat (zeros 7) n) ltac:(lia) R0 ltac:(intros; lia)) as [f [E5 [L5 H5]]]. change (Z.of_nat 0) with 0%Z in E5. rewrite E5. cbn [bind].
  split; [exact LM|]. split; [exact LU|]. split; [exact L5|]. exists (p_xf p2). split; [intros j Hj|intros k Hk].
  - destruct (F2 j Hj) as [s' [S1 [S2 [S3 [S4 S5]]]]]. exists s'. rewrite H5, Hd1 by lia. auto 10.
  - destruct (B2 k Hk) as [s' [S1 [S2 [S3 [S4 S5]]]]]. exists s'. rewrite H5, Hd2 by lia. auto 10.
Qed.
End All.
