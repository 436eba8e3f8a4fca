(** * The mismatch of a flown leg differentiates segment by segment *)
From Coq Require Import Reals Lra Lia List ZArith.
From Coquelicot Require Import Coquelicot.
From Verif Require Import RealLib Vec3 TwoBodySpec DynSpec DynModel SfModel SfSpec SfGrad OdeLib OdeSd HfGradModel HfGradSpec HfGradFlow HfGradLin.
Import ListNotations.
Open Scope R_scope.

(** every choice of states in the family [X] is x0 + dx e + o(e) *)
Definition fam_diff (X : R -> col7 -> Prop) (x0 : col7) (dx : nat -> R) : Prop :=
  forall eta, 0 < eta -> exists eps, 0 < eps /\ forall e x, Rabs e < eps -> X e x -> forall i, (i < 7)%nat ->
  Rabs (comp7 x i - comp7 x0 i - dx i * e) <= eta * Rabs e.

Definition comp3 (u : vec) (c : nat) : R := nth c [vx u; vy u; vz u] 0.
Definition u_derive (u : R -> vec) (e : R) (d : nat -> R) : Prop := forall c, (c < 3)%nat -> is_derive (fun x => comp3 (u x) c) e (d c).

(** one segment: the sensitivities at its end, and the field at its beginning *)
Definition seg_data (mu veff h : R) (u : vec) (p p' : col7) (M U F : list R) : Prop :=
  u <> vzero /\ (forall k, (k < 7)%nat -> nth k F 0 = comp7 (thrust_field mu veff u p) k) /\
  exists q W, arc (thrust_field mu veff u) h q /\ variational (thrust_field mu veff) u h q W /\ q 0 = p /\ q h = p' /\
  (forall i j, (i < 7)%nat -> (j < 10)%nat -> W 0 i j = if Nat.eqb i j then 1 else 0) /\
  (forall i j, (i < 7)%nat -> (j < 7)%nat -> W h i j = nth (7 * i + j) M 0) /\
  (forall i c, (i < 7)%nat -> (c < 3)%nat -> W h i (7 + c)%nat = nth (3 * i + c) U 0).

Lemma ap_bound n a d (K : R) i : (forall j, (j < n)%nat -> Rabs (nth (n * i + j) a 0) <= K) -> Rabs (ap n a d i) <= K * l1 n d.
Proof. intros H. unfold ap. apply lin_bound. exact H. Qed.
Lemma l1_small n v (c : R) : (forall j, (j < n)%nat -> Rabs (v j) <= c) -> l1 n v <= INR n * c.
Proof. intros H. unfold l1. rewrite <- sum_const. apply sum_le. exact H. Qed.

Section Step.
Variables mu veff : R.
Hypothesis Hveff : veff <> 0.

Lemma fam_step (X : R -> col7 -> Prop) (U0 : R -> vec) (H0 : R -> R) h p p' M U F (dx du : nat -> R) (dh : R) :
  seg_data mu veff h (U0 0) p p' M U F -> H0 0 = h -> u_derive U0 0 du -> is_derive H0 0 dh -> fam_diff X p dx ->
  fam_diff (fun e y => exists x, X e x /\ flight mu veff (H0 e) (U0 e) x y) p' (fun i => ap 7 M dx i + ap 3 U du i + dh * ap 7 M (fv F) i).
Proof.
  intros [Hu [HF [q [W [A [V [Q0 [Q1 [W0 [WM WU]]]]]]]]]] H00 DU DH HX. subst p p'.
  assert (FC : forall i, (i < 7)%nat -> ap 7 M (fv F) i = comp7 (thrust_field mu veff (U0 0) (q h)) i).
  { intros i Hi. rewrite <- (field_carried mu veff Hveff (U0 0) h q W Hu A V W0 i Hi). unfold ap. apply sum_ext. intros j Hj. rewrite WM by assumption. unfold fv. rewrite HF by exact Hj. reflexivity. }
  (* the linear map on eleven coordinates *)
  set (c := fun i j => if Nat.ltb j 10 then W h i j else comp7 (thrust_field mu veff (U0 0) (q h)) i).
  set (D := fun j => if Nat.ltb j 7 then dx j else if Nat.ltb j 10 then du (j - 7)%nat else dh).
  assert (LD : forall i, (i < 7)%nat -> ap 7 M dx i + ap 3 U du i + dh * ap 7 M (fv F) i = sum_n 11 (fun j => c i j * D j)).
  { intros i Hi. rewrite FC by exact Hi. unfold c, D, ap. cbn [sum_n Nat.ltb Nat.leb Nat.sub].
    rewrite <- !WM by lia. rewrite <- !(WU i) by lia. change (7 + 0)%nat with 7%nat. change (7 + 1)%nat with 8%nat. change (7 + 2)%nat with 9%nat. ring. }
  destruct (fin_max 7 (fun i K => forall j, (j < 11)%nat -> Rabs (c i j) <= K)) as [K [Kp HK]].
  { intros i k k' H L j Hj. eapply Rle_trans; [apply H; exact Hj|exact L]. }
  { intros i Hi. exists (l1 11 (c i)). split; [apply l1_nonneg|]. intros j Hj. apply l1_ge. exact Hj. }
  set (C := l1 11 D). assert (Cp : 0 <= C) by apply l1_nonneg.
  intros eta He.
  destruct (seg_diff mu veff Hveff (U0 0) h q W Hu A V W0 (eta / 2 / (C + 11))) as [rho [Rp Rh]]; [apply Rdiv_lt_0_compat; lra|].
  set (e1 := Rmin 1 (eta / (2 * (11 * (K + 1))))).
  assert (E1p : 0 < e1). { apply Rmin_glb_lt; [lra|]. apply Rdiv_lt_0_compat; lra. }
  assert (E1a : e1 <= 1) by apply Rmin_l. assert (E1b : e1 <= eta / (2 * (11 * (K + 1)))) by apply Rmin_r.
  destruct (HX e1 E1p) as [d1 [D1 H1]].
  destruct (fin_min 3 (fun cc d => forall s, Rabs (s - 0) < d -> Rabs (comp3 (U0 s) cc - comp3 (U0 0) cc - du cc * (s - 0)) <= e1 * Rabs (s - 0))) as [d2 [D2 H2]].
  { intros i k k' H L s Hs. apply H. lra. }
  { intros cc Hc. apply (derive_near _ _ _ (DU cc Hc) e1 E1p). }
  destruct (derive_near _ _ _ DH e1 E1p) as [d3 [D3 H3]].
  assert (P4 : 0 < rho / (C + 11)) by (apply Rdiv_lt_0_compat; lra).
  set (eps := Rmin (Rmin d1 d2) (Rmin d3 (rho / (C + 11)))).
  exists eps. split; [unfold eps; repeat apply Rmin_glb_lt; assumption|].
  intros e y Ee [x [Xx Fl]] i Hi.
  assert (B1 : Rabs e < d1) by (eapply Rlt_le_trans; [exact Ee|]; eapply Rle_trans; [apply Rmin_l|apply Rmin_l]).
  assert (B2 : Rabs e < d2) by (eapply Rlt_le_trans; [exact Ee|]; eapply Rle_trans; [apply Rmin_l|apply Rmin_r]).
  assert (B3 : Rabs e < d3) by (eapply Rlt_le_trans; [exact Ee|]; eapply Rle_trans; [apply Rmin_r|apply Rmin_l]).
  assert (B4 : Rabs e < rho / (C + 11)) by (eapply Rlt_le_trans; [exact Ee|]; eapply Rle_trans; [apply Rmin_r|apply Rmin_r]).
  specialize (H1 e x B1 Xx). specialize (H3 e). rewrite Rminus_0_r in H3. specialize (H3 B3).
  set (dz := sub (join11 x (U0 e) (H0 e)) (join11 (q 0) (U0 0) h)).
  assert (Z : forall j, (j < 11)%nat -> Rabs (dz j - D j * e) <= e1 * Rabs e).
  { intros j Hj. unfold dz, sub, D. destruct (Nat.ltb_spec j 7) as [L|L]; [rewrite !join_lo by exact L; apply H1; exact L|].
    replace (join11 x (U0 e) (H0 e) j) with (nth (j - 7) [vx (U0 e); vy (U0 e); vz (U0 e); H0 e] 0) by (replace j with (7 + (j - 7))%nat at 2 by lia; rewrite join_hi; reflexivity).
    replace (join11 (q 0) (U0 0) h j) with (nth (j - 7) [vx (U0 0); vy (U0 0); vz (U0 0); h] 0) by (replace j with (7 + (j - 7))%nat at 2 by lia; rewrite join_hi; reflexivity).
    destruct (Nat.ltb_spec j 10) as [L2|L2].
    - assert (Q := H2 (j - 7)%nat ltac:(lia) e). rewrite Rminus_0_r in Q. specialize (Q B2). unfold comp3 in Q.
      assert (N : (j - 7 = 0 \/ j - 7 = 1 \/ j - 7 = 2)%nat) by lia. destruct N as [N|[N|N]]; rewrite N in *; cbn [nth] in *; exact Q.
    - replace (j - 7)%nat with 3%nat by lia. cbn [nth]. rewrite <- H00. exact H3. }
  assert (Ld : l1 11 dz <= (C + 11) * Rabs e).
  { apply Rle_trans with (l1 11 (fun j => D j * e) + l1 11 (fun j => dz j - D j * e)).
    - unfold l1. rewrite <- sum_plus. apply sum_le. intros j Hj. replace (dz j) with (D j * e + (dz j - D j * e)) at 1 by ring. apply Rabs_triang.
    - assert (Q1 : l1 11 (fun j => D j * e) = C * Rabs e). { unfold C, l1. rewrite Rmult_comm, <- sum_scal. apply sum_ext. intros. rewrite Rabs_mult. ring. }
      assert (Q2 := l1_small 11 (fun j => dz j - D j * e) (e1 * Rabs e) Z). cbn [INR] in Q2. pose proof (Rabs_pos e). rewrite Q1. assert (e1 * Rabs e <= 1 * Rabs e) by (apply Rmult_le_compat_r; lra). lra. }
  assert (Ed : dist11 (U0 0) h q x (U0 e) (H0 e) = l1 11 dz) by reflexivity.
  assert (Hd : dist11 (U0 0) h q x (U0 e) (H0 e) < rho).
  { rewrite Ed. eapply Rle_lt_trans; [exact Ld|]. apply (Rmult_lt_compat_l (C + 11)) in B4; [|lra]. replace ((C + 11) * (rho / (C + 11))) with rho in B4 by (field; lra). exact B4. }
  specialize (Rh x (U0 e) (H0 e) y Fl Hd i Hi). rewrite Ed in Rh.
  replace (dflow mu veff (U0 0) h q W (fun j => comp7 x j - comp7 (q 0) j) (vsub (U0 e) (U0 0)) (H0 e - h) i) with (sum_n 11 (fun j => c i j * dz j)) in Rh.
  2:{ unfold dflow, c, dz, sub. cbn [sum_n Nat.ltb Nat.leb]. rewrite !join_lo by lia.
      change (join11 x (U0 e) (H0 e) 7%nat) with (vx (U0 e)). change (join11 x (U0 e) (H0 e) 8%nat) with (vy (U0 e)). change (join11 x (U0 e) (H0 e) 9%nat) with (vz (U0 e)). change (join11 x (U0 e) (H0 e) 10%nat) with (H0 e).
      change (join11 (q 0) (U0 0) h 7%nat) with (vx (U0 0)). change (join11 (q 0) (U0 0) h 8%nat) with (vy (U0 0)). change (join11 (q 0) (U0 0) h 9%nat) with (vz (U0 0)). change (join11 (q 0) (U0 0) h 10%nat) with h.
      unfold vsub. cbn [vx vy vz]. ring. }
  rewrite LD by exact Hi.
  assert (T : Rabs (sum_n 11 (fun j => c i j * dz j) - sum_n 11 (fun j => c i j * D j) * e) <= K * (11 * (e1 * Rabs e))).
  { replace (sum_n 11 (fun j => c i j * dz j) - sum_n 11 (fun j => c i j * D j) * e) with (sum_n 11 (fun j => c i j * (dz j - D j * e))).
    2:{ rewrite (Rmult_comm _ e), <- sum_scal, <- sum_minus. apply sum_ext. intros. ring. }
    eapply Rle_trans; [apply (lin_bound 11 (c i) K (fun j => dz j - D j * e)); apply HK; exact Hi|]. apply Rmult_le_compat_l; [exact Kp|].
    assert (Q2 := l1_small 11 (fun j => dz j - D j * e) (e1 * Rabs e) Z). cbn [INR] in Q2. lra. }
  assert (T1 : K * (11 * (e1 * Rabs e)) <= eta / 2 * Rabs e).
  { apply Rle_trans with ((K + 1) * (11 * (eta / (2 * (11 * (K + 1))) * Rabs e))); [|right; field; lra]. pose proof (Rabs_pos e).
    assert (e1 * Rabs e <= eta / (2 * (11 * (K + 1))) * Rabs e) by (apply Rmult_le_compat_r; lra). assert (0 <= e1 * Rabs e) by (apply Rmult_le_pos; lra).
    apply Rmult_le_compat; lra. }
  assert (T2 : eta / 2 / (C + 11) * l1 11 dz <= eta / 2 * Rabs e).
  { apply Rle_trans with (eta / 2 / (C + 11) * ((C + 11) * Rabs e)); [|right; field; lra]. apply Rmult_le_compat_l; [left; apply Rdiv_lt_0_compat; lra|exact Ld]. }
  set (S1 := sum_n 11 (fun j => c i j * dz j)) in *. set (S2 := sum_n 11 (fun j => c i j * D j)) in *.
  replace (comp7 y i - comp7 (q h) i - S2 * e) with ((comp7 y i - comp7 (q h) i - S1) + (S1 - S2 * e)) by ring. eapply Rle_trans; [apply Rabs_triang|]. lra.
Qed.

Lemma fam_ext (X Y : R -> col7 -> Prop) x0 dx dy : (forall e x, Y e x -> X e x) -> (forall i, (i < 7)%nat -> dx i = dy i) -> fam_diff X x0 dx -> fam_diff Y x0 dy.
Proof.
  intros HXY E H eta He. destruct (H eta He) as [eps [Ep Hh]]. exists eps. split; [exact Ep|]. intros e x Ee Yx i Hi. rewrite <- E by exact Hi. apply Hh; [exact Ee|apply HXY; exact Yx|exact Hi].
Qed.
Lemma legs_app seg us u p q : legs seg (us ++ [u]) p q <-> exists z, legs seg us p z /\ seg u z q.
Proof.
  revert p. induction us as [|a us IH]; intros p; cbn [app legs].
  - split; [intros [z [S E]]; exists p; subst; auto|intros [z [-> S]]; exists q; auto].
  - split; [intros [z [S L]]; apply IH in L; destruct L as [w [L S2]]; exists w; split; [exists z; auto|exact S2]|intros [w [[z [S L]] S2]]; exists z; split; [exact S|apply IH; exists w; auto]].
Qed.

(** m segments *)
Variables (uj : nat -> R -> vec) (H0 : R -> R) (h dh : R) (pj : nat -> col7) (Mj Uj Fj : nat -> list R) (duj : nat -> nat -> R).
Hypothesis H00 : H0 0 = h.
Hypothesis DH : is_derive H0 0 dh.
Lemma fam_legs m (X : R -> col7 -> Prop) dx : (forall j, (j < m)%nat -> seg_data mu veff h (uj j 0) (pj j) (pj (S j)) (Mj j) (Uj j) (Fj j) /\ u_derive (uj j) 0 (duj j)) ->
  fam_diff X (pj 0%nat) dx -> fam_diff (fun e y => exists x, X e x /\ legs (flight mu veff (H0 e)) (map (fun j => uj j e) (seq 0 m)) x y) (pj m) (chain Mj Uj Fj duj dh m dx).
Proof.
  induction m as [|m IH]; intros HS HX.
  - eapply fam_ext; [|intros; reflexivity|exact HX]. intros e y [x [Xx L]]. cbn in L. subst y. exact Xx.
  - specialize (IH ltac:(intros; apply HS; lia) HX). destruct (HS m ltac:(lia)) as [SD DU].
    assert (Q := fam_step _ (uj m) H0 h (pj m) (pj (S m)) (Mj m) (Uj m) (Fj m) _ (duj m) dh SD H00 DU DH IH).
    eapply fam_ext; [|intros; reflexivity|exact Q]. intros e y [x [Xx L]]. cbv beta. rewrite seq_S, map_app in L. cbn [map plus] in L. apply legs_app in L. destruct L as [z [L S]]. exists z. split; [exists x; auto|exact S].
Qed.
End Step.

Lemma fam_curve (xs : R -> col7) dxs : derive7 xs 0 dxs -> fam_diff (fun e x => x = xs e) (xs 0) (comp7 dxs).
Proof.
  intros D eta He. destruct (fin_min 7 (fun i d => forall s, Rabs (s - 0) < d -> Rabs (comp7 (xs s) i - comp7 (xs 0) i - comp7 dxs i * (s - 0)) <= eta * Rabs (s - 0))) as [d [Dp Hd]].
  - intros i k k' H L s Hs. apply H. lra.
  - intros i Hi. apply (derive_near _ _ _ (proj1 (comp7_derive _ _ _) D i Hi) eta He).
  - exists d. split; [exact Dp|]. intros e x Ee -> i Hi. specialize (Hd i Hi e). rewrite Rminus_0_r in Hd. apply Hd. exact Ee.
Qed.
Lemma comp7_minus a b i : (i < 7)%nat -> comp7 (minus7 a b) i = comp7 a i - comp7 b i.
Proof. intros Hi. idx7 i Hi; reflexivity. Qed.
Lemma comp7_plus a b i : (i < 7)%nat -> comp7 (plus7 a b) i = comp7 a i + comp7 b i.
Proof. intros Hi. idx7 i Hi; reflexivity. Qed.
Lemma comp7_apply w m d i : (i < 7)%nat -> comp7 (apply7 w m d) i = row w m d i.
Proof. intros Hi. idx7 i Hi; reflexivity. Qed.
(** two families and their difference *)
Lemma fam_minus (X Y : R -> col7 -> Prop) x0 y0 dx dy (z : R -> col7) : fam_diff X x0 dx -> fam_diff Y y0 dy ->
  (exists eps, 0 < eps /\ forall e, Rabs e < eps -> exists a b, X e a /\ Y e b /\ z e = minus7 a b) ->
  forall i, (i < 7)%nat -> is_derive (fun e => comp7 (z e) i) 0 (dx i - dy i).
Proof.
  intros HX HY [e0 [E0 Hz]] i Hi.
  assert (Z0 : comp7 (z 0) i = comp7 x0 i - comp7 y0 i).
  { destruct (Hz 0 ltac:(rewrite Rabs_R0; exact E0)) as [a [b [Xa [Yb E]]]]. rewrite E, comp7_minus by exact Hi.
    destruct (HX 1 ltac:(lra)) as [d1 [D1 H1]]. destruct (HY 1 ltac:(lra)) as [d2 [D2 H2]].
    specialize (H1 0 a ltac:(rewrite Rabs_R0; exact D1) Xa i Hi). specialize (H2 0 b ltac:(rewrite Rabs_R0; exact D2) Yb i Hi).
    rewrite Rabs_R0, Rmult_0_r in H1, H2. rewrite Rmult_0_r, Rminus_0_r in H1, H2.
    pose proof (Rabs_pos (comp7 a i - comp7 x0 i)). pose proof (Rabs_pos (comp7 b i - comp7 y0 i)).
    assert (Q1 : comp7 a i - comp7 x0 i = 0) by (destruct (Req_dec (comp7 a i - comp7 x0 i) 0) as [Q|N]; [exact Q|apply Rabs_pos_lt in N; lra]).
    assert (Q2 : comp7 b i - comp7 y0 i = 0) by (destruct (Req_dec (comp7 b i - comp7 y0 i) 0) as [Q|N]; [exact Q|apply Rabs_pos_lt in N; lra]). lra. }
  apply near_derive. intros eta He. destruct (HX (eta / 2) ltac:(lra)) as [d1 [D1 H1]]. destruct (HY (eta / 2) ltac:(lra)) as [d2 [D2 H2]].
  exists (Rmin e0 (Rmin d1 d2)). split; [repeat apply Rmin_glb_lt; assumption|]. intros e Ee. rewrite Rminus_0_r in *.
  pose proof (Rmin_l e0 (Rmin d1 d2)). pose proof (Rmin_r e0 (Rmin d1 d2)). pose proof (Rmin_l d1 d2). pose proof (Rmin_r d1 d2).
  destruct (Hz e ltac:(lra)) as [a [b [Xa [Yb E]]]]. rewrite E, comp7_minus, Z0 by exact Hi.
  specialize (H1 e a ltac:(lra) Xa i Hi). specialize (H2 e b ltac:(lra) Yb i Hi).
  replace (comp7 a i - comp7 b i - (comp7 x0 i - comp7 y0 i) - (dx i - dy i) * e) with ((comp7 a i - comp7 x0 i - dx i * e) + - (comp7 b i - comp7 y0 i - dy i * e)) by ring.
  eapply Rle_trans; [apply Rabs_triang|]. rewrite Rabs_Ropp. lra.
Qed.
