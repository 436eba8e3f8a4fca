(** * jpl_lp: elements inside the window and finiteness of the state *)
From Coq Require Import ZArith List Bool String Ascii Reals Lra Lia.
From Flocq Require Import Core.Core IEEE754.BinarySingleNaN.
From Verif Require Import Outcome Float64 Float64Facts FloatBounds PiBounds JplModel JplSpec JplProofs.
Import ListNotations.
Open Scope R_scope.

Lemma F2_nth {A B} (P : A -> B -> Prop) (l : list A) (m : list B) : Forall2 P l m ->
  forall da db i, (i < List.length m)%nat -> P (nth i l da) (nth i m db).
Proof.
  induction 1; intros da db [|i] Hi; cbn in *; try lia; auto. apply IHForall2. lia.
Qed.

(** the published model stays elliptic in the window *)
Lemma published_ok n el rate T : In (n, el, rate) published -> -2 <= T <= 1 / 2 ->
  List.length el = 6%nat /\ List.length rate = 6%nat /\
  38 / 100 <= IZR (nth 0 el 0%Z) / 10 ^ 8 + IZR (nth 0 rate 0%Z) / 10 ^ 8 * T <= 31 /\
  1 / 1000 <= IZR (nth 1 el 0%Z) / 10 ^ 8 + IZR (nth 1 rate 0%Z) / 10 ^ 8 * T <= 24 / 100.
Proof.
  intros H HT. unfold published in H.
  repeat (destruct H as [H|H]; [injection H as <- <- <-; cbn [nth List.length]; repeat split; lra|]). destruct H.
Qed.

Lemma AU_val : fin dAU /\ B2R dAU = 149597870700.
Proof. unfold dAU. destruct (dyadic_val 149597870700 0 ltac:(lia) ltac:(lia)) as [F V]. split; [exact F|]. rewrite V. cbn. lra. Qed.

Lemma DEG_val : fin dDEG2RAD /\ Rabs (B2R dDEG2RAD - PI / 180) <= 1 / 10 ^ 17.
Proof.
  unfold dDEG2RAD. match goal with |- context [D ?m ?e] => destruct (dyadic_val m e ltac:(lia) ltac:(lia)) as [F V] end.
  split; [exact F|]. rewrite V. pose proof pi_bounds. cbn. apply Rabs_le. split; lra.
Qed.

Definition up (j : jpl) (t : double) (i : nat) : double := interp (nthd (j_el j) i) (nthd (j_eldot j) i) t.

Lemma up_ok j n el rate t i : In (n, el, rate) published -> row_ok (j_el j, j_eldot j) (el, rate) -> in_window t -> (i < 6)%nat ->
  fin (up j t i) /\ Rabs (B2R (up j t i) - published_value el rate i (B2R t)) <= / 10 ^ 9 /\ Rabs (B2R (up j t i)) <= p2 19.
Proof.
  intros HI [R1 R2] W Hi. cbn [fst snd] in R1, R2.
  destruct (published_ok n el rate 0 HI ltac:(lra)) as (L1 & L2 & _).
  destruct (F2_nth _ _ _ R1 dzero 0%Z i ltac:(lia)) as (F1 & E1 & B1).
  destruct (F2_nth _ _ _ R2 dzero 0%Z i ltac:(lia)) as (F2 & E2 & B2).
  exact (interp_ok _ _ t _ _ F1 F2 W B1 B2 E1 E2).
Qed.

Definition elem_spec (el rate : list Z) (t : R) (a e i W w M : double) : Prop :=
  (fin a /\ Rabs (B2R a - published_value el rate 0 t * 149597870700) <= 1000) /\
  (fin e /\ Rabs (B2R e - published_value el rate 1 t) <= / 10 ^ 9) /\
  (fin i /\ Rabs (B2R i - published_value el rate 2 t * (PI / 180)) <= / 10 ^ 9) /\
  (fin W /\ Rabs (B2R W - published_value el rate 5 t * (PI / 180)) <= / 10 ^ 9) /\
  (fin w /\ Rabs (B2R w - (published_value el rate 4 t - published_value el rate 5 t) * (PI / 180)) <= / 10 ^ 9) /\
  (fin M /\ Rabs (B2R M - (published_value el rate 3 t - published_value el rate 4 t) * (PI / 180)) <= / 10 ^ 9).

Lemma deg_mul (x : double) X ex : fin x -> Rabs (B2R x - X) <= ex -> 0 <= ex <= 3 / 10 ^ 9 -> Rabs (B2R x) <= p2 20 ->
  fin (dmul x dDEG2RAD) /\ Rabs (B2R (dmul x dDEG2RAD) - X * (PI / 180)) <= / 10 ^ 9.
Proof.
  intros F E He B. destruct DEG_val as [FD ED].
  assert (P : 0 < PI / 180 <= 18 / 1000) by (pose proof pi_bounds; lra).
  assert (Bd : Rabs (B2R dDEG2RAD) <= 19 / 1000).
  { rabs. apply Rabs_le. lra. }
  assert (Ok : ok (dmul x dDEG2RAD) (B2R x * B2R dDEG2RAD) 15).
  { apply dmul_ok; auto; [lia|]. rewrite Rabs_mult.
    apply Rle_trans with (p2 20 * (19 / 1000)); [apply Rmult_le_compat; auto using Rabs_pos|cbn; lra]. }
  destruct Ok as (F2 & _ & E2 & _). split; [exact F2|].
  assert (PE : Rabs (B2R x * B2R dDEG2RAD - X * (PI / 180)) <= ex * (19 / 1000) + (p2 20 + 1) * (1 / 10 ^ 17)).
  { apply prod_err; auto. cbn in B |- *. rabs. apply Rabs_le. lra. }
  cbn in E2, PE. rabs. apply Rabs_le. cbn. lra.
Qed.

Lemma sub_up (x y : double) X Y : fin x -> fin y -> Rabs (B2R x - X) <= / 10 ^ 9 -> Rabs (B2R y - Y) <= / 10 ^ 9 ->
  Rabs (B2R x) <= p2 19 -> Rabs (B2R y) <= p2 19 ->
  fin (dsub x y) /\ Rabs (B2R (dsub x y) - (X - Y)) <= 25 / 10 ^ 10 /\ Rabs (B2R (dsub x y)) <= p2 20.
Proof.
  intros F1 F2 E1 E2 B1 B2.
  assert (Ok : ok (dsub x y) (B2R x - B2R y) 20).
  { apply dsub_ok; auto; [lia|]. cbn in B1, B2. rabs. apply Rabs_le. cbn. lra. }
  destruct Ok as (F & _ & E & B). split; [exact F|]. split; [|exact B].
  cbn in E. rabs. apply Rabs_le. cbn in *. lra.
Qed.

Lemma weak19 (x : R) : Rabs x <= p2 19 -> Rabs x <= p2 20.
Proof. intros H. eapply Rle_trans; [exact H|]. apply bpow_le. lia. Qed.

Lemma window_guard t : in_window t -> (dleb t (d_of_Z (-73048)) || dgeb t (d_of_Z 18263))%bool = false.
Proof.
  intros [F W]. destruct (d_of_Z_exact (-73048) ltac:(lia)) as [F1 V1]. destruct (d_of_Z_exact 18263 ltac:(lia)) as [F2 V2].
  apply orb_false_intro.
  - destruct (dleb t _) eqn:E; [|reflexivity]. apply dleb_R in E; auto. lra.
  - unfold dgeb. destruct (dleb _ t) eqn:E; [|reflexivity]. apply dleb_R in E; auto. lra.
Qed.

Lemma elements_in_window s j t : jpl_ctor s = Ret j -> in_window t ->
  exists n el rate, In (n, el, rate) published /\ str_ci s n /\
  exists a e i W w M, elem_spec el rate (B2R t) a e i W w M /\ 0 < B2R e < 1 /\ 0 < B2R a /\
    (p2 35 <= B2R a <= p2 43 /\ B2R e <= 1 / 4) /\
    (forall m2f, f_elements m2f j t = bind (m2f M e) (fun f => Ret [a; e; i; W; w; f])).
Proof.
  intros C Wt. destruct (ctor_inv _ _ C) as (n & el & rate & HI & Hci & RO & _).
  exists n, el, rate. split; [exact HI|]. split; [exact Hci|].
  pose proof (fun k => up_ok j n el rate t k HI RO Wt) as U.
  assert (HT : -2 <= (B2R t - 1 / 2) / 36525 <= 1 / 2) by (destruct Wt; lra).
  destruct (published_ok n el rate _ HI HT) as (_ & _ & Pa & Pe).
  fold (published_value el rate 0 (B2R t)) in Pa. fold (published_value el rate 1 (B2R t)) in Pe.
  exists (dmul (up j t 0) dAU), (up j t 1), (dmul (up j t 2) dDEG2RAD), (dmul (up j t 5) dDEG2RAD),
    (dmul (dsub (up j t 4) (up j t 5)) dDEG2RAD), (dmul (dsub (up j t 3) (up j t 4)) dDEG2RAD).
  destruct (U 0%nat ltac:(lia)) as (F0 & E0 & B0). destruct (U 1%nat ltac:(lia)) as (F1 & E1 & B1).
  destruct (U 2%nat ltac:(lia)) as (F2 & E2 & B2). destruct (U 3%nat ltac:(lia)) as (F3 & E3 & B3).
  destruct (U 4%nat ltac:(lia)) as (F4 & E4 & B4). destruct (U 5%nat ltac:(lia)) as (F5 & E5 & B5).
  destruct (sub_up _ _ _ _ F4 F5 E4 E5 B4 B5) as (F45 & E45 & B45).
  destruct (sub_up _ _ _ _ F3 F4 E3 E4 B3 B4) as (F34 & E34 & B34).
  destruct AU_val as [FA VA].
  assert (Ua : 37 / 100 <= B2R (up j t 0) <= 32) by (rabs; lra).
  assert (Oa : ok (dmul (up j t 0) dAU) (B2R (up j t 0) * B2R dAU) 43).
  { apply dmul_ok; auto; [lia|]. rewrite VA. apply Rabs_le. cbn. lra. }
  rewrite VA in Oa. destruct Oa as (Fa & _ & Ea & Ba).
  assert (Ya : p2 35 <= B2R (dmul (up j t 0) dAU) <= p2 43).
  { split; [rabs; change (p2 (43 - 53)) with (/ 1024) in Ea; change (p2 35) with 34359738368; lra|]. eapply Rle_trans; [apply Rle_abs|exact Ba]. }
  split; [|split; [|split; [|split; [split; [exact Ya|]|]]]].
  - split; [split; [exact Fa|rabs; change (p2 (43 - 53)) with (/ 1024) in Ea; apply Rabs_le; lra]|].
    split; [split; [exact F1|exact E1]|].
    split; [apply (deg_mul _ _ (/ 10 ^ 9)); [exact F2|exact E2|lra|apply weak19; exact B2]|].
    split; [apply (deg_mul _ _ (/ 10 ^ 9)); [exact F5|exact E5|lra|apply weak19; exact B5]|].
    split; [apply (deg_mul _ _ (25 / 10 ^ 10)); [exact F45|exact E45|lra|exact B45]|].
    apply (deg_mul _ _ (25 / 10 ^ 10)); [exact F34|exact E34|lra|exact B34].
  - rabs; lra.
  - change (p2 35) with 34359738368 in Ya; lra.
  - rabs; lra.
  - intros m2f. unfold f_elements. rewrite (window_guard t Wt). reflexivity.
Qed.

Lemma elements_outside_window m2f j t :
  (B2R t <= -73048 /\ fin t) \/ (18263 <= B2R t /\ fin t) \/ t = dinf \/ t = dninf ->
  f_elements m2f j t = Throw DomainError.
Proof.
  intros H. unfold f_elements.
  destruct (d_of_Z_exact (-73048) ltac:(lia)) as [F1 V1]. destruct (d_of_Z_exact 18263 ltac:(lia)) as [F2 V2].
  assert (G : (dleb t (d_of_Z (-73048)) || dgeb t (d_of_Z 18263))%bool = true).
  { apply orb_true_iff. unfold dgeb. destruct H as [[H F]|[[H F]|[->| ->]]].
    - left. apply dleb_R; auto. lra.
    - right. apply dleb_R; auto. lra.
    - right. vm_compute. reflexivity.
    - left. vm_compute. reflexivity. }
  rewrite G. reflexivity.
Qed.

Ltac p2n := rabs; repeat match goal with
  | |- context [bpow radix2 ?z] => let v := eval cbn in (bpow radix2 z) in progress change (bpow radix2 z) with v
  | H : context [bpow radix2 ?z] |- _ => let v := eval cbn in (bpow radix2 z) in progress change (bpow radix2 z) with v in H
  end.

Section Finite.
Variables dcos dsin : double -> double.
Definition unit_range (g : double -> double) : Prop := forall x, fin x -> fin (g x) /\ Rabs (B2R (g x)) <= 1.
Hypothesis Hcos : unit_range dcos.
Hypothesis Hsin : unit_range dsin.

Definition bnd (k : Z) (x : double) : Prop := fin x /\ Rabs (B2R x) <= p2 k.

Lemma bnd_mul k l m x y : m = (k + l)%Z -> (-1000 <= k + l <= 1000)%Z -> bnd k x -> bnd l y -> bnd m (dmul x y).
Proof.
  intros -> Hk [F1 B1] [F2 B2].
  assert (O : ok (dmul x y) (B2R x * B2R y) (k + l)).
  { apply dmul_ok; auto. rewrite Rabs_mult, bpow_plus. apply Rmult_le_compat; auto using Rabs_pos. }
  destruct O as (F & _ & _ & B). split; assumption.
Qed.
Lemma bnd_add k m x y : m = (k + 1)%Z -> (-1000 <= k <= 999)%Z -> bnd k x -> bnd k y -> bnd m (dadd x y).
Proof.
  intros -> Hk [F1 B1] [F2 B2].
  assert (O : ok (dadd x y) (B2R x + B2R y) (k + 1)).
  { apply dadd_ok; auto; [lia|]. rewrite bpow_plus. change (p2 1) with 2. rabs. apply Rabs_le. lra. }
  destruct O as (F & _ & _ & B). split; assumption.
Qed.
Lemma bnd_sub k m x y : m = (k + 1)%Z -> (-1000 <= k <= 999)%Z -> bnd k x -> bnd k y -> bnd m (dsub x y).
Proof.
  intros -> Hk [F1 B1] [F2 B2].
  assert (O : ok (dsub x y) (B2R x - B2R y) (k + 1)).
  { apply dsub_ok; auto; [lia|]. rewrite bpow_plus. change (p2 1) with 2. rabs. apply Rabs_le. lra. }
  destruct O as (F & _ & _ & B). split; assumption.
Qed.
Lemma bnd_neg k x : bnd k x -> bnd k (dneg x).
Proof. intros [F B]. unfold dneg. split; [rewrite is_finite_Bopp; exact F|rewrite B2R_Bopp, Rabs_Ropp; exact B]. Qed.
Lemma bnd_weak k l x : (k <= l)%Z -> bnd k x -> bnd l x.
Proof. intros H [F B]. split; [exact F|]. eapply Rle_trans; [exact B|]. apply bpow_le. exact H. Qed.
Lemma bnd_trig g x : unit_range g -> fin x -> bnd 0 (g x).
Proof. intros H F. destruct (H x F). split; assumption. Qed.
Lemma bnd_zero k : bnd k dzero.
Proof. split; [reflexivity|]. cbn [B2R dzero]. rewrite Rabs_R0. apply bpow_ge_0. Qed.

Lemma MU_val : fin MU_SUN /\ p2 66 <= B2R MU_SUN <= p2 67.
Proof.
  unfold MU_SUN. match goal with |- context [D ?m ?e] => destruct (dyadic_val m e ltac:(lia) ltac:(lia)) as [F V] end.
  split; [exact F|]. rewrite V. cbn. lra.
Qed.

Lemma par2ic_finite (a e i W w f : double) mu : fin i -> fin W -> fin w -> fin f -> fin a -> fin e ->
  p2 35 <= B2R a <= p2 43 -> 0 < B2R e <= 1 / 4 -> fin mu -> p2 66 <= B2R mu <= p2 67 ->
  exists st, par2ic dcos dsin [a; e; i; W; w; f] mu = Ret st /\ List.length st = 6%nat /\ Forall (fun x => fin x) st.
Proof.
  intros Fi FW Fw Ff Fa Fe Ha He Fmu Hmu.
  assert (F1 : fin done /\ B2R done = 1) by (apply (d_of_Z_exact 1); lia). destruct F1 as [F1 V1].
  (* the guards *)
  assert (G1 : dltb (dmul a (dsub done e)) dzero = false).
  { assert (O : ok (dsub done e) (B2R done - B2R e) 0).
    { apply dsub_ok; auto; [lia|]. rewrite V1. apply Rabs_le. p2n. lra. }
    destruct O as (F & _ & E & B). rewrite V1 in E.
    assert (P : 0 < B2R (dsub done e)) by (p2n; lra).
    assert (O2 : ok (dmul a (dsub done e)) (B2R a * B2R (dsub done e)) 43).
    { apply dmul_ok; auto; [lia|]. rewrite Rabs_mult. replace (p2 43) with (p2 43 * p2 0) by (cbn; lra).
      apply Rmult_le_compat; auto using Rabs_pos. apply Rabs_le. p2n. lra. }
    destruct O2 as (F2 & R2 & _).
    destruct (dltb _ dzero) eqn:L; [|reflexivity]. apply dltb_R in L; auto. cbn [B2R dzero] in L. rewrite R2 in L.
    exfalso. assert (0 <= rnd (B2R a * B2R (dsub done e))); [|lra].
    replace 0 with (rnd 0) by (unfold rnd; apply round_0; auto with typeclass_instances). apply rnd_le.
    apply Rmult_le_pos; [p2n; lra|lra]. }
  assert (G2 : (dgtb e done && dltb (dcos f) (ddiv (d_of_Z (-1)) e))%bool = false).
  { unfold dgtb. destruct (dltb done e) eqn:L; [|reflexivity]. apply dltb_R in L; auto. lra. }
  unfold par2ic. unfold nthd. cbn [nth]. cbv zeta. rewrite G1, G2. cbn [guard bind]. clear G1 G2.
  eexists; split; [reflexivity|]. split; [reflexivity|].
  destruct (Hcos f Ff) as [Fc Bc].
  (* p *)
  assert (Oee : ok (dmul e e) (B2R e * B2R e) 0).
  { apply dmul_ok; auto; [lia|]. apply Rabs_le. p2n. nra. }
  destruct Oee as (Fee & _ & Eee & _).
  assert (Vee : -1 / 100 <= B2R (dmul e e) <= 1 / 10) by (p2n; nra). clear Eee.
  assert (Om : ok (dsub done (dmul e e)) (B2R done - B2R (dmul e e)) 1).
  { apply dsub_ok; auto; [lia|]. rewrite V1. apply Rabs_le. p2n. lra. }
  destruct Om as (Fm & _ & Em & _). rewrite V1 in Em.
  assert (Vm : 8 / 10 <= B2R (dsub done (dmul e e)) <= 2) by (p2n; lra). clear Em.
  set (m := dsub done (dmul e e)) in *.
  assert (Op : ok (dmul a m) (B2R a * B2R m) 44).
  { apply dmul_ok; auto; [lia|]. rewrite Rabs_mult. change (p2 44) with (p2 (43 + 1)). rewrite bpow_plus.
    apply Rmult_le_compat; auto using Rabs_pos; apply Rabs_le; p2n; lra. }
  destruct Op as (Fp & _ & Ep & Bp).
  assert (Lp : p2 34 <= B2R (dmul a m)).
  { assert (p2 35 * (8 / 10) <= B2R a * B2R m) by (apply Rmult_le_compat; p2n; lra). p2n. lra. }
  clearbody m. set (p := dmul a m) in *. clearbody p. clear Ep.
  (* r *)
  assert (Oec : ok (dmul e (dcos f)) (B2R e * B2R (dcos f)) (-1)).
  { apply dmul_ok; auto; [lia|]. rewrite Rabs_mult. rewrite (Rabs_pos_eq (B2R e)) by lra.
    pose proof (Rabs_pos (B2R (dcos f))). cbn. nra. }
  destruct Oec as (Fec & _ & Eec & Bec).
  assert (Od : ok (dadd done (dmul e (dcos f))) (B2R done + B2R (dmul e (dcos f))) 1).
  { apply dadd_ok; auto; [lia|]. rewrite V1. apply Rabs_le. p2n. lra. }
  destruct Od as (Fd & _ & Ed & Bd). rewrite V1 in Ed.
  assert (Vd : 49 / 100 <= B2R (dadd done (dmul e (dcos f)))) by (p2n; lra).
  set (d := dadd done (dmul e (dcos f))) in *. clearbody d.
  assert (Or : ok (ddiv p d) (B2R p / B2R d) 46).
  { apply ddiv_ok; auto; [lia|lra|]. unfold Rdiv. rewrite Rabs_mult.
    change (p2 46) with (p2 (44 + 2)). rewrite bpow_plus. apply Rmult_le_compat; auto using Rabs_pos.
    rewrite Rabs_pos_eq by (left; apply Rinv_0_lt_compat; lra).
    apply Rle_trans with (/ (49 / 100)); [apply Rinv_le; lra|cbn; lra]. }
  destruct Or as (Fr & _ & _ & Br).
  assert (BR : bnd 46 (ddiv p d)) by (split; assumption).
  (* h *)
  assert (Opm : ok (dmul p mu) (B2R p * B2R mu) 111).
  { apply dmul_ok; auto; [lia|]. rewrite Rabs_mult. change (p2 111) with (p2 (44 + 67)). rewrite bpow_plus.
    apply Rmult_le_compat; auto using Rabs_pos. apply Rabs_le. p2n. lra. }
  destruct Opm as (Fpm & Rpm & _ & Bpm).
  assert (Lpm : p2 100 <= B2R (dmul p mu)).
  { rewrite Rpm. replace (p2 100) with (rnd (p2 100)).
    - apply rnd_le. change (p2 100) with (p2 (34 + 66)). rewrite bpow_plus.
      apply Rmult_le_compat; auto using bpow_ge_0. tauto.
    - apply rnd_gen. apply generic_format_bpow. rewrite fexp64_FLT. unfold FLT_exp. lia. }
  set (q := dmul p mu) in *. clearbody q.
  assert (Sl : p2 50 <= sqrt (B2R q)).
  { rewrite <- (sqrt_Rsqr (p2 50)) by apply bpow_ge_0. apply sqrt_le_1_alt.
    unfold Rsqr. rewrite <- bpow_plus. exact Lpm. }
  assert (Su : sqrt (B2R q) <= p2 56).
  { rewrite <- (sqrt_Rsqr (p2 56)) by apply bpow_ge_0. apply sqrt_le_1_alt.
    unfold Rsqr. rewrite <- bpow_plus. eapply Rle_trans; [apply Rle_abs|]. eapply Rle_trans; [exact Bpm|]. apply bpow_le. lia. }
  assert (Oh : ok (dsqrt q) (sqrt (B2R q)) 56).
  { apply dsqrt_ok; auto; [lia|]. p2n. lra. }
  destruct Oh as (Fh & Rh & _ & Bh).
  assert (Lh : p2 50 <= B2R (dsqrt q)).
  { rewrite Rh. replace (p2 50) with (rnd (p2 50)); [apply rnd_le; exact Sl|].
    apply rnd_gen. apply generic_format_bpow. rewrite fexp64_FLT. unfold FLT_exp. lia. }
  set (h := dsqrt q) in *. clearbody h.
  assert (Bmh : forall x, fin x -> Rabs (B2R x) <= p2 67 -> bnd 17 (ddiv x h)).
  { intros x Fx Bx. assert (O : ok (ddiv x h) (B2R x / B2R h) 17).
    { apply ddiv_ok; auto; [lia|p2n; lra|]. unfold Rdiv. rewrite Rabs_mult.
      change (p2 17) with (p2 (67 + (-50))). rewrite bpow_plus. apply Rmult_le_compat; auto using Rabs_pos.
      rewrite Rabs_pos_eq by (left; apply Rinv_0_lt_compat; p2n; lra).
      change (-50)%Z with (- (50))%Z. rewrite bpow_opp. apply Rinv_le; [apply bpow_gt_0|exact Lh]. }
    destruct O as (F & _ & _ & B). split; assumption. }
  assert (Bmu : Rabs (B2R mu) <= p2 67) by (apply Rabs_le; p2n; lra).
  assert (X1 : bnd 17 (ddiv mu h)) by (apply Bmh; auto).
  assert (X2 : bnd 17 (ddiv (dneg mu) h)).
  { apply Bmh; unfold dneg; [rewrite is_finite_Bopp; exact Fmu|rewrite B2R_Bopp, Rabs_Ropp; exact Bmu]. }
  assert (Be : bnd 0 e) by (split; [exact Fe|apply Rabs_le; p2n; lra]).
  pose proof (bnd_trig dcos f Hcos Ff) as T1. pose proof (bnd_trig dsin f Hsin Ff) as T2.
  pose proof (bnd_trig dcos i Hcos Fi) as T3. pose proof (bnd_trig dsin i Hsin Fi) as T4.
  pose proof (bnd_trig dcos W Hcos FW) as T5. pose proof (bnd_trig dsin W Hsin FW) as T6.
  pose proof (bnd_trig dcos w Hcos Fw) as T7. pose proof (bnd_trig dsin w Hsin Fw) as T8.
  assert (Y1 : bnd 46 (dmul (ddiv p d) (dcos f))) by (apply (bnd_mul 46 0); [lia|lia|auto|auto]).
  assert (Y2 : bnd 46 (dmul (ddiv p d) (dsin f))) by (apply (bnd_mul 46 0); [lia|lia|auto|auto]).
  assert (Y3 : bnd 17 (dmul (ddiv (dneg mu) h) (dsin f))) by (apply (bnd_mul 17 0); [lia|lia|auto|auto]).
  assert (Y4 : bnd 18 (dmul (ddiv mu h) (dadd e (dcos f)))).
  { apply (bnd_mul 17 1); [lia|lia|auto|]. apply (bnd_add 0); [lia|lia|auto|auto]. }
  assert (R1 : forall x y, bnd 0 x -> bnd 0 y -> bnd 0 (dmul x y)) by (intros; apply (bnd_mul 0 0); auto; lia).
  assert (R2 : forall x y, bnd 0 x -> bnd 0 y -> bnd 1 (dadd x y)) by (intros; apply (bnd_add 0); auto; lia).
  assert (R3 : forall x y, bnd 0 x -> bnd 0 y -> bnd 1 (dsub x y)) by (intros; apply (bnd_sub 0); auto; lia).
  assert (R4 : forall x, bnd 0 x -> bnd 1 x) by (intros; apply (bnd_weak 0); auto; lia).
  assert (Y5 : forall x, bnd 17 x -> bnd 46 x) by (intros; apply (bnd_weak 17); auto; lia).
  assert (Y6 : forall x, bnd 18 x -> bnd 46 x) by (intros; apply (bnd_weak 18); auto; lia).
  assert (Row : forall m0 m1 m2 x y, bnd 1 m0 -> bnd 1 m1 -> bnd 1 m2 -> bnd 46 x -> bnd 46 y ->
    fin (dadd (dadd (dmul m0 x) (dmul m1 y)) (dmul m2 dzero))).
  { intros m0 m1 m2 x y H0 H1 H2 Hx Hy. apply (bnd_add 48 49); [lia|lia| |].
    - apply (bnd_add 47); [lia|lia|apply (bnd_mul 1 46); auto; lia|apply (bnd_mul 1 46); auto; lia].
    - apply (bnd_weak 2); [lia|]. apply (bnd_mul 1 1); [lia|lia|auto|apply bnd_zero]. }
  clear - Row Y1 Y2 Y3 Y4 Y5 Y6 R1 R2 R3 R4 T1 T2 T3 T4 T5 T6 T7 T8.
  pose proof bnd_neg as N.
  apply Forall_cons; [apply Row; auto 8|]. apply Forall_cons; [apply Row; auto 8|]. apply Forall_cons; [apply Row; auto 8|].
  apply Forall_cons; [apply Row; auto 8|]. apply Forall_cons; [apply Row; auto 8|]. apply Forall_cons; [apply Row; auto 8|].
  apply Forall_nil.
Qed.
End Finite.

Lemma jpl_names s :
  (forall n, In n known_names -> str_ci s n -> exists j, jpl_ctor s = Ret j) /\
  ((forall n, In n known_names -> ~ str_ci s n) -> exists e, jpl_ctor s = Throw e) /\
  (forall t, str_ci s t -> jpl_ctor s = jpl_ctor t).
Proof.
  split; [exact (ctor_accepts s)|]. split; [|exact (ctor_case_insensitive s)].
  intros H. eexists. exact (ctor_rejects s H).
Qed.
Lemma jpl_elements_window s j t : jpl_ctor s = Ret j -> in_window t ->
  exists n el rate, In (n, el, rate) published /\ str_ci s n /\
  exists a e i W w M, elem_spec el rate (B2R t) a e i W w M /\ 0 < B2R e < 1 /\ 0 < B2R a /\
    forall m2f, f_elements m2f j t = bind (m2f M e) (fun f => Ret [a; e; i; W; w; f]).
Proof.
  intros C W. destruct (elements_in_window s j t C W) as (n & el & rate & H1 & H2 & a & e & i & Om & w & M & H3 & H4 & H5 & _ & H6).
  exists n, el, rate. split; [exact H1|]. split; [exact H2|]. exists a, e, i, Om, w, M. auto.
Qed.
Lemma jpl_types_window s j t : jpl_ctor s = Ret j -> in_window t ->
  exists n el rate, In (n, el, rate) published /\ str_ci s n /\
  exists a e i W w M, elem_spec el rate (B2R t) a e i W w M /\
    forall m2f f2m par2eq f, m2f M e = Ret f ->
      jpl_elements m2f f2m par2eq j t KEP_F = Ret [a; e; i; W; w; f] /\
      jpl_elements m2f f2m par2eq j t KEP_M = bind (f2m f e) (fun M' => Ret [a; e; i; W; w; M']) /\
      jpl_elements m2f f2m par2eq j t MEQ = Ret (par2eq [a; e; i; W; w; f] false) /\
      jpl_elements m2f f2m par2eq j t MEQ_R = Ret (par2eq [a; e; i; W; w; f] true) /\
      jpl_elements m2f f2m par2eq j t POSVEL = Throw LogicError.
Proof.
  intros C W. destruct (elements_in_window s j t C W) as (n & el & rate & H1 & H2 & a & e & i & Om & w & M & H3 & H4 & H5 & _ & H6).
  exists n, el, rate. split; [exact H1|]. split; [exact H2|]. exists a, e, i, Om, w, M. split; [exact H3|].
  intros m2f f2m par2eq f E. unfold jpl_elements. rewrite H6, E. cbn [bind]. split; [reflexivity|]. split; [reflexivity|]. split; [reflexivity|]. split; reflexivity.
Qed.
Lemma jpl_eph_window dcos dsin : unit_range dcos -> unit_range dsin ->
  forall s j t, jpl_ctor s = Ret j -> in_window t -> exists M e, fin M /\ fin e /\ 0 < B2R e < 1 /\
  forall m2f, match m2f M e with
    | Ret f => fin f -> exists st, jpl_eph m2f dcos dsin j t = Ret st /\ List.length st = 6%nat /\ Forall (fun x => fin x) st
    | Throw x => jpl_eph m2f dcos dsin j t = Throw x
    | UB => jpl_eph m2f dcos dsin j t = UB
    end.
Proof.
  intros Hc Hs s j t C W.
  destruct (elements_in_window s j t C W) as (n & el & rate & H1 & H2 & a & e & i & Om & w & M & H3 & H4 & H5 & [H7 H8] & H6).
  destruct (ctor_inv _ _ C) as (_ & _ & _ & _ & _ & _ & Emu & _).
  destruct H3 as ((Fa & _) & (Fe & _) & (Fi & _) & (FW & _) & (Fw & _) & (FM & _)).
  exists M, e. split; [exact FM|]. split; [exact Fe|]. split; [exact H4|]. intros m2f.
  unfold jpl_eph. rewrite H6. destruct (m2f M e) as [f|x|]; cbn [bind]; [|reflexivity|reflexivity].
  intros Ff. rewrite Emu. destruct MU_val as [Fmu Vmu]. apply par2ic_finite; auto. lra.
Qed.
Lemma jpl_outside m2f dcos dsin f2m par2eq j t et :
  (B2R t <= -73048 /\ fin t) \/ (18263 <= B2R t /\ fin t) \/ t = dinf \/ t = dninf ->
  jpl_eph m2f dcos dsin j t = Throw DomainError /\ jpl_elements m2f f2m par2eq j t et = Throw DomainError.
Proof.
  intros H. unfold jpl_eph, jpl_elements. rewrite (elements_outside_window m2f j t H). split; reflexivity.
Qed.
Lemma jpl_nan_date s j : jpl_ctor s = Ret j -> exists t, ~ in_window t /\
  exists M e, forall m2f f, m2f M e = Ret f -> exists el, f_elements m2f j t = Ret el.
Proof.
  intros _. exists dnan. split; [intros [F _]; discriminate|].
  unfold f_elements. cbv zeta. eexists _, _. intros m2f f H.
  change (dleb dnan (d_of_Z (-73048)) || dgeb dnan (d_of_Z 18263))%bool with false. cbn [guard bind].
  rewrite H. cbn [bind]. eexists. reflexivity.
Qed.
Lemma jpl_name_cases : jpl_ctor "Pluto" = Throw LogicError /\ jpl_ctor "moon" = Throw OutOfRange /\ in_window (d_of_Z 0).
Proof.
  split; [vm_compute; reflexivity|]. split; [vm_compute; reflexivity|].
  split; [reflexivity|]. destruct (d_of_Z_exact 0 ltac:(lia)) as [_ ->]. lra.
Qed.
