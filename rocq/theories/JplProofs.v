(** * Proofs about jpl_lp *)
From Coq Require Import ZArith List Bool String Ascii Reals Lra Lia.
From Flocq Require Import Core.Core IEEE754.BinarySingleNaN.
From Verif Require Import Outcome Float64 Float64Facts FloatBounds PiBounds JplModel JplSpec.
Import ListNotations.
Open Scope R_scope.

Lemma dyadic_val m e : (-1000 <= e <= 100)%Z -> (Z.abs m <= 2 ^ 53)%Z -> fin (D m e) /\ B2R (D m e) = IZR m * p2 e.
Proof.
  intros He Hm. unfold d_of_dyadic.
  pose proof (binary_normalize_correct prec64 emax64 _ _ mode_NE m e false) as H. cbv zeta in H.
  change (F2R (Float radix2 m e)) with (IZR m * p2 e) in H.
  change (round_mode mode_NE) with ZnearestE in H. fold fexp64 in H.
  assert (B : Rabs (IZR m * p2 e) <= p2 (53 + 100)).
  { rewrite Rabs_mult, (Rabs_pos_eq (p2 e)) by apply bpow_ge_0. rewrite <- abs_IZR, bpow_plus.
    apply Rmult_le_compat; [apply IZR_le; lia|apply bpow_ge_0| |apply bpow_le; lia].
    change (p2 53) with (IZR (2 ^ 53)). apply IZR_le; lia. }
  rewrite (no_overflow _ (53 + 100) ltac:(lia) B) in H. destruct H as [H1 [H2 _]].
  split; [exact H2|]. rewrite H1. apply rnd_gen. apply gen_Z; [lia|exact Hm].
Qed.

Lemma prod_err a b A B x y m n : Rabs (a - A) <= x -> Rabs (b - B) <= y -> Rabs A <= m -> Rabs b <= n ->
  Rabs (a * b - A * B) <= x * n + m * y.
Proof.
  intros H1 H2 H3 H4. replace (a * b - A * B) with ((a - A) * b + A * (b - B)) by ring.
  eapply Rle_trans; [apply Rabs_triang|]. rewrite !Rabs_mult.
  apply Rplus_le_compat; apply Rmult_le_compat; auto using Rabs_pos.
Qed.

Definition in_window (t : double) : Prop := fin t /\ -73048 < B2R t < 18263.

Definition interp (el eld t : double) : double :=
  dadd el (dmul eld (ddiv (dsub t (D 1 (-1))) (d_of_Z 36525))).

Ltac rabs := repeat match goal with H : Rabs _ <= _ |- _ => apply Rabs_le_inv in H end.

Lemma interp_ok (el eld t : double) (E Ed : R) :
  fin el -> fin eld -> in_window t -> Rabs E <= 400 -> Rabs Ed <= 150000 ->
  Rabs (B2R el - E) <= p2 (-43) -> Rabs (B2R eld - Ed) <= p2 (-35) ->
  fin (interp el eld t) /\ Rabs (B2R (interp el eld t) - (E + Ed * ((B2R t - 1 / 2) / 36525))) <= / 10 ^ 9
  /\ Rabs (B2R (interp el eld t)) <= p2 19.
Proof.
  intros F1 F2 [F3 W] HE HEd E1 E2.
  destruct (dyadic_val 1 (-1) ltac:(lia) ltac:(lia)) as [Fh Vh].
  replace (IZR 1 * p2 (-1)) with (/ 2) in Vh by (cbn; lra).
  destruct (d_of_Z_exact 36525 ltac:(lia)) as [Fc Vc].
  unfold interp.
  set (s := dsub t (D 1 (-1))).
  assert (Os : ok s (B2R t - / 2) 17).
  { unfold s. rewrite <- Vh. apply dsub_ok; auto; [lia|]. rewrite Vh. apply Rabs_le. cbn. lra. }
  clearbody s. destruct Os as (Fs & _ & Es & Bs).
  set (q := ddiv s (d_of_Z 36525)).
  assert (Oq : ok q (B2R s / 36525) 2).
  { unfold q. rewrite <- Vc. apply ddiv_ok; auto; [lia|rewrite Vc; lra|]. rewrite Vc.
    cbn in Bs. rabs. apply Rabs_le. cbn. lra. }
  clearbody q. destruct Oq as (Fq & _ & Eq & Bq).
  set (T := (B2R t - 1 / 2) / 36525).
  assert (ET : Rabs (B2R q - T) <= 1 / 10 ^ 15 /\ Rabs T <= 2 /\ Rabs (B2R q) <= 2 + 1 / 10 ^ 15).
  { unfold T. cbn in Es, Eq. rabs. split; [|split]; apply Rabs_le; cbn; lra. }
  destruct ET as (ET & BT & Bq'). clear Eq Es Bs Bq.
  assert (HP : Rabs (B2R eld * B2R q - Ed * T) <= p2 (-35) * (2 + 1 / 10 ^ 15) + 150000 * (1 / 10 ^ 15)).
  { apply prod_err; assumption. }
  assert (HEdT : Rabs (Ed * T) <= 150000 * 2).
  { rewrite Rabs_mult. apply Rmult_le_compat; auto using Rabs_pos. }
  clear E2.
  set (m := dmul eld q).
  assert (Om : ok m (B2R eld * B2R q) 19).
  { apply dmul_ok; auto; [lia|]. cbn in HP. rabs. apply Rabs_le. cbn. lra. }
  clearbody m. destruct Om as (Fm & _ & Em & Bm).
  assert (Oa : ok (dadd el m) (B2R el + B2R m) 19).
  { apply dadd_ok; auto; [lia|]. cbn in HP, E1, Em. rabs. apply Rabs_le. cbn. lra. }
  destruct Oa as (Fa & _ & Ea & Ba).
  split; [exact Fa|]. split; [|exact Ba].
  cbn in HP, E1, Em, Ea. rabs. apply Rabs_le. cbn. lra.
Qed.

(** ** the tables *)
Definition close (b : R) (k : Z) (d : double) (z : Z) : Prop :=
  fin d /\ Rabs (B2R d - IZR z / 10 ^ 8) <= p2 k /\ Rabs (IZR z / 10 ^ 8) <= b.

Lemma close_dy b k m e z : (-1000 <= e <= 100)%Z -> (Z.abs m <= 2 ^ 53)%Z ->
  Rabs (IZR m * p2 e - IZR z / 10 ^ 8) <= p2 k -> Rabs (IZR z / 10 ^ 8) <= b -> close b k (D m e) z.
Proof. intros He Hm H1 H2. destruct (dyadic_val m e He Hm) as [F V]. split; [exact F|]. rewrite V. auto. Qed.
Lemma close_0 b k : 0 <= b -> close b k dzero 0.
Proof.
  intros Hb. split; [reflexivity|]. cbn [B2R dzero]. replace (0 / 10 ^ 8) with 0 by lra. rewrite Rminus_0_r, Rabs_R0.
  split; [apply bpow_ge_0|exact Hb].
Qed.

Ltac tab := repeat apply Forall2_cons; try apply Forall2_nil;
  (apply close_0; lra) || (apply close_dy; [lia|lia|apply Rabs_le; cbn; lra|apply Rabs_le; cbn; lra]).

Definition row_ok (p : list double * list double) (r : list Z * list Z) : Prop :=
  Forall2 (close 400 (-43)) (fst p) (fst r) /\ Forall2 (close 150000 (-35)) (snd p) (snd r).

Definition code_rows : list (list double * list double) :=
  [(mercury_el, mercury_el_dot); (venus_el, venus_el_dot); (earth_moon_el, earth_moon_el_dot); (mars_el, mars_el_dot);
   (jupiter_el, jupiter_el_dot); (saturn_el, saturn_el_dot); (uranus_el, uranus_el_dot); (neptune_el, neptune_el_dot)].

Lemma rows_ok : Forall2 row_ok code_rows (map (fun r => (snd (fst r), snd r)) published).
Proof. unfold code_rows, published. cbn [map fst snd]. repeat apply Forall2_cons; try apply Forall2_nil; split; cbn [fst snd]; tab. Qed.

(** ** names *)
Open Scope N_scope.
Lemma code_lt c : N_of_ascii c < 256.
Proof. destruct c as [[|] [|] [|] [|] [|] [|] [|] [|]]; reflexivity. Qed.
Lemma code_inj c d : N_of_ascii c = N_of_ascii d -> c = d.
Proof. intros H. rewrite <- (ascii_N_embedding c), <- (ascii_N_embedding d), H. reflexivity. Qed.
Lemma lower_code c : N_of_ascii (lower_ascii c) =
  if (N.leb 65 (N_of_ascii c) && N.leb (N_of_ascii c) 90)%bool then N_of_ascii c + 32 else N_of_ascii c.
Proof.
  unfold lower_ascii. cbv zeta. destruct (N.leb_spec 65 (N_of_ascii c)); cbn [andb]; [|reflexivity].
  destruct (N.leb_spec (N_of_ascii c) 90); [|reflexivity]. apply N_ascii_embedding. lia.
Qed.
Lemma lower_ci c d : char_ci c d -> lower_ascii c = lower_ascii d.
Proof.
  unfold char_ci. cbv zeta. intros H. apply code_inj. rewrite !lower_code.
  destruct (N.leb_spec 65 (N_of_ascii c)), (N.leb_spec (N_of_ascii c) 90),
    (N.leb_spec 65 (N_of_ascii d)), (N.leb_spec (N_of_ascii d) 90); cbn [andb]; lia.
Qed.
Lemma ci_lower c : char_ci c (lower_ascii c).
Proof.
  unfold char_ci. cbv zeta. rewrite lower_code.
  destruct (N.leb_spec 65 (N_of_ascii c)), (N.leb_spec (N_of_ascii c) 90); cbn [andb]; lia.
Qed.
Close Scope N_scope.
Lemma str_lower_ci : forall s t, str_ci s t -> lower s = lower t.
Proof.
  induction s as [|c s IH]; intros [|d t]; cbn; try tauto.
  intros [H1 H2]. rewrite (lower_ci _ _ H1), (IH _ H2). reflexivity.
Qed.
Lemma str_ci_lower : forall s, str_ci s (lower s).
Proof. induction s; cbn; auto using ci_lower. Qed.

Lemma ctor_case_insensitive s t : str_ci s t -> jpl_ctor s = jpl_ctor t.
Proof. intros H. unfold jpl_ctor. rewrite (str_lower_ci _ _ H). reflexivity. Qed.

Lemma known_lower n : In n known_names -> lower n = n.
Proof. cbn. intros H. repeat (destruct H as [<-|H]; [reflexivity|]). destruct H. Qed.

Lemma F2_in {A B} (P : A -> B -> Prop) (l : list A) (m : list B) : Forall2 P l m ->
  forall i a b, nth_error l i = Some a -> nth_error m i = Some b -> P a b.
Proof.
  induction 1; intros [|i] a b; cbn; try discriminate; eauto.
  intros E1 E2. injection E1 as <-. injection E2 as <-. assumption.
Qed.

Lemma ctor_inv s j : jpl_ctor s = Ret j ->
  exists n el rate, In (n, el, rate) published /\ str_ci s n /\ row_ok (j_el j, j_eldot j) (el, rate)
    /\ j_mu j = MU_SUN /\ j_name j = (n ++ " - jpl_lp")%string.
Proof.
  unfold jpl_ctor. intros H. pose proof (str_ci_lower s) as Hl. revert H Hl. generalize (lower s). intros n H Hl.
  pose proof (F2_in _ _ _ rows_ok) as RO.
  cbn [map_at mapped_planets] in H.
  Ltac tryname k n H RO Hl j := 
    match type of H with context [String.eqb ?x n] => destruct (String.eqb_spec x n) as [?|?] end;
    [ subst n; cbn [bind planet_data] in H; injection H as H; subst j; cbn [j_el j_eldot j_mu j_name];
      eexists _, _, _; split; [apply (nth_error_In published k); reflexivity|]; split; [exact Hl|]; split;
      [exact (RO k _ _ eq_refl eq_refl)|split; reflexivity]
    | ].
  tryname 0%nat n H RO Hl j. tryname 1%nat n H RO Hl j. tryname 2%nat n H RO Hl j. tryname 3%nat n H RO Hl j.
  tryname 4%nat n H RO Hl j. tryname 5%nat n H RO Hl j. tryname 6%nat n H RO Hl j. tryname 7%nat n H RO Hl j.
  destruct (String.eqb_spec "pluto" n); discriminate.
Qed.

Lemma ctor_accepts s n : In n known_names -> str_ci s n -> exists j, jpl_ctor s = Ret j.
Proof.
  intros Hn H. rewrite (ctor_case_insensitive _ _ H).
  cbn in Hn. repeat (destruct Hn as [<-|Hn]; [eexists; reflexivity|]). destruct Hn.
Qed.

Lemma ctor_rejects s : (forall n, In n known_names -> ~ str_ci s n) ->
  jpl_ctor s = Throw (if String.eqb (lower s) "pluto" then LogicError else OutOfRange).
Proof.
  intros H. unfold jpl_ctor. pose proof (str_ci_lower s) as Hl. revert Hl. generalize (lower s). intros n Hl.
  assert (K : ~ In n known_names) by (intros K; exact (H n K Hl)).
  cbn [map_at mapped_planets]. cbn in K.
  repeat match goal with |- context [String.eqb ?x n] => 
    lazymatch x with "pluto"%string => fail | _ => destruct (String.eqb_spec x n); [tauto|] end end.
  rewrite (String.eqb_sym n). destruct (String.eqb_spec "pluto" n); reflexivity.
Qed.
