(** * The low-precision planets over the real numbers follow the published orbits *)
From Coq Require Import ZArith Reals List String Lra Lia.
From Coquelicot Require Import Rcomplements.
From Verif Require Import Outcome PartialReal Vec3 RealLib KepModel KepSpec AnomProofs ElemModel ElemSpec ElemProofs ElemPar TwoBodySpec KplaModel JplRealModel JplSpec JplRealSpec.
From Verif Require JplModel JplProofs.
Import ListNotations.
Open Scope R_scope.

Lemma jr_ctor_inv s j : jr_ctor s = Ret j ->
  exists n el rate, In (n, el, rate) published /\ str_ci s n /\ jr_el j = dec el /\ jr_dot j = dec rate /\ jr_mu j = r_MU_SUN /\ 0 < jr_self j /\ 0 < jr_radius j <= jr_safe j.
Proof.
  unfold jr_ctor. intros H. pose proof (JplProofs.str_ci_lower s) as Hl. revert H Hl. generalize (JplModel.lower s). intros n H Hl.
  cbn [JplModel.map_at JplModel.mapped_planets] in H.
  Ltac trycase k n H Hl j :=
    match type of H with context [String.eqb ?x n] => destruct (String.eqb_spec x n) as [?|?] end;
    [ subst n; cbn [bind row_of] in H; injection H as H; subst j; cbn [jr_el jr_dot jr_mu jr_self jr_radius jr_safe];
      eexists _, _, _; split; [apply (nth_error_In published k); reflexivity|]; split; [exact Hl|]; repeat split; lra | ].
  trycase 0%nat n H Hl j. trycase 1%nat n H Hl j. trycase 2%nat n H Hl j. trycase 3%nat n H Hl j.
  trycase 4%nat n H Hl j. trycase 5%nat n H Hl j. trycase 6%nat n H Hl j. trycase 7%nat n H Hl j.
  destruct (String.eqb_spec "pluto" n); discriminate.
Qed.
Lemma jr_same_names s : (exists j, jr_ctor s = Ret j) <-> (exists j, JplModel.jpl_ctor s = Ret j).
Proof.
  unfold jr_ctor, JplModel.jpl_ctor. generalize (JplModel.lower s). intros n. cbn [JplModel.map_at JplModel.mapped_planets].
  repeat (match goal with |- context [String.eqb ?x n] => destruct (String.eqb_spec x n) end; [cbn [bind row_of JplModel.planet_data]; split; intros [j H]; (discriminate || (eexists; reflexivity))|]).
  cbn [bind]. split; intros [j H]; discriminate.
Qed.
Lemma rows_len n el rate : In (n, el, rate) published -> List.length el = 6%nat /\ List.length rate = 6%nat.
Proof. cbn [In published]. intros H. repeat (destruct H as [H|H]; [injection H as <- <- <-; split; reflexivity|]). destruct H. Qed.
Lemma dec_nth l i : (i < List.length l)%nat -> nth i (dec l) 0 = IZR (nth i l 0%Z) / 10 ^ 8.
Proof. intros H. unfold dec. rewrite (nth_indep _ 0 (IZR 0 / 10 ^ 8)) by (rewrite map_length; exact H). rewrite (map_nth (fun n => IZR n / 10 ^ 8)). reflexivity. Qed.
Lemma updated_pub j n el rate t i : In (n, el, rate) published -> jr_el j = dec el -> jr_dot j = dec rate -> (i < 6)%nat -> updated j t i = published_value el rate i t.
Proof. intros H E1 E2 Hi. destruct (rows_len _ _ _ H) as [L1 L2]. unfold updated, published_value. rewrite E1, E2, !dec_nth by lia. reflexivity. Qed.
(** bounds of the elements in the window of validity *)
Lemma row_bounds n el rate t : In (n, el, rate) published -> -73048 < t < 18263 ->
  3 / 10 < published_value el rate 0 t < 31 /\ 0 < published_value el rate 1 t < 1 / 4 /\ -8 < published_value el rate 2 t < 8.
Proof.
  intros H Ht. assert (TD : -21 / 10 < (t - 1 / 2) / 36525 < 6 / 10) by (split; [apply Rlt_div_r|apply Rlt_div_l]; lra). unfold published_value. set (u := (t - 1 / 2) / 36525) in *. clearbody u. revert H. cbn [In published].
  intros H. repeat (destruct H as [H|H]; [injection H as _ <- <-; cbn [nth]; cbv [pow]; repeat split; lra|]). destruct H.
Qed.
Lemma deg_eq x : x * r_DEG2RAD = deg x. Proof. unfold r_DEG2RAD, deg. field. Qed.
Section Newton.
Variable newton : (R -> R * R) -> R -> R -> R -> option R.
Hypothesis NOK : newton_ok newton.
(** the elements in the window *)
Lemma jr_f_ok j n el rate t : In (n, el, rate) published -> jr_el j = dec el -> jr_dot j = dec rate -> -73048 < t < 18263 ->
  let v i := published_value el rate i t in
  exists E f (k : Z), one_turn E /\ one_turn f /\ E - v 1%nat * sin E = deg (v 3%nat - v 4%nat) + 2 * IZR k * PI /\ same_point_ellipse (v 1%nat) E f /\ f2e f (v 1%nat) = Some E /\
    jr_f_elements newton j t = Ret (Some (El (v 0%nat * au) (v 1%nat) (deg (v 2%nat)) (deg (v 5%nat)) (deg (v 4%nat - v 5%nat)) f)).
Proof.
  intros HI E1 E2 Ht v. destruct (row_bounds n el rate t HI Ht) as [BA [BE BI]]. fold (v 1%nat) in BE.
  destruct (m2e_turns newton NOK (v 1%nat) (deg (v 3%nat - v 4%nat)) ltac:(lra)) as [E [k [EM [OT EE]]]]. destruct (ell_forward (v 1%nat) E ltac:(lra) OT) as [f [F1 [F2 [F3 F4]]]].
  exists E, f, k. split; [exact OT|]. split; [exact F2|]. split; [revert EE; unfold e2m; destruct (Rle_dec 1 (v 1%nat)); [lra|]; intros EE; injection EE as EE; exact EE|]. split; [exact F4|]. split; [exact F3|].
  unfold jr_f_elements. destruct (Rle_dec t (-73048)); [lra|]. destruct (Rle_dec 18263 t); [lra|]. cbv zeta. rewrite !(updated_pub j n el rate t) by (assumption || lia). fold (v 0%nat) (v 1%nat) (v 2%nat) (v 3%nat) (v 4%nat) (v 5%nat). rewrite !deg_eq.
  unfold m2f. destruct (Rle_dec 1 (v 1%nat)); [lra|]. rewrite EM, F1. reflexivity.
Qed.
Lemma ell_norm mu el : 0 < mu -> sound_el el -> 0 < el_e el < 1 -> el_a el * (1 - el_e el) <= norm (fst (el_state mu el)) <= el_a el * (1 + el_e el).
Proof.
  intros M S E. pose proof (sound_p _ S) as P. pose proof (sound_D _ S) as D. unfold el_state. rewrite (kst_norm mu _ _ _ _ _ _ P (peri_ortho el) D). rewrite Rmult_0_l, Rplus_0_r in *.
  destruct S as [A _]. assert (AP : 0 < el_a el) by nra. pose proof (COS_bound (el_f el)) as C. unfold el_p. set (a := el_a el) in *. set (e := el_e el) in *. set (c := cos (el_f el)) in *. clearbody a e c.
  replace (a * (1 - e * e)) with (a * (1 - e) * (1 + e)) by ring. split.
  - apply (proj1 (Rle_div_r _ _ _ D)). apply Rmult_le_compat_l; nra.
  - apply (proj2 (Rle_div_l _ _ _ D)). replace (a * (1 - e) * (1 + e)) with (a * (1 + e) * (1 - e)) by ring. apply Rmult_le_compat_l; nra.
Qed.
Theorem jr_in_window s j t : jr_ctor s = Ret j -> -73048 < t < 18263 ->
  exists n el rate st, In (n, el, rate) published /\ str_ci s n /\ jr_eph newton j t = Ret (Some st) /\ on_published_orbit el rate t st /\
    (let a := published_value el rate 0 t * au in let e := published_value el rate 1 t in a * (1 - e) <= norm (fst st) <= a * (1 + e)).
Proof.
  intros H Ht. destruct (jr_ctor_inv s j H) as [n [el [rate [HI [SC [E1 [E2 [EM _]]]]]]]]. destruct (row_bounds n el rate t HI Ht) as [BA [BE BI]].
  destruct (jr_f_ok j n el rate t HI E1 E2 Ht) as [E [f [k [OE [OF [KE [SP [_ FE]]]]]]]]. unfold jr_eph. rewrite FE, EM. cbn [bind]. set (el' := El _ _ _ _ _ _).
  assert (MP : 0 < r_MU_SUN) by (unfold r_MU_SUN; lra). assert (S : sound_el el').
  { unfold el', sound_el. cbn [el_a el_e el_f]. pose proof (COS_bound f). split; [|split; [lra|nra]]. apply Rmult_lt_0_compat; [apply Rmult_lt_0_compat; [lra|unfold au; lra]|lra]. }
  exists n, el, rate, (el_state r_MU_SUN el'). split; [exact HI|]. split; [exact SC|]. split; [apply par2ic_ok; assumption|]. split.
  - exists E, f, k. split; [exact KE|]. split; [exact SP|]. exact (el_state_osc r_MU_SUN el' MP S).
  - apply (ell_norm r_MU_SUN el' MP S). unfold el'. cbn [el_e]. lra.
Qed.
Theorem jr_outside j t : t <= -73048 \/ 18263 <= t -> jr_eph newton j t = Throw DomainError /\ forall et, jr_elements newton j t et = Throw DomainError.
Proof. intros H. unfold jr_eph, jr_elements, jr_f_elements. destruct (Rle_dec t (-73048)); [split; [reflexivity|intros []; reflexivity]|]. destruct (Rle_dec 18263 t); [split; [reflexivity|intros []; reflexivity]|lra]. Qed.
(** every planet is at least 0.2 astronomical units from the Sun *)
Lemma jr_far s j t : jr_ctor s = Ret j -> -73048 < t < 18263 -> exists st, jr_eph newton j t = Ret (Some st) /\ au / 5 < norm (fst st).
Proof.
  intros H Ht. destruct (jr_in_window s j t H Ht) as [n [el [rate [st [HI [_ [E [_ [B _]]]]]]]]]. exists st. split; [exact E|]. destruct (row_bounds n el rate t HI Ht) as [BA [BE _]].
  eapply Rlt_le_trans; [|exact B]. unfold au. nra.
Qed.
End Newton.
