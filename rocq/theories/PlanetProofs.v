(** * Proofs about the type-erased planet *)
From Coq Require Import ZArith List Bool String Reals Lra Lia.
From Flocq Require Import Core.Core IEEE754.BinarySingleNaN Plus_error.
From Verif Require Import Outcome Float64 Float64Facts EpochModel PlanetModel PlanetSpec.
Import ListNotations.
Open Scope Z_scope.

Definition write6 (v : list double) (i : nat) (l : list double) : list double :=
  firstn i v ++ l ++ skipn (i + List.length l) v.

Lemma set_nth_eq : forall v i x, (i < List.length v)%nat -> set_nth v i x = firstn i v ++ x :: skipn (S i) v.
Proof. induction v; intros [|i] x H; cbn in *; try lia; auto. rewrite IHv by lia. reflexivity. Qed.

Lemma vset_app pre x y post i : i = Z.of_nat (List.length pre) -> vset (pre ++ x :: post) i y = Ret (pre ++ y :: post).
Proof.
  intros ->. unfold vset. rewrite app_length. cbn [List.length].
  replace (Z.of_nat (List.length pre) <? 0) with false by (symmetry; apply Z.ltb_ge; lia).
  replace (Z.of_nat (List.length pre + S (List.length post)) <=? Z.of_nat (List.length pre)) with false by (symmetry; apply Z.leb_gt; lia).
  cbn [orb]. rewrite Nat2Z.id. rewrite set_nth_eq by (rewrite app_length; cbn [List.length]; lia).
  f_equal. rewrite firstn_app, Nat.sub_diag, firstn_all. cbn [firstn]. rewrite app_nil_r. f_equal. f_equal.
  rewrite skipn_app. rewrite skipn_all2 by lia. replace (S (List.length pre) - List.length pre)%nat with 1%nat by lia. reflexivity.
Qed.

Lemma vset_here pre x y post i : i = Z.of_nat (List.length pre) -> vset (pre ++ x :: post) i y = Ret ((pre ++ [y]) ++ post).
Proof. intros H. rewrite (vset_app pre x y post i H). rewrite <- app_assoc. reflexivity. Qed.

Lemma eph_loop_spec p ts : forall fuel i pre, (fuel + i = List.length ts)%nat -> List.length pre = (6 * i)%nat ->
  eph_loop p ts fuel (Z.of_nat i) (pre ++ repeat dzero (6 * fuel)) =
  match rows (u_eph p) (skipn i ts) with Ret r => Ret (pre ++ r) | Throw e => Throw e | UB => UB end.
Proof.
  induction fuel as [|fuel IH]; intros i pre Hi Hp.
  - cbn [eph_loop]. rewrite skipn_all2 by lia. cbn [rows repeat Nat.mul]. reflexivity.
  - destruct (nth_error ts i) as [t|] eqn:N; [|apply nth_error_None in N; lia].
    assert (Sk : skipn i ts = t :: skipn (S i) ts).
    { clear - N. revert i N. induction ts; intros [|i] N; cbn in *; try discriminate; [congruence|]. rewrite IHts by exact N. reflexivity. }
    rewrite Sk. cbn [eph_loop rows]. unfold vget.
    replace (Z.of_nat i <? 0) with false by (symmetry; apply Z.ltb_ge; lia). rewrite Nat2Z.id, N. cbn [bind].
    unfold eph. destruct (u_eph p t) as [[[[a b] c] [[d e] f]]|ex|]; cbn [bind]; [|reflexivity|reflexivity].
    replace (6 * S fuel)%nat with (6 + 6 * fuel)%nat by lia. rewrite repeat_app. cbn [repeat app].
    rewrite (vset_here pre _ a) by lia. cbn [bind].
    rewrite (vset_here (pre ++ [a]) _ b) by (rewrite app_length; cbn [List.length]; lia). cbn [bind].
    rewrite (vset_here ((pre ++ [a]) ++ [b]) _ c) by (rewrite !app_length; cbn [List.length]; lia). cbn [bind].
    rewrite (vset_here (((pre ++ [a]) ++ [b]) ++ [c]) _ d) by (rewrite !app_length; cbn [List.length]; lia). cbn [bind].
    rewrite (vset_here ((((pre ++ [a]) ++ [b]) ++ [c]) ++ [d]) _ e) by (rewrite !app_length; cbn [List.length]; lia). cbn [bind].
    rewrite (vset_here (((((pre ++ [a]) ++ [b]) ++ [c]) ++ [d]) ++ [e]) _ f) by (rewrite !app_length; cbn [List.length]; lia). cbn [bind].
    replace (Z.of_nat i + 1) with (Z.of_nat (S i)) by lia.
    rewrite (IH (S i)); [|lia|rewrite !app_length; cbn [List.length]; lia].
    destruct (rows (u_eph p) (skipn (S i) ts)); [|reflexivity|reflexivity].
    cbn [flat]. rewrite <- !app_assoc. reflexivity.
Qed.

Lemma default_eph_v_rows p ts : 6 * Z.of_nat (List.length ts) <= max_doubles -> default_eph_v p ts = rows (u_eph p) ts.
Proof.
  intros H. unfold default_eph_v. replace (max_doubles <? 6 * Z.of_nat (List.length ts)) with false by (symmetry; apply Z.ltb_ge; lia).
  replace (Z.to_nat (6 * Z.of_nat (List.length ts))) with (6 * List.length ts)%nat by lia.
  pose proof (eph_loop_spec p ts (List.length ts) 0 [] ltac:(lia) eq_refl) as E. cbn [app Z.of_nat] in E. rewrite E.
  cbn [skipn]. destruct (rows (u_eph p) ts); reflexivity.
Qed.

Lemma rows_length {A} (f : A -> outcome posvel) : forall l r, rows f l = Ret r -> List.length r = (6 * List.length l)%nat.
Proof.
  induction l as [|a l IH]; cbn [rows]; intros r H; [injection H as <-; reflexivity|].
  destruct (f a) as [[[[x y] z] [[u v] w]]| |]; try discriminate.
  destruct (rows f l) as [r'| |]; try discriminate. injection H as <-. cbn [flat app List.length]. rewrite (IH r' eq_refl). lia.
Qed.
Lemma rows_nth {A} (f : A -> outcome posvel) : forall l r i a, rows f l = Ret r -> nth_error l i = Some a ->
  exists pv, f a = Ret pv /\ firstn 6 (skipn (6 * i) r) = flat pv.
Proof.
  induction l as [|b l IH]; intros r i a H N; [destruct i; discriminate|]. cbn [rows] in H.
  destruct (f b) as [pv| |] eqn:F; try discriminate. destruct (rows f l) as [r'| |] eqn:E; try discriminate.
  injection H as <-. destruct pv as [[[x y] z] [[u v] w]]. destruct i as [|i].
  - injection N as <-. exists ((x, y, z), (u, v, w)). split; [exact F|]. reflexivity.
  - cbn [nth_error] in N. destruct (IH r' i a eq_refl N) as (pv & G1 & G2). exists pv. split; [exact G1|].
    cbn [flat]. replace (6 * S i)%nat with (6 + 6 * i)%nat by lia. cbn [skipn app Nat.add]. exact G2.
Qed.

(** ** the period of an unbound state is NaN *)
Definition nn (x : double) : Prop := is_nan x = true \/ Bsign x = false.

Lemma bplus_fin_sign sx sy mx ex bx my ey b_y :
  Bsign (Bplus mode_NE (B754_finite sx mx ex bx) (B754_finite sy my ey b_y) : double) = true -> sx = false -> sy = false -> False.
Proof.
  intros H -> ->. set (x := B754_finite false mx ex bx : double) in *. set (y := B754_finite false my ey b_y : double) in *.
  pose proof (Bplus_correct prec64 emax64 _ _ mode_NE x y eq_refl eq_refl) as C.
  destruct (Rlt_bool _ _).
  - destruct C as (_ & _ & C). rewrite H in C.
    assert (0 < B2R x)%R by (apply F2R_gt_0; reflexivity). assert (0 < B2R y)%R by (apply F2R_gt_0; reflexivity).
    rewrite Rcompare_Gt in C by lra. discriminate.
  - destruct C as [C _]. change (Bsign x) with false in C. change (binary_overflow prec64 emax64 mode_NE false) with (SpecFloat.S754_infinity false) in C.
    destruct (Bplus mode_NE x y) as [s|s| |s m e b]; cbn in C, H; congruence.
Qed.

Lemma nn_add x y : nn x -> nn y -> nn (dadd x y).
Proof.
  unfold nn, dadd. intros Hx Hy.
  destruct x as [[|]|[|]| |[|] mx ex bx]; destruct y as [[|]|[|]| |[|] my ey b_y];
    try (destruct Hx as [Hx|Hx]; discriminate Hx); try (destruct Hy as [Hy|Hy]; discriminate Hy);
    try (left; reflexivity); try (right; reflexivity).
  right. destruct (Bsign (Bplus _ _ _)) eqn:E; [|reflexivity]. exfalso. eapply bplus_fin_sign; eauto.
Qed.
Lemma nn_mul_same x : nn (dmul x x).
Proof.
  unfold nn. destruct (is_nan (dmul x x)) eqn:E; [left; reflexivity|right].
  unfold dmul in *. destruct x as [s|s| |s m e b]; try (cbn; apply xorb_nilpotent); try discriminate.
  pose proof (Bmult_correct prec64 emax64 _ _ mode_NE (B754_finite s m e b) (B754_finite s m e b)) as C. cbv zeta in C.
  destruct (Rlt_bool _ _).
  - destruct C as (_ & _ & C). rewrite C by exact E. cbn. apply xorb_nilpotent.
  - cbn [Bsign] in C. rewrite xorb_nilpotent in C. change (binary_overflow prec64 emax64 mode_NE false) with (SpecFloat.S754_infinity false) in C.
    destruct (Bmult _ _ _); cbn in *; congruence.
Qed.
Lemma nn_div x y : nn x -> nn y -> nn (ddiv x y).
Proof.
  unfold nn. intros Hx Hy. destruct (is_nan (ddiv x y)) eqn:E; [left; reflexivity|right].
  unfold ddiv in *.
  destruct x as [[|]|[|]| |[|] mx ex bx]; destruct y as [[|]|[|]| |[|] my ey b_y];
    try (destruct Hx as [Hx|Hx]; discriminate Hx); try (destruct Hy as [Hy|Hy]; discriminate Hy);
    try discriminate E; try reflexivity.
  assert (NZ : B2R (B754_finite false my ey b_y : double) <> 0%R).
  { apply Rgt_not_eq. apply F2R_gt_0. reflexivity. }
  pose proof (Bdiv_correct prec64 emax64 _ _ mode_NE (B754_finite false mx ex bx) (B754_finite false my ey b_y) NZ) as C.
  destruct (Rlt_bool _ _).
  - destruct C as (_ & _ & C). rewrite C by exact E. reflexivity.
  - cbn [Bsign xorb] in C. change (binary_overflow prec64 emax64 mode_NE false) with (SpecFloat.S754_infinity false) in C.
    destruct (Bdiv _ _ _); cbn in *; congruence.
Qed.
Lemma nn_sqrt x : nn x -> nn (dsqrt x).
Proof.
  unfold nn, dsqrt. intros Hx. destruct (is_nan (Bsqrt mode_NE x)) eqn:E; [left; reflexivity|right].
  destruct (Bsqrt_correct prec64 emax64 _ _ mode_NE x) as (_ & _ & C). rewrite C by exact E.
  destruct Hx as [Hx|Hx]; [|exact Hx]. destruct x; try discriminate.
Qed.

(** x - y is never -0 when x is not negative and round to nearest is used *)
Lemma sub_fin_not_negzero (x y : double) : is_finite x = true -> is_finite y = true -> Bsign x = false -> dsub x y <> B754_zero true.
Proof.
  unfold dsub. intros Fx Fy Sx H.
  pose proof (Bminus_correct prec64 emax64 _ _ mode_NE x y Fx Fy) as C. rewrite Sx in C.
  destruct (Rlt_bool _ _); [destruct C as (C1 & _ & C3); rewrite H in C1, C3
    | destruct C as [C _]; rewrite H in C; cbn in C; discriminate].
  change (B2R (B754_zero true : double)) with 0%R in C1. change (Bsign (B754_zero true : double)) with true in C3.
  destruct (Rcompare_spec (B2R x - B2R y) 0) as [L|L|L]; try discriminate C3.
  symmetry in C1; revert C1; unfold Rminus; rewrite <- B2R_Bopp.
  change (round_mode mode_NE) with ZnearestE; fold fexp64.
  apply round_plus_neq_0; auto with typeclass_instances; try apply generic_format_B2R.
  rewrite B2R_Bopp; lra.
Qed.
Lemma sub_not_negzero x y : nn x -> dsub x y <> B754_zero true.
Proof.
  intros Hx H. destruct (is_finite x) eqn:Fx.
  - destruct (is_finite y) eqn:Fy.
    + destruct Hx as [Hx|Hx]; [destruct x; discriminate|]. exact (sub_fin_not_negzero x y Fx Fy Hx H).
    + destruct x as [[|]|[|]| |[|] mx ex bx]; try discriminate Fx; destruct y as [[|]|[|]| |[|] my ey b_y]; discriminate.
  - destruct x as [[|]|[|]| |[|] mx ex bx]; try discriminate Fx; destruct y as [[|]|[|]| |[|] my ey b_y]; discriminate.
Qed.

(** the energy of a state, as a double *)
Definition energy_d (r v : vec3) (mu : double) : double :=
  let '(r0, r1, r2) := r in let '(v0, v1, v2) := v in
  dsub (ddiv (dadd (dadd (dmul v0 v0) (dmul v1 v1)) (dmul v2 v2)) (d_of_Z 2))
       (ddiv mu (dsqrt (dadd (dadd (dmul r0 r0) (dmul r1 r1)) (dmul r2 r2)))).

Lemma nan_mul_r (x y : double) : is_nan y = true -> is_nan (dmul x y) = true.
Proof. destruct y; try discriminate. intros _. destruct x; reflexivity. Qed.

Lemma period_unbound_nan two_pi r v mu : is_finite mu = true -> dltb dzero mu = true -> dltb (energy_d r v mu) dzero = false ->
  is_nan (period_from_energy two_pi r v mu) = true.
Proof.
  destruct r as [[r0 r1] r2], v as [[v0 v1] v2]. unfold energy_d. cbv beta iota zeta. intros Fm Pm H.
  unfold period_from_energy. cbv beta iota zeta.
  set (k := ddiv (dadd (dadd (dmul v0 v0) (dmul v1 v1)) (dmul v2 v2)) (d_of_Z 2)) in *.
  set (q := ddiv mu _) in *.
  assert (NK : nn k).
  { apply nn_div; [|right; reflexivity]. repeat apply nn_add; apply nn_mul_same. }
  pose proof (sub_not_negzero k q NK) as NZ.
  destruct (dgtb (dsub k q) dzero) eqn:G; [reflexivity|].
  unfold dgtb in G. clearbody k q.
  apply nan_mul_r.
  set (en := dsub k q) in *. clearbody en.
  destruct mu as [[|]|[|]| |[|] m e b]; try discriminate Fm; try discriminate Pm.
  destruct en as [[|]|[|]| |[|] me ee be]; try discriminate H; try discriminate G.
  - exfalso. apply NZ. reflexivity.
  - (* en = +0: a = -infinity *)
    assert (HA : ddiv (ddiv (Bopp (B754_finite false m e b)) (d_of_Z 2)) (B754_zero false) = dninf \/
                 is_nan (ddiv (ddiv (Bopp (B754_finite false m e b)) (d_of_Z 2)) (B754_zero false)) = true).
    { set (h := ddiv (Bopp (B754_finite false m e b)) (d_of_Z 2)).
      assert (Sg : is_nan h = true \/ Bsign h = true).
      { unfold h, ddiv. destruct (is_nan (Bdiv mode_NE (Bopp (B754_finite false m e b)) (d_of_Z 2))) eqn:N; [left; reflexivity|right].
        assert (NZ2 : B2R (d_of_Z 2) <> 0%R) by (destruct (d_of_Z_exact 2 ltac:(lia)) as [_ ->]; lra).
        pose proof (Bdiv_correct prec64 emax64 _ _ mode_NE (Bopp (B754_finite false m e b)) (d_of_Z 2) NZ2) as C.
        destruct (Rlt_bool _ _).
        - destruct C as (_ & _ & C). rewrite C by exact N. reflexivity.
        - change (Bsign (Bopp (B754_finite false m e b : double))) with true in C. change (Bsign (d_of_Z 2)) with false in C.
          cbn [xorb] in C. change (binary_overflow prec64 emax64 mode_NE true) with (SpecFloat.S754_infinity true) in C.
          destruct (Bdiv _ _ _) as [s|s| |s mm eb bb]; cbn in C, N |- *; congruence. }
      clearbody h. destruct h as [[|]|[|]| |[|] mh eh bh]; try (destruct Sg; discriminate); (left; reflexivity) || (right; reflexivity). }
    destruct HA as [-> | HA]; [reflexivity|].
    set (a := ddiv (ddiv _ _) _) in *. clearbody a. destruct a; try discriminate. reflexivity.
  - set (h := ddiv (Bopp _) _). clearbody h. destruct h; reflexivity.
Qed.

(** ** dispatch *)
Section Dispatch.
Variables (dem : udpla -> string) (ic2par : posvel -> double -> list double) (f2m : double -> double -> double)
  (par2eq : list double -> bool -> list double) (two_pi : double).
Notation period := (period dem two_pi).
Notation elements := (elements dem ic2par f2m par2eq).

Lemma period_dispatch p t :
  period p t = match u_period p, u_mu p with
    | Some g, _ => g t
    | None, Some m => match u_eph p t, m with
        | Ret (r, v), Ret mu => Ret (period_from_energy two_pi r v mu)
        | Ret _, Throw e | Throw e, _ => Throw e
        | _, _ => UB end
    | None, None => match get_name dem p with Ret _ => Throw NotImplemented | Throw e => Throw e | UB => UB end
    end.
Proof.
  unfold PlanetModel.period, eph, get_mu_central_body, get_or.
  destruct (u_period p); [reflexivity|]. destruct (u_mu p) as [m|].
  - destruct (u_eph p t) as [[r v]| |]; cbn [bind]; destruct m; reflexivity.
  - destruct (get_name dem p); reflexivity.
Qed.

Lemma elements_dispatch p t et :
  elements p t et = match u_elements p, u_mu p with
    | Some g, _ => g t et
    | None, Some m => match u_eph p t, m with
        | Ret pv, Ret mu => elements_from_posvel ic2par f2m par2eq pv mu et
        | Ret _, Throw e | Throw e, _ => Throw e
        | _, _ => UB end
    | None, None => match get_name dem p with Ret _ => Throw NotImplemented | Throw e => Throw e | UB => UB end
    end.
Proof.
  unfold PlanetModel.elements, eph, get_mu_central_body, get_or.
  destruct (u_elements p); [reflexivity|]. destruct (u_mu p) as [m|].
  - destruct (u_eph p t) as [pv| |]; cbn [bind]; destruct m; reflexivity.
  - destruct (get_name dem p); reflexivity.
Qed.

(** a planet whose own methods never throw not_implemented_error *)
Definition never_ni (p : udpla) : Prop :=
  (forall t, u_eph p t <> Throw NotImplemented) /\ u_mu p <> Some (Throw NotImplemented) /\ (exists s, get_name dem p = Ret s) /\
  (forall g t, u_period p = Some g -> g t <> Throw NotImplemented) /\
  (forall g t et, u_elements p = Some g -> g t et <> Throw NotImplemented).

Lemma period_not_implemented p t : never_ni p -> (period p t = Throw NotImplemented <-> u_period p = None /\ u_mu p = None).
Proof.
  intros (H1 & H2 & [s H3] & H4 & _). rewrite period_dispatch.
  destruct (u_period p) as [g|]; [split; [intros E; exfalso; exact (H4 g t eq_refl E)|intros [E _]; discriminate]|].
  destruct (u_mu p) as [m|].
  - split; [|intros [_ E]; discriminate]. intros E. exfalso. specialize (H1 t).
    destruct (u_eph p t) as [[r v]| |]; [destruct m| |]; try discriminate; congruence.
  - rewrite H3. tauto.
Qed.
Lemma elements_not_implemented p t et : never_ni p -> (elements p t et = Throw NotImplemented <-> u_elements p = None /\ u_mu p = None).
Proof.
  intros (H1 & H2 & [s H3] & _ & H4). rewrite elements_dispatch.
  destruct (u_elements p) as [g|]; [split; [intros E; exfalso; exact (H4 g t et eq_refl E)|intros [E _]; discriminate]|].
  destruct (u_mu p) as [m|].
  - split; [|intros [_ E]; discriminate]. intros E. exfalso. specialize (H1 t).
    destruct (u_eph p t) as [pv| |]; [destruct m as [mu| |]| |]; try discriminate; try congruence.
    unfold elements_from_posvel in E. destruct et; try discriminate. destruct (dltb _ _); discriminate.
  - rewrite H3. tauto.
Qed.

(** elements from the state: every type except POSVEL; mean anomaly refused for a < 1 *)
Lemma elements_from_posvel_cases pv mu et :
  match elements_from_posvel ic2par f2m par2eq pv mu et with
  | Ret l => et <> POSVEL /\ (et = KEP_F -> l = ic2par pv mu)
  | Throw e => e = LogicError /\ (et = POSVEL \/ et = KEP_M)
  | UB => False
  end.
Proof.
  unfold elements_from_posvel. destruct et; try (split; [discriminate|congruence]); auto.
  destruct (dltb _ _); [split; auto|split; [discriminate|congruence]].
Qed.
Lemma mean_anomaly_small_ellipse pv mu a : nth 0 (ic2par pv mu) dzero = a -> is_finite a = true -> (0 < B2R a < 1)%R ->
  elements_from_posvel ic2par f2m par2eq pv mu KEP_M = Throw LogicError.
Proof.
  intros E F H. unfold elements_from_posvel. rewrite E.
  destruct (d_of_Z_exact 1 ltac:(lia)) as [F1 V1].
  replace (dltb a done) with true; [reflexivity|]. symmetry. apply dltb_R; auto. unfold done. rewrite V1. lra.
Qed.
End Dispatch.


Lemma eph_v_rows p ts r i t : u_eph_v p = None -> 6 * Z.of_nat (List.length ts) <= max_doubles ->
  eph_v p ts = Ret r -> nth_error ts i = Some t ->
  List.length r = (6 * List.length ts)%nat /\ exists pv, u_eph p t = Ret pv /\ firstn 6 (skipn (6 * i) r) = flat pv.
Proof.
  intros N H E Hi. unfold eph_v in E. rewrite N, (default_eph_v_rows p ts H) in E.
  split; [exact (rows_length _ _ _ E)|exact (rows_nth _ _ _ _ _ E Hi)].
Qed.
Lemma eph_v_dispatch p ts : 6 * Z.of_nat (List.length ts) <= max_doubles ->
  eph_v p ts = match u_eph_v p with Some g => g ts | None => rows (u_eph p) ts end.
Proof. intros H. unfold eph_v. destruct (u_eph_v p); [reflexivity|exact (default_eph_v_rows p ts H)]. Qed.
Lemma eph_v_too_many p ts : u_eph_v p = None -> 2 ^ 60 - 1 < 6 * Z.of_nat (List.length ts) -> exists e, eph_v p ts = Throw e.
Proof. intros N H. unfold eph_v, default_eph_v, max_doubles. rewrite N. apply Z.ltb_lt in H. rewrite H. eexists. reflexivity. Qed.
Lemma not_implemented_iff dem ic2par f2m par2eq two_pi p t et : never_ni dem p ->
  (period dem two_pi p t = Throw NotImplemented <-> u_period p = None /\ u_mu p = None) /\
  (elements dem ic2par f2m par2eq p t et = Throw NotImplemented <-> u_elements p = None /\ u_mu p = None).
Proof. intros H. split; [apply period_not_implemented|apply elements_not_implemented]; assumption. Qed.
Lemma defaults_and_epochs dem ic2par f2m par2eq two_pi p :
  (u_mu p = None -> get_mu_central_body p = Ret (d_of_Z (-1))) /\ (u_mu_self p = None -> get_mu_self p = Ret (d_of_Z (-1))) /\
  (u_radius p = None -> get_radius p = Ret (d_of_Z (-1))) /\ (u_safe_radius p = None -> get_safe_radius p = Ret (d_of_Z (-1))) /\
  (u_name p = None -> get_name dem p = Ret (dem p)) /\ (u_extra p = None -> get_extra_info p = Ret EmptyString) /\
  (forall m, (u_mu p = Some m -> get_mu_central_body p = m) /\ (u_mu_self p = Some m -> get_mu_self p = m) /\
     (u_radius p = Some m -> get_radius p = m) /\ (u_safe_radius p = Some m -> get_safe_radius p = m)) /\
  (forall ep t, mjd2000 ep = Ret t -> eph_epoch p ep = u_eph p t /\ period_epoch dem two_pi p ep = period dem two_pi p t /\
     forall et, elements_epoch dem ic2par f2m par2eq p ep et = elements dem ic2par f2m par2eq p t et).
Proof.
  unfold get_mu_central_body, get_mu_self, get_radius, get_safe_radius, get_name, get_extra_info, get_or.
  repeat split; try (intros ->; reflexivity).
  - unfold eph_epoch, eph. rewrite H. reflexivity.
  - unfold period_epoch. rewrite H. reflexivity.
  - intros et. unfold elements_epoch. rewrite H. reflexivity.
Qed.
