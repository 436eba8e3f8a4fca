(** * add_solar_system draws the orbits and the positions of the planets asked for *)
From Coq Require Import Reals List String Bool ZArith Lra Lia.
From Coquelicot Require Import Rcomplements.
From Verif Require Import Outcome PartialReal Vec3 RealLib TwoBodySpec FlowMain TwoBodyModel TwoBodyProofs KplaModel KplaProofs ElemModel ElemProofs ElemSpec ElemPar KepSpec AnomProofs P2kModel P2kSpec P2kProofs JplRealModel JplSpec JplRealSpec JplRealProofs PlotModel PlotProofs GymModel PiBounds SolarModel SolarSpec.
From Verif Require JplModel.
Import ListNotations.
Open Scope R_scope.

Section Newton.
Variable newton : (R -> R * R) -> R -> R -> R -> option R.
Variables (builtins : string -> option R) (globals : list (string * R)).
Hypothesis NOK : newton_ok newton.

Lemma mu_eq : r_MU_SUN = mu_sun. Proof. reflexivity. Qed.
Lemma au_eq : r_AU = au. Proof. reflexivity. Qed.
Lemma au_nz : au <> 0. Proof. unfold au. lra. Qed.

(** the state of a planet in the window is on an ellipse of the published size *)
Lemma jr_state j n el rate t : In (n, el, rate) published -> jr_el j = dec el -> jr_dot j = dec rate -> jr_mu j = r_MU_SUN -> -73048 < t < 18263 ->
  exists st, jr_eph newton j t = Ret (Some st) /\ on_published_orbit el rate t st /\ elliptic mu_sun st /\ sma mu_sun st = published_value el rate 0 t * au.
Proof.
  intros HI E1 E2 EM Ht. destruct (row_bounds n el rate t HI Ht) as [BA [BE BI]].
  destruct (jr_f_ok newton NOK j n el rate t HI E1 E2 Ht) as [E [f [k [OE [OF [KE [SP [_ FE]]]]]]]]. unfold jr_eph. rewrite FE, EM. cbn [bind]. set (el' := El _ _ _ _ _ _).
  assert (MP : 0 < r_MU_SUN) by (unfold r_MU_SUN; lra).
  assert (AP : 0 < published_value el rate 0 t * au) by (apply Rmult_lt_0_compat; [lra|unfold au; lra]).
  assert (So : sound_el el').
  { unfold el', sound_el. cbn [el_a el_e el_f]. pose proof (COS_bound f). split; [|split; [lra|nra]]. apply Rmult_lt_0_compat; lra. }
  exists (el_state r_MU_SUN el'). split; [apply par2ic_ok; assumption|]. split.
  - exists E, f, k. split; [exact KE|]. split; [exact SP|]. exact (el_state_osc r_MU_SUN el' MP So).
  - rewrite <- mu_eq. split; [|exact (el_state_sma r_MU_SUN el' MP So)]. destruct (sound_branch r_MU_SUN el' MP So) as [[_ H]|[H _]]; [exact H|]. unfold el' in H. cbn [el_a] in H. lra.
Qed.

Lemma eph_all_rows eph : (forall t, exists s, eph t = Ret s) -> forall l, exists m, eph_all eph l = Ret m /\ Forall2 (fun t s => eph t = Ret s) l m.
Proof.
  intros H. induction l as [|t l [m [E F]]]; [exists []; split; [reflexivity|constructor]|]. destruct (H t) as [s Es]. exists (s :: m). cbn [eph_all]. rewrite Es. cbn [bind]. rewrite E. split; [reflexivity|]. constructor; assumption.
Qed.

Lemma plotted_ok st when mu name a : elliptic mu st -> let p := plotted newton (full_ctor when (Some st) mu name a) in
  rows_ok p /\ pp_period p = Ret (period mu st) /\ forall t, exists s, pp_eph p t = Ret s /\ flow_at mu st ((t - when) * 86400) s.
Proof.
  intros El. destruct a as [[a0 a1] a2]. cbn zeta.
  assert (Fl : forall t, exists s, pp_eph (plotted newton (full_ctor when (Some st) mu name (a0, a1, a2))) t = Ret s /\ flow_at mu st ((t - when) * 86400) s).
  { intros t. destruct (eph_flow newton when st mu t NOK El) as [s [E F]]. exists s. split; [|exact F]. unfold plotted, full_ctor. cbn [pp_eph f_core]. rewrite E. reflexivity. }
  split; [|split; [|exact Fl]].
  - intros l. apply (eph_all_rows (pp_eph (plotted newton (full_ctor when (Some st) mu name (a0, a1, a2))))). intros t. destruct (Fl t) as [s [E _]]. exists s. exact E.
  - unfold plotted, full_ctor. cbn [pp_period f_core]. rewrite (ctor_state_ell when st mu El). reflexivity.
Qed.

(** the range drawn: the period, or the one given *)
Definition span (b : block) (st : state) : R * R := match b_range b with Some (x, y) => (x, y) | None => (0, period mu_sun st / 86400) end.
Lemma orbit_points st when name a b : elliptic mu_sun st -> let p := plotted newton (full_ctor when (Some st) mu_sun name a) in
  exists pts, add_planet_orbit p (b_range b) au 60 = Ret (Some pts) /\ traces st ((snd (span b st) - fst (span b st)) * 86400) pts.
Proof.
  intros El p. destruct (plotted_ok st when mu_sun name a El) as [Rk [Pe Fl]]. fold p in Rk, Pe, Fl. destruct (span b st) as [x y] eqn:Sp. cbn [fst snd].
  assert (E : add_planet_orbit p (b_range b) au 60 = add_planet_orbit p (Some (x, y)) au 60).
  { unfold span in Sp. destruct (b_range b) as [[u v]|]; injection Sp as <- <-; [reflexivity|]. apply planet_orbit_default. exact Pe. }
  destruct (planet_orbit_range p x y au 60 Rk au_nz ltac:(lia)) as [pts [E' [L P]]]. exists pts. split; [congruence|]. split; [exact L|].
  exists ((x - when) * 86400). intros i Hi. destruct (P i Hi) as [s [Es Q]]. destruct (Fl (x + INR i * (y - x) / IZR (60 - 1))) as [s' [Es' F]]. rewrite Es in Es'. injection Es' as <-. exists s. split; [|exact Q].
  change (60 - 1)%Z with 59%Z in F. replace ((x - when) * 86400 + INR i * ((y - x) * 86400) / 59) with ((x + INR i * (y - x) / 59 - when) * 86400) by field. exact F.
Qed.

Lemma py_nth_get (s : list R) i : (0 <= i)%Z -> (Z.to_nat i < List.length s)%nat -> py_nth s i = Ret (nth (Z.to_nat i) s 0).
Proof. intros Hi L. apply py_nth_ok; [exact Hi|]. apply nth_error_nth'. exact L. Qed.

(** a block up to the evaluation of the date *)
Lemma draw_prefix when s b j n el rate : jr_ctor (b_body b) = Ret j -> In (n, el, rate) published -> jr_el j = dec el -> jr_dot j = dec rate -> jr_mu j = r_MU_SUN -> -73048 < when < 18263 ->
  exists st name a pts, on_published_orbit el rate when st /\ elliptic mu_sun st /\ sma mu_sun st = published_value el rate 0 when * au /\ traces st ((snd (span b st) - fst (span b st)) * 86400) pts /\
    draw newton builtins globals when s b =
    bind (date_of builtins globals when (b_date b)) (fun t => bind (py_nth s (b_size b)) (fun size => bind (add_planet (plotted newton (full_ctor when (Some st) mu_sun name a)) t r_AU) (fun r => Ret [Line pts (b_colour b); Dot r size (b_colour b) (b_label b)]))).
Proof.
  intros EC HI E1 E2 EM Ht. destruct (jr_state j n el rate when HI E1 E2 EM Ht) as [st [Ee [On [El Sm]]]].
  set (nm := (JplModel.lower (b_body b) ++ " - jpl_lp")%string). exists st, (nm ++ "(K)")%string, (jr_self j, jr_radius j, jr_safe j).
  destruct (orbit_points st when (nm ++ "(K)")%string (jr_self j, jr_radius j, jr_safe j) b El) as [pts [P T]]. exists pts. split; [exact On|]. split; [exact El|]. split; [exact Sm|]. split; [exact T|].
  unfold draw. rewrite EC. cbn [bind].
  assert (K : planet_to_keplerian (jr_planet newton (b_body b) j) when None = Ret (full_ctor when (Some st) mu_sun (nm ++ "(K)")%string (jr_self j, jr_radius j, jr_safe j))).
  { apply (p2k_run (jr_planet newton (b_body b) j) when None mu_sun st (jr_self j) (jr_radius j) (jr_safe j) nm).
    - split; [cbn [p_mu jr_planet]; rewrite EM; reflexivity|unfold mu_sun; lra].
    - unfold answers. cbn [p_eph p_mu_self p_radius p_safe p_name jr_planet]. split; [exact Ee|]. do 3 (split; [reflexivity|]). reflexivity. }
  rewrite K. cbn [bind]. rewrite au_eq, P. cbn [bind number]. reflexivity.
Qed.

Lemma dot_at st when name a : elliptic mu_sun st -> add_planet (plotted newton (full_ctor when (Some st) mu_sun name a)) when r_AU = Ret (vscal (/ au) (fst st)).
Proof.
  intros El. destruct (plotted_ok st when mu_sun name a El) as [_ [_ Fl]]. destruct (Fl when) as [s [E F]]. unfold add_planet. rewrite E. cbn [bind].
  replace ((when - when) * 86400) with 0 in F by ring. rewrite <- (flow_functional _ _ _ _ _ F (flow_0 _ _ (proj1 El))). rewrite au_eq, (vdiv_some au _ au_nz). reflexivity.
Qed.

(** ** the period of Uranus and the range drawn *)
Lemma uranus_span v : 19187 / 1000 < v < 191933 / 10000 -> let P := 2 * PI * sqrt ((v * au) ^ 3 / mu_sun) in
  P <= (-40000 + 848 / 10 * (36525 / 100) - -40000) * 86400 <= 101 / 100 * P.
Proof.
  intros Hv P. pose proof pi_bounds as PB. assert (PI2 : 31415 / 10000 <= PI <= 31416 / 10000) by lra. clear PB.
  assert (C : forall x y, 0 < x <= y -> x ^ 3 <= y ^ 3) by (intros x y Hxy; apply pow_incr; lra).
  assert (MP : 0 < mu_sun) by (unfold mu_sun; lra). assert (AP : 0 < au) by (unfold au; lra).
  assert (U : sqrt ((v * au) ^ 3 / mu_sun) <= 422340000).
  { rewrite <- (sqrt_Rsqr 422340000) by lra. apply sqrt_le_1_alt. apply (proj2 (Rle_div_l _ _ _ MP)). apply Rle_trans with ((191933 / 10000 * au) ^ 3); [apply C; split; [apply Rmult_lt_0_compat; lra|apply Rmult_le_compat_r; lra]|]. unfold au, mu_sun, Rsqr. lra. }
  assert (L : 422100000 <= sqrt ((v * au) ^ 3 / mu_sun)).
  { rewrite <- (sqrt_Rsqr 422100000) by lra. apply sqrt_le_1_alt. apply (proj1 (Rle_div_r _ _ _ MP)). apply Rle_trans with ((19187 / 1000 * au) ^ 3); [unfold au, mu_sun, Rsqr; lra|apply C; split; [apply Rmult_lt_0_compat; lra|apply Rmult_le_compat_r; lra]]. }
  unfold P. set (q := sqrt _) in *. clearbody q. split; nra.
Qed.

(** ** one block *)
Definition good (i : nat) (b : block) : Prop :=
  b_id b = Z.of_nat i /\ b_date b = "when"%string /\ b_size b = Z.of_nat i /\
  exists j n el rate, jr_ctor (b_body b) = Ret j /\ nth_error published (i - 1) = Some (n, el, rate) /\ jr_el j = dec el /\ jr_dot j = dec rate /\ jr_mu j = r_MU_SUN /\ str_ci (b_label b) n /\
    match b_range b with
    | None => True
    | Some (x, y) => (7 <= i)%nat /\ forall when, -73048 < when < 18263 -> let P := 2 * PI * sqrt ((published_value el rate 0 when * au) ^ 3 / mu_sun) in P <= (y - x) * 86400 <= 101 / 100 * P
    end.
Lemma block_shows when s i b : good i b -> -73048 < when < 18263 -> (i < List.length s)%nat ->
  exists pic, draw newton builtins globals when s b = Ret pic /\ shows when i (nth i s 0) pic /\ map colour_of (filter (fun it => negb (is_line it)) pic) = [b_colour b].
Proof.
  intros [Gi [Gd [Gs [j [n [el [rate [EC [HN [E1 [E2 [EM [SC Gr]]]]]]]]]]]]] Ht Hs.
  destruct (draw_prefix when s b j n el rate EC (nth_error_In _ _ HN) E1 E2 EM Ht) as [st [name [a [pts [On [El [Sm [T D]]]]]]]].
  exists [Line pts (b_colour b); Dot (vscal (/ au) (fst st)) (nth i s 0) (b_colour b) (b_label b)]. split; [|split; [|reflexivity]].
  - rewrite D, Gd. unfold date_of. cbn [String.eqb Ascii.eqb Bool.eqb bind]. rewrite Gs, (py_nth_get s (Z.of_nat i)) by (rewrite ?Nat2Z.id; lia || assumption). rewrite Nat2Z.id. cbn [bind]. rewrite (dot_at st when name a El). reflexivity.
  - assert (PP : 0 < period mu_sun st).
    { destruct (eph_period newton 0 st mu_sun NOK El) as [P [_ [Hp [Q _]]]]. unfold period. rewrite <- Q. exact Hp. }
    exists n, el, rate, st, ((snd (span b st) - fst (span b st)) * 86400), pts, (b_colour b), (b_label b).
    split; [exact HN|]. split; [exact SC|]. split; [exact On|]. split; [exact El|]. split; [reflexivity|]. split; [exact T|].
    unfold span in T |- *. destruct (b_range b) as [[x y]|]; cbn [fst snd] in *.
    + destruct Gr as [Hi Gr]. split; [unfold period; rewrite Sm; exact (Gr when Ht)|]. lia.
    + replace ((period mu_sun st / 86400 - 0) * 86400) with (period mu_sun st) in * by field. split; [lra|]. intros _. split; [reflexivity|].
      destruct T as [_ [t0 T]]. destruct (T 0%nat ltac:(lia)) as [sa [Fa Na]]. destruct (T 59%nat ltac:(lia)) as [sb [Fb Nb]]. rewrite Na, Nb. do 3 f_equal.
      cbn [INR] in Fa. replace (t0 + 0 * period mu_sun st / 59) with t0 in Fa by field. replace (t0 + INR 59 * period mu_sun st / 59) with (1 * period mu_sun st + t0) in Fb by (rewrite INR_IZR_INZ; cbn [Z.of_nat Pos.of_succ_nat Pos.succ]; field).
      symmetry. apply (flow_functional _ _ _ _ _ (flow_comp _ _ _ _ _ _ (proj1 (proj1 El)) (flow_period mu_sun st 1 El) Fa) Fb).
Qed.
Lemma good_blocks : Forall2 good (seq 1 7) (firstn 7 blocks).
Proof.
  assert (U : forall when, -73048 < when < 18263 -> 19187 / 1000 < published_value uranus_r uranus_r_dot 0 when < 191933 / 10000).
  { intros t Ht. assert (TD : -21 / 10 < (t - 1 / 2) / 36525 < 6 / 10) by (split; [apply Rlt_div_r|apply Rlt_div_l]; lra). unfold published_value. set (u := (t - 1 / 2) / 36525) in *. clearbody u. cbn [nth uranus_r uranus_r_dot]. cbv [pow]. lra. }
  cbn [seq firstn blocks].
  repeat (apply Forall2_cons; [unfold good; cbn [b_id b_date b_size b_body b_label b_range]; split; [reflexivity|]; split; [reflexivity|]; split; [reflexivity|]; eexists _, _, _, _; split; [reflexivity|];
    split; [reflexivity|]; split; [reflexivity|]; split; [reflexivity|]; split; [reflexivity|]; split; [cbn; repeat split; (left; reflexivity) || (right; right; split; [split; reflexivity || discriminate|reflexivity]) || (right; left; split; [split; discriminate|reflexivity])|] |]); [exact I..| |apply Forall2_nil].
  split; [lia|]. intros when Hw. exact (uranus_span _ (U when Hw)).
Qed.

(** ** all of them *)
Lemma sel_existsb bodies i : existsb (Z.eqb i) bodies = if in_dec Z.eq_dec i bodies then true else false.
Proof.
  destruct (in_dec Z.eq_dec i bodies) as [I|N]; [apply existsb_exists; exists i; split; [exact I|apply Z.eqb_refl]|].
  destruct (existsb (Z.eqb i) bodies) eqn:E; [|reflexivity]. apply existsb_exists in E. destruct E as [x [I E]]. apply Z.eqb_eq in E. subst x. contradiction.
Qed.
Lemma draw_good bodies when s is l : Forall2 good is l -> -73048 < when < 18263 -> (forall i, In i is -> In (Z.of_nat i) bodies -> (i < List.length s)%nat) ->
  exists pics, (forall r, draw_all newton builtins globals bodies when s (l ++ r) = bind (draw_all newton builtins globals bodies when s r) (fun m => Ret (List.concat pics ++ m)%list)) /\
    Forall2 (fun i pic => shows when i (nth i s 0) pic) (filter (fun i => if in_dec Z.eq_dec (Z.of_nat i) bodies then true else false) is) pics /\
    map colour_of (filter (fun it => negb (is_line it)) (List.concat pics)) = map b_colour (filter (fun b => if in_dec Z.eq_dec (b_id b) bodies then true else false) l).
Proof.
  intros F Ht. induction F as [|i b is l G F IH]; intros Hs.
  { exists []. cbn. split; [intros r; destruct (draw_all _ _ _ _ _ _ r); reflexivity|]. split; [constructor|reflexivity]. }
  destruct IH as [pics [D [Sh Co]]]; [intros k Hk; apply Hs; right; exact Hk|]. pose proof G as [Gi _]. cbn [filter]. rewrite <- Gi. destruct (in_dec Z.eq_dec (b_id b) bodies) as [I|N].
  - destruct (block_shows when s i b G Ht) as [pic [E [Sp Cp]]]; [apply Hs; [left; reflexivity|rewrite <- Gi; exact I]|]. exists (pic :: pics). split; [|split].
    + intros r. cbn [app draw_all List.concat]. rewrite sel_existsb. destruct (in_dec Z.eq_dec (b_id b) bodies); [|contradiction]. rewrite E. cbn [bind]. rewrite D. destruct (draw_all _ _ _ _ _ _ r); cbn [bind]; [|reflexivity..]. rewrite app_assoc. reflexivity.
    + constructor; assumption.
    + cbn [List.concat map]. rewrite filter_app, map_app, Cp, Co. reflexivity.
  - exists pics. split; [|split; assumption]. intros r. cbn [app draw_all]. rewrite sel_existsb. destruct (in_dec Z.eq_dec (b_id b) bodies); [contradiction|]. apply D.
Qed.
Lemma NoDup_map_filter {A B} (f : A -> B) p l : NoDup (map f l) -> NoDup (map f (filter p l)).
Proof.
  induction l as [|x l IH]; [intros H; exact H|]. cbn [map filter]. intros H. inversion H as [|? ? N D]; subst. destruct (p x); [|exact (IH D)]. cbn [map]. constructor; [|exact (IH D)].
  intros I. apply N. apply in_map_iff in I. destruct I as [y [E I]]. rewrite <- E. apply in_map. apply filter_In in I. exact (proj1 I).
Qed.
Lemma NoDup_colours : NoDup ("y"%string :: map b_colour (firstn 7 blocks)).
Proof. cbn [firstn blocks map b_colour]. repeat constructor; cbn [In]; intuition discriminate. Qed.

Theorem solar_picture bodies when s : -73048 < when < 18263 -> ~ In 8%Z bodies -> (0 < List.length s)%nat -> (forall i, In i (selected bodies) -> (i < List.length s)%nat) ->
  exists pics, add_solar_system newton builtins globals bodies when s = Ret (Dot vzero (nth 0 s 0) "y" "Sun" :: List.concat pics) /\
    Forall2 (fun i pic => shows when i (nth i s 0) pic) (selected bodies) pics /\
    NoDup ("y"%string :: map colour_of (filter (fun it => negb (is_line it)) (List.concat pics))).
Proof.
  intros Ht N8 L0 Ls.
  destruct (draw_good bodies when s (seq 1 7) (firstn 7 blocks) good_blocks Ht) as [pics [D [Sh Co]]].
  { intros i Hi Hb. apply Ls. unfold selected. apply filter_In. split; [exact Hi|]. destruct (in_dec Z.eq_dec (Z.of_nat i) bodies); [reflexivity|contradiction]. }
  exists pics. split; [|split; [exact Sh|]].
  - unfold add_solar_system. rewrite (py_nth_get s 0) by (lia || exact L0). cbn [bind]. change blocks with (firstn 7 blocks ++ skipn 7 blocks)%list. rewrite D. cbn [skipn blocks draw_all b_id]. rewrite sel_existsb.
    destruct (in_dec Z.eq_dec 8%Z bodies); [contradiction|]. cbn [bind]. rewrite app_nil_r. reflexivity.
  - rewrite Co. pose proof (proj1 (NoDup_cons_iff _ _) NoDup_colours) as [C1 C2]. constructor; [|apply NoDup_map_filter; exact C2].
    intros I. apply C1. apply in_map_iff in I. destruct I as [y [E I]]. rewrite <- E. apply (in_map b_colour). apply filter_In in I. exact (proj1 I).
Qed.

(** ** what goes wrong *)
Lemma ep_missing when : map fst globals = plot_globals -> builtins "ep"%string = None -> date_of builtins globals when "ep" = Throw RuntimeError.
Proof.
  intros G B. unfold date_of. cbn [String.eqb Ascii.eqb Bool.eqb]. unfold lookup. replace (find _ globals) with (@None (string * R)); [rewrite B; reflexivity|]. symmetry.
  destruct (find _ globals) as [p|] eqn:F; [|reflexivity]. apply find_some in F. destruct F as [I E]. apply String.eqb_eq in E. assert (M : In (fst p) plot_globals) by (rewrite <- G; apply in_map, I). rewrite E in M. cbn in M. exfalso. intuition discriminate.
Qed.
Theorem solar_neptune bodies when s : map fst globals = plot_globals -> builtins "ep"%string = None -> -73048 < when < 18263 -> In 8%Z bodies -> (0 < List.length s)%nat -> (forall i, In i (selected bodies) -> (i < List.length s)%nat) ->
  add_solar_system newton builtins globals bodies when s = Throw RuntimeError.
Proof.
  intros G B Ht I8 L0 Ls.
  destruct (draw_good bodies when s (seq 1 7) (firstn 7 blocks) good_blocks Ht) as [pics [D [Sh Co]]].
  { intros i Hi Hb. apply Ls. unfold selected. apply filter_In. split; [exact Hi|]. destruct (in_dec Z.eq_dec (Z.of_nat i) bodies); [reflexivity|contradiction]. }
  unfold add_solar_system. rewrite (py_nth_get s 0) by (lia || exact L0). cbn [bind]. change blocks with (firstn 7 blocks ++ skipn 7 blocks)%list. rewrite D. cbn [skipn blocks draw_all b_id]. rewrite sel_existsb.
  destruct (in_dec Z.eq_dec 8%Z bodies); [|contradiction].
  destruct (draw_prefix when s (nth 7 blocks (mk_block 0 "" None "" 0 "" "")) (mk_jr (dec neptune_r) (dec neptune_r_dot) r_MU_SUN 6836529000000000 24622000 (11 / 10 * 24622000)) "neptune" neptune_r neptune_r_dot) as [st [name [a [pts [_ [_ [_ [_ E]]]]]]]];
    [reflexivity|apply (nth_error_In published 7); reflexivity|reflexivity..|exact Ht|].
  cbn [nth blocks] in E. rewrite E. cbn [b_date]. rewrite (ep_missing when G B). reflexivity.
Qed.
End Newton.

Lemma draw_ret_date newton builtins globals when s b r : draw newton builtins globals when s b = Ret r -> exists t, date_of builtins globals when (b_date b) = Ret t.
Proof.
  unfold draw. intros H. destruct (jr_ctor (b_body b)) as [j|?|]; cbn [bind] in H; try discriminate. destruct (planet_to_keplerian _ _ _) as [k|?|]; cbn [bind] in H; try discriminate.
  destruct (add_planet_orbit _ _ _ _) as [c|?|]; cbn [bind] in H; try discriminate. destruct (number c); cbn [bind] in H; try discriminate. destruct (date_of _ _ _ _) as [t|?|]; cbn [bind] in H; try discriminate. exists t. reflexivity.
Qed.
Lemma draw_all_ret newton builtins globals bodies when s l b m : In b l -> In (b_id b) bodies -> draw_all newton builtins globals bodies when s l = Ret m -> exists r, draw newton builtins globals when s b = Ret r.
Proof.
  intros I Hb. revert m. induction l as [|c l IH]; [destruct I|]. intros m H. cbn [draw_all] in H. destruct I as [->|I].
  - rewrite sel_existsb in H. destruct (in_dec Z.eq_dec (b_id b) bodies); [|contradiction]. destruct (draw _ _ _ _ _ b) as [r|?|]; cbn [bind] in H; try discriminate. exists r. reflexivity.
  - destruct (existsb _ _); [|exact (IH I m H)]. destruct (draw _ _ _ _ _ c); cbn [bind] in H; try discriminate. destruct (draw_all _ _ _ _ _ _ l) as [m'|?|]; cbn [bind] in H; try discriminate. exact (IH I m' eq_refl).
Qed.
(** whatever the solver, the date and the sizes: with Neptune among the bodies there is no picture *)
Theorem solar_neptune_never newton builtins globals bodies when s out : map fst globals = plot_globals -> builtins "ep"%string = None -> In 8%Z bodies -> add_solar_system newton builtins globals bodies when s <> Ret out.
Proof.
  intros G B I8 H. unfold add_solar_system in H. destruct (py_nth s 0); cbn [bind] in H; try discriminate. destruct (draw_all _ _ _ _ _ _ blocks) as [m|?|] eqn:E; cbn [bind] in H; try discriminate.
  destruct (draw_all_ret newton builtins globals bodies when s blocks _ m (nth_error_In blocks 7 eq_refl) I8 E) as [r D]. destruct (draw_ret_date _ _ _ _ _ _ _ D) as [t T]. cbn [b_date] in T. rewrite (ep_missing builtins globals when G B) in T. discriminate.
Qed.
(** dates outside 1800-2050 *)
Lemma draw_outside newton builtins globals when s b j : jr_ctor (b_body b) = Ret j -> jr_mu j = r_MU_SUN -> when <= -73048 \/ 18263 <= when -> draw newton builtins globals when s b = Throw DomainError.
Proof.
  intros EC EM Hw. unfold draw. rewrite EC. cbn [bind]. rewrite (p2k_raises (jr_planet newton (b_body b) j) when None mu_sun DomainError).
  - reflexivity.
  - split; [cbn [p_mu jr_planet]; rewrite EM; reflexivity|unfold mu_sun; lra].
  - cbn [p_eph jr_planet]. exact (proj1 (jr_outside newton j when Hw)).
Qed.
Lemma draw_all_outside newton builtins globals bodies when s l : (forall b, In b l -> exists j, jr_ctor (b_body b) = Ret j /\ jr_mu j = r_MU_SUN) -> when <= -73048 \/ 18263 <= when ->
  draw_all newton builtins globals bodies when s l = if existsb (fun b => existsb (Z.eqb (b_id b)) bodies) l then Throw DomainError else Ret [].
Proof.
  intros H Hw. induction l as [|b l IH]; [reflexivity|]. cbn [draw_all existsb]. destruct (existsb (Z.eqb (b_id b)) bodies); cbn [orb]; [|apply IH; intros c Hc; apply H; right; exact Hc].
  destruct (H b (or_introl eq_refl)) as [j [E M]]. rewrite (draw_outside newton builtins globals when s b j E M Hw). reflexivity.
Qed.
Theorem solar_outside newton builtins globals bodies when s : when <= -73048 \/ 18263 <= when -> (0 < List.length s)%nat -> (exists i, In i bodies /\ (1 <= i <= 8)%Z) ->
  add_solar_system newton builtins globals bodies when s = Throw DomainError.
Proof.
  intros Hw L0 [i [Hi Hr]]. unfold add_solar_system. rewrite (py_nth_get s 0) by (lia || exact L0). cbn [bind]. rewrite draw_all_outside; [|intros b Hb; cbn [In blocks] in Hb; repeat (destruct Hb as [<-|Hb]; [eexists; split; reflexivity|]); destruct Hb|exact Hw].
  replace (existsb _ blocks) with true; [reflexivity|]. symmetry. apply existsb_exists.
  assert (K : exists b, In b blocks /\ b_id b = i).
  { assert (C : i = 1%Z \/ i = 2%Z \/ i = 3%Z \/ i = 4%Z \/ i = 5%Z \/ i = 6%Z \/ i = 7%Z \/ i = 8%Z) by lia.
    decompose [or] C; clear C; subst i; [exists (nth 0 blocks (mk_block 0 "" None "" 0 "" ""))|exists (nth 1 blocks (mk_block 0 "" None "" 0 "" ""))|exists (nth 2 blocks (mk_block 0 "" None "" 0 "" ""))|exists (nth 3 blocks (mk_block 0 "" None "" 0 "" ""))|exists (nth 4 blocks (mk_block 0 "" None "" 0 "" ""))|exists (nth 5 blocks (mk_block 0 "" None "" 0 "" ""))|exists (nth 6 blocks (mk_block 0 "" None "" 0 "" ""))|exists (nth 7 blocks (mk_block 0 "" None "" 0 "" ""))]; (split; [apply nth_In; cbn; lia|reflexivity]). }
  destruct K as [b [Hb E]]. exists b. split; [exact Hb|]. rewrite sel_existsb, E. destruct (in_dec Z.eq_dec i bodies); [reflexivity|contradiction].
Qed.
Theorem solar_no_sizes newton builtins globals bodies when : add_solar_system newton builtins globals bodies when [] = Throw OutOfRange.
Proof. reflexivity. Qed.
(** the ninth size is not used *)
Lemma firstn_nth {A} n (s s' : list A) i : firstn n s = firstn n s' -> (i < n)%nat -> nth_error s i = nth_error s' i.
Proof.
  revert s s' i. induction n as [|n IH]; [lia|]. intros [|x s] [|y s'] i E Hi; cbn [firstn] in E; try discriminate; [reflexivity|]. injection E as -> E. destruct i; [reflexivity|]. cbn [nth_error]. apply IH; [exact E|lia].
Qed.
Lemma py_nth_error {A} (s : list A) i : (0 <= i)%Z -> py_nth s i = match nth_error s (Z.to_nat i) with Some x => Ret x | None => Throw OutOfRange end.
Proof.
  intros Hi. unfold py_nth. destruct (Z.ltb_spec i 0); [lia|]. destruct (Z.ltb_spec i 0); [lia|]. cbn [orb]. destruct (Z.leb_spec (Z.of_nat (List.length s)) i); [|reflexivity].
  rewrite (proj2 (nth_error_None s (Z.to_nat i))) by lia. reflexivity.
Qed.
Lemma draw_all_sizes newton builtins globals bodies when s s' l : firstn 8 s = firstn 8 s' -> (forall b, In b l -> (0 <= b_size b < 8)%Z) -> draw_all newton builtins globals bodies when s l = draw_all newton builtins globals bodies when s' l.
Proof.
  intros E H. induction l as [|b l IH]; [reflexivity|]. cbn [draw_all]. rewrite IH by (intros c Hc; apply H; right; exact Hc). assert (D : draw newton builtins globals when s b = draw newton builtins globals when s' b); [|rewrite D; reflexivity].
  pose proof (H b (or_introl eq_refl)). unfold draw. rewrite !py_nth_error, (firstn_nth 8 s s') by (exact E || lia). reflexivity.
Qed.
Theorem solar_sizes newton builtins globals bodies when s s' : firstn 8 s = firstn 8 s' -> add_solar_system newton builtins globals bodies when s = add_solar_system newton builtins globals bodies when s'.
Proof.
  intros E. unfold add_solar_system. rewrite !py_nth_error, (firstn_nth 8 s s') by (exact E || lia). rewrite (draw_all_sizes newton builtins globals bodies when s s' blocks E); [reflexivity|].
  intros b Hb. cbn [In blocks] in Hb. repeat (destruct Hb as [<-|Hb]; [cbn [b_size]; lia|]). destruct Hb.
Qed.

(** ** a concrete case *)
Lemma default_picture newton builtins globals : newton_ok newton -> exists out, add_solar_system newton builtins globals default_bodies 0 default_sizes = Ret out /\ List.length out = 13%nat /\
  (exists pts c, nth_error out 5 = Some (Line pts c) /\ List.length pts = 60%nat) /\ exists r c label, nth_error out 6 = Some (Dot r 3 c label) /\ str_ci label "earth".
Proof.
  intros NK.
  destruct (solar_picture newton builtins globals NK default_bodies 0 default_sizes) as [ps [E [F _]]]; [lra|cbn; intuition discriminate|cbn; lia|intros i Hi; apply filter_In in Hi; destruct Hi as [Hi _]; apply in_seq in Hi; cbn; lia|].
  exists (Dot vzero 15 "y" "Sun" :: List.concat ps). split; [exact E|].
  replace (selected default_bodies) with [1; 2; 3; 4; 5; 6]%nat in F by reflexivity.
  inversion F as [|? p1 ? l1 H1 F1]; subst. inversion F1 as [|? p2 ? l2 H2 F2]; subst. inversion F2 as [|? p3 ? l3 H3 F3]; subst. inversion F3 as [|? p4 ? l4 H4 F4]; subst. inversion F4 as [|? p5 ? l5 H5 F5]; subst. inversion F5 as [|? p6 ? l6 H6 F6]; subst. inversion F6; subst.
  destruct H1 as (? & ? & ? & ? & ? & ? & ? & ? & _ & _ & _ & _ & -> & _). destruct H2 as (? & ? & ? & ? & ? & ? & ? & ? & _ & _ & _ & _ & -> & _). destruct H4 as (? & ? & ? & ? & ? & ? & ? & ? & _ & _ & _ & _ & -> & _).
  destruct H5 as (? & ? & ? & ? & ? & ? & ? & ? & _ & _ & _ & _ & -> & _). destruct H6 as (? & ? & ? & ? & ? & ? & ? & ? & _ & _ & _ & _ & -> & _). destruct H3 as (? & ? & ? & ? & ? & pts & col & lab & N & SC & _ & _ & -> & [L _] & _).
  cbn [List.concat app List.length nth_error]. split; [reflexivity|]. split; [exists pts, col; split; [reflexivity|exact L]|]. eexists _, _, lab. split; [reflexivity|]. cbn in N. injection N as <- _ _. exact SC.
Qed.
