(** * Proofs about the texts: what is not printed, printing that throws, Lambert problems, planets *)
From Coq Require Import ZArith Reals List String Ascii Bool Lia Lra.
From Verif Require Import Outcome Float64 PartialReal Vec3 TextModel TextSpec TextProofs FloatVecModel LegModel LegSpec LegProofs HfModel HfSpec TextObjModel TextObjProofs.
From Verif Require Import TwoBodyModel TwoBodySpec TwoBodyProofs LambertModel LambertSpec LambertProofs LambertReal LambertVec LambertMain.
From Verif Require Import ElemModel ElemSpec ElemProofs ElemPar ElemEq ElemConv KepModel KepSpec KepProofs AnomProofs KeplerianModel KeplerianProofs KeplerianMain KplaModel KplaProofs JplRealModel JplRealSpec JplRealElem.
From Verif Require TcModel TcProofs SfModel LambertCount.
Import ListNotations.
Open Scope string_scope.
Open Scope Z_scope.

(** ** the cut is not printed *)
Definition d34 : double := d_of_dyadic 3 (-2).
Lemma cut_unseen : exists l l', valid_leg l /\ valid_leg l' /\ dltb (sf_cut l) (sf_cut l') = true /\
  forall show show_n mism, mism l = mism l' -> sf_text show show_n mism l = sf_text show show_n mism l'.
Proof.
  exists sf_default, (up_cut d34 sf_default). split; [exact default_valid|]. split; [|split; [vm_compute; reflexivity|]].
  - assert (E : sf_do (OpCut d34) sf_default = (up_split 2 1 1 (up_cut d34 sf_default), Ret tt)).
    { assert (C : check_cut d34 = Ret tt) by (vm_compute; reflexivity). assert (N : nseg_fwd_of 2 d34 = Ret 1) by (vm_compute; reflexivity).
      unfold sf_do, StateMonad.sbind, StateMonad.slift, StateMonad.smodify. rewrite C. cbn [sf_n sf_cut up_cut sf_default]. rewrite N. reflexivity. }
    pose proof (step_valid (OpCut d34) sf_default _ _ default_valid I E ltac:(discriminate)) as H. exact H.
  - intros show show_n mism H. unfold sf_text. rewrite H. reflexivity.
Qed.

(** ** printing a leg can throw *)
Lemma hyp_witness : hyperbolic 1 (V 1 0 0, V 0 2 0).
Proof.
  assert (N : norm (V 1 0 0) = 1%R) by (unfold norm, dot; cbn [vx vy vz]; replace (1 * 1 + 0 * 0 + 0 * 0)%R with 1%R by ring; apply sqrt_1).
  split; [split; [lra|]|unfold energy; cbn [fst snd]; rewrite N; unfold dot; cbn [vx vy vz]; lra].
  intros X; apply (f_equal vz) in X; cbn in X; lra.
Qed.
Lemma sf_print_throws show show_n newton : picky newton -> exists l, (SfModel.s_nseg l = 2 /\ SfModel.s_fwd l = 1 /\ SfModel.s_bck l = 1 /\ List.length (SfModel.s_thr l) = 6%nat) /\ (0 < SfModel.s_tof l /\ 0 < SfModel.s_T l /\ 0 < SfModel.s_isp l /\ 0 < SfModel.s_mu l /\ 0 < SfModel.s_ms l /\ 0 < SfModel.s_mf l)%R /\
  sf_text_r show show_n newton l = Throw DomainError.
Proof.
  intros P. destruct (lag_picky_H_fails newton 1 _ P hyp_witness) as [t1 H].
  exists (SfModel.mk_sf (V 1 0 0, V 0 2 0) 1 (repeat 0%R 6) (V 1 0 0, V 0 2 0) 1 (4 * (Rabs t1 + 1)) 1 1 1 2 1 1).
  cbn [SfModel.s_nseg SfModel.s_fwd SfModel.s_bck SfModel.s_thr SfModel.s_tof SfModel.s_T SfModel.s_isp SfModel.s_mu SfModel.s_ms SfModel.s_mf]. pose proof (Rabs_pos t1). pose proof (Rle_abs t1).
  split; [repeat split; reflexivity|]. split; [repeat split; lra|]. unfold sf_text_r, SfModel.compute_mismatch_constraints, SfModel.forward_pass. cbv zeta. cbn [SfModel.s_nseg SfModel.s_fwd SfModel.s_tof SfModel.s_mu SfModel.s_rvs]. cbn [Z.ltb Z.compare].
  unfold SfModel.coast at 1. rewrite H; [reflexivity|]. lra.
Qed.

(** ** Lambert problems *)
Section Entries.
Context {D : Type}.
Variables (show : D -> string) (show_n : Z -> string) (a_of : D -> D) (v0 v1 : list (D * D * D)) (x : list D) (iters : list Z).
Lemma at_some {A} (l : list A) i : 0 <= i < Z.of_nat (List.length l) -> exists a, nth_error l (Z.to_nat i) = Some a /\ at_ l i = Ret a.
Proof. intros H. unfold at_. destruct (nth_error l (Z.to_nat i)) as [a|] eqn:E; [exists a; split; reflexivity|]. apply nth_error_None in E. lia. Qed.
Definition covers (n : Z) : Prop := n <= Z.of_nat (List.length v0) /\ n <= Z.of_nat (List.length v1) /\ n <= Z.of_nat (List.length x) /\ n <= Z.of_nat (List.length iters).
Notation EA := (entry_at show show_n a_of v0 v1 x iters).
Lemma entry_ok head lab i : 0 <= i -> covers (i + 1) -> exists l1 l2, TextModel.entry show show_n a_of v0 v1 x iters head lab i = Ret [l1; l2] /\ EA (Z.to_nat i) head lab l1 l2.
Proof.
  intros I [A [B [C E]]]. destruct (at_some v0 i ltac:(lia)) as [p [P1 P2]]. destruct (at_some v1 i ltac:(lia)) as [q [Q1 Q2]]. destruct (at_some x i ltac:(lia)) as [y [X1 X2]]. destruct (at_some iters i ltac:(lia)) as [t [T1 T2]].
  unfold TextModel.entry. rewrite P2, Q2, X2, T2. cbn [bind]. do 2 eexists. split; [reflexivity|]. exists t, y, p, q. repeat split; assumption.
Qed.
Lemma entries_ok n : forall i, 0 <= i -> covers (2 * (i + Z.of_nat n) + 1) -> exists ls, TextModel.entries show show_n a_of v0 v1 x iters n i = Ret ls /\ List.length ls = (4 * n)%nat /\
  forall k, (k < n)%nat -> exists a b c d, nth_error ls (4 * k) = Some a /\ nth_error ls (4 * k + 1) = Some b /\ nth_error ls (4 * k + 2) = Some c /\ nth_error ls (4 * k + 3) = Some d /\
    EA (Z.to_nat (2 * (i + Z.of_nat k) + 1)) (show_n (i + Z.of_nat k + 1) ++ " revs,  left. Iters: ")%string ", x: " a b /\
    EA (Z.to_nat (2 * (i + Z.of_nat k) + 2)) (show_n (i + Z.of_nat k + 1) ++ " revs, right. Iters: ")%string ", a: " c d.
Proof.
  induction n as [|n IH]; intros i I C; [exists []; split; [reflexivity|split; [reflexivity|intros k K; lia]]|].
  cbn [TextModel.entries]. destruct (entry_ok (show_n (i + 1) ++ " revs,  left. Iters: ")%string ", x: " (1 + 2 * i)) as [a [b [E1 P1]]]; [lia|unfold covers in *; lia|].
  destruct (entry_ok (show_n (i + 1) ++ " revs, right. Iters: ")%string ", a: " (2 + 2 * i)) as [c [d [E2 P2]]]; [lia|unfold covers in *; lia|].
  destruct (IH (i + 1) ltac:(lia)) as [ls [E3 [L3 N3]]]; [unfold covers in *; lia|]. rewrite E1, E2, E3. cbn [bind app]. eexists. split; [reflexivity|]. split; [cbn [List.length]; lia|].
  intros [|k] K.
  - exists a, b, c, d. repeat split. + replace (Z.to_nat (2 * (i + Z.of_nat 0) + 1)) with (Z.to_nat (1 + 2 * i)) by lia. replace (i + Z.of_nat 0 + 1) with (i + 1) by lia. exact P1.
    + replace (Z.to_nat (2 * (i + Z.of_nat 0) + 2)) with (Z.to_nat (2 + 2 * i)) by lia. replace (i + Z.of_nat 0 + 1) with (i + 1) by lia. exact P2.
  - destruct (N3 k ltac:(lia)) as [a' [b' [c' [d' [A [B [C' [D' [X Y]]]]]]]]]. exists a', b', c', d'. replace (4 * S k)%nat with (4 + 4 * k)%nat by lia. cbn [nth_error Nat.add]. 
    repeat split; try assumption. + replace (i + Z.of_nat (S k)) with (i + 1 + Z.of_nat k) by lia. exact X. + replace (i + Z.of_nat (S k)) with (i + 1 + Z.of_nat k) by lia. exact Y.
Qed.
End Entries.
Theorem lambert_text_ok {F} (O : arith F) show show_n r0 r1 tof mu cw mr L : u32_ok O -> 0 <= mr < u32 -> lambert O r0 r1 tof mu cw mr = Ret L ->
  exists ls, lambert_text O show show_n r0 r1 tof mu L = Ret ls /\ List.length ls = (15 + 4 * Z.to_nat (l_nmax L))%nat /\
    nth_error ls 1 = Some ("mu = ", show mu) /\ nth_error ls 2 = Some ("r1 = ", show_v show r0) /\ nth_error ls 3 = Some ("r2 = ", show_v show r1) /\ nth_error ls 4 = Some ("Time of flight: ", show tof) /\
    nth_error ls 6 = Some ("chord = ", show (l_c L)) /\ nth_error ls 7 = Some ("semiperimeter = ", show (l_s L)) /\ nth_error ls 8 = Some ("lambda = ", show (l_lambda L)) /\
    nth_error ls 11 = Some ("Maximum number of revolutions: ", show_n (l_nmax L)) /\
    (exists a b, nth_error ls 13 = Some a /\ nth_error ls 14 = Some b /\ entry_at show show_n (lp_a O (l_s L)) (l_v0 L) (l_v1 L) (l_x L) (l_iters L) 0 "0 revs, Iters: " ", x: " a b) /\
    forall N, (1 <= N <= Z.to_nat (l_nmax L))%nat -> exists a b c d, nth_error ls (4 * N + 11) = Some a /\ nth_error ls (4 * N + 12) = Some b /\ nth_error ls (4 * N + 13) = Some c /\ nth_error ls (4 * N + 14) = Some d /\
      entry_at show show_n (lp_a O (l_s L)) (l_v0 L) (l_v1 L) (l_x L) (l_iters L) (2 * N - 1) (show_n (Z.of_nat N) ++ " revs,  left. Iters: ")%string ", x: " a b /\
      entry_at show show_n (lp_a O (l_s L)) (l_v0 L) (l_v1 L) (l_x L) (l_iters L) (2 * N) (show_n (Z.of_nat N) ++ " revs, right. Iters: ")%string ", a: " c d.
Proof.
  intros U M H. destruct (lambert_shape O _ _ _ _ _ _ _ U M H) as [[q [_ [N0 _]]] [A [B [C [E _]]]]].
  unfold lambert_text, lambert_lines.
  destruct (entry_ok show show_n (lp_a O (l_s L)) (l_v0 L) (l_v1 L) (l_x L) (l_iters L) "0 revs, Iters: " ", x: " 0 ltac:(lia)) as [a [b [E1 P1]]]; [unfold covers; lia|].
  destruct (entries_ok show show_n (lp_a O (l_s L)) (l_v0 L) (l_v1 L) (l_x L) (l_iters L) (Z.to_nat (l_nmax L)) 0 ltac:(lia)) as [ls [E2 [L2 N2]]]; [unfold covers; lia|].
  rewrite E1, E2. cbn [bind app]. eexists. split; [reflexivity|]. split; [cbn [List.length]; lia|]. cbn [nth_error]. do 8 (split; [reflexivity|]).
  split; [exists a, b; repeat split; exact P1|]. intros N HN. destruct (N2 (N - 1)%nat ltac:(lia)) as [a' [b' [c' [d' [X1 [X2 [X3 [X4 [X5 X6]]]]]]]]]. exists a', b', c', d'.
  replace (4 * N + 11)%nat with (15 + 4 * (N - 1))%nat by lia. replace (4 * N + 12)%nat with (15 + (4 * (N - 1) + 1))%nat by lia. replace (4 * N + 13)%nat with (15 + (4 * (N - 1) + 2))%nat by lia. replace (4 * N + 14)%nat with (15 + (4 * (N - 1) + 3))%nat by lia.
  cbn [nth_error Nat.add]. repeat split; try assumption.
  - replace (2 * N - 1)%nat with (Z.to_nat (2 * (0 + Z.of_nat (N - 1)) + 1)) by lia. replace (Z.of_nat N) with (0 + Z.of_nat (N - 1) + 1) by lia. exact X5.
  - replace (2 * N)%nat with (Z.to_nat (2 * (0 + Z.of_nat (N - 1)) + 2)) by lia. replace (Z.of_nat N) with (0 + Z.of_nat (N - 1) + 1) by lia. exact X6.
Qed.
(** the a that is printed is the semi-major axis of the transfer *)
Open Scope R_scope.
Lemma lambert_a r0 r1 tof mu cw mr L i x : vz (cross r0 r1) <> 0 -> lambert_r r0 r1 tof mu cw mr = Ret L -> nth_error (l_x L) i = Some (Some x) -> x * x <> 1 ->
  exists v, nth_error (l_v0 L) i = Some (sv v) /\ lp_a RA (l_s L) (Some x) = Some (sma mu (r0, v)).
Proof.
  intros Hc H X N. destruct (lambert_conic r0 r1 tof mu cw mr L i x Hc H X) as [v0 [v1 [A [_ [_ [E _]]]]]]. exists v0. split; [exact A|].
  destruct (lambert_pos _ _ _ _ _ _ _ H) as [Ht Hm]. rewrite lambert_r_eq in H by assumption. destruct (r_u32 _) as [q| |]; cbn [bind] in H; try discriminate. destruct (solved _ _ _ _ _ _ _) as [m| |]; cbn [bind] in H; try discriminate. apply ret_eq in H. subst L. cbn [l_s].
  unfold lp_a. rewrite !nat_r, mul_r, sub_r, div_r by lra. rewrite div_r by lra. f_equal. unfold sma. rewrite E.
  assert (S : semiperimeter r0 r1 <> 0). { pose proof (lambert_nd r0 r1 Hc). lra. }
  field. repeat split; lra.
Qed.
(** the label in front of the right-branch x *)
Lemma label_wrong : exists r0 r1 tof mu cw mr L, lambert_r r0 r1 tof mu cw mr = Ret L /\ (1 <= l_nmax L)%Z /\
  forall show show_n, (forall a, number_text (show a)) -> (forall n, number_text (show_n n)) ->
  exists ls head rest, lambert_text RA show show_n (sv r0) (sv r1) (Some tof) (Some mu) L = Ret ls /\ nth_error ls 17 = Some (head, rest) /\ ~ has_char "x" head /\ ~ has_char "x" rest.
Proof.
  destruct LambertCount.ex_revolutions as [L [H [N _]]]. exists ex_r0, ex_r1, 21, 32000, false, 10%Z, L. split; [exact H|]. split; [lia|]. intros show show_n Fs Fn.
  destruct (lambert_text_ok RA show show_n (sv ex_r0) (sv ex_r1) (Some 21) (Some 32000) false 10 L) as [ls [E [_ [_ [_ [_ [_ [_ [_ [_ [_ [_ P]]]]]]]]]]]]; [exact r_u32_ok|unfold u32; lia|exact H|].
  destruct (P 1%nat) as [a [b [c [d [_ [_ [C [_ [_ Q]]]]]]]]]; [rewrite N; lia|]. destruct Q as [t [y [p [q [_ [_ [_ [_ [Q _]]]]]]]]].
  exists ls, (fst c), (snd c). split; [exact E|]. split; [rewrite <- surjective_pairing; exact C|]. rewrite Q. cbn [fst snd]. unfold has_char. rewrite !L_app, !in_app_iff.
  assert (X : forall a, ~ In "x"%char (list_ascii_of_string (show a))) by (intros a'; exact (text_no _ _ spec_x (Fs a'))). assert (Y : forall n, ~ In "x"%char (list_ascii_of_string (show_n n))) by (intros n; exact (text_no _ _ spec_x (Fn n))).
  split; [intros [K|K]; [exact (Y _ K)|cbn in K; intuition discriminate]|]. intros [K|[K|[K|[K|K]]]]; [exact (Y _ K)|cbn in K; intuition discriminate|exact (X _ K)|cbn in K; intuition discriminate|exact (X _ K)].
Qed.

(** ** planets *)
Lemma render_inj_tail l m s t : map fst l = map fst m -> (forall x, In x l -> ok_line x) -> (forall x, In x m -> ok_line x) -> (render l ++ s)%string = (render m ++ t)%string -> map snd l = map snd m /\ s = t.
Proof.
  revert m. induction l as [|[a b] l IH]; intros [|[a' b'] m] E Hl Hm H; try discriminate; [split; [reflexivity|exact H]|]. cbn [map fst snd] in *. injection E as -> E.
  cbn [render] in H. apply (f_equal L) in H. rewrite !L_app in H. cbn [nl list_ascii_of_string app] in H. rewrite <- !app_assoc in H. cbn [app] in H. rewrite !(app_assoc (L a')) in H.
  destruct (Hl (a', b) ltac:(left; reflexivity)) as [N1 N2]. destruct (Hm (a', b') ltac:(left; reflexivity)) as [_ N3]. cbn [fst snd] in *.
  apply split_first in H; [|rewrite in_app_iff; unfold has_char in *; tauto|rewrite in_app_iff; unfold has_char in *; tauto]. destruct H as [H1 H2].
  apply app_inv_head in H1. apply L_inj in H1. subst b'. rewrite <- !L_app in H2. apply L_inj in H2. destruct (IH m E) with (3 := H2) as [A B]; [intros x Hx; apply Hl; right; exact Hx|intros x Hx; apply Hm; right; exact Hx|]. rewrite A. split; [reflexivity|exact B].
Qed.
Section Planet.
Context {D : Type} (show : D -> string) (Fd : faithful show).
Definition planet_lines (name cls : string) (mu ms ra sr : D) : list line :=
  [("Planet name: ", name); ("C++ class name: ", cls); ("", ""); ("mu central body (-1 if not defined): ", show mu); ("mu body (-1 if not defined): ", show ms); ("radius body (-1 if not defined): ", show ra); ("safe body radius (-1 if not defined): ", show sr)]%string.
Lemma planet_text_lines name cls mu ms ra sr ex : planet_text show name cls mu ms ra sr ex = (render (planet_lines name cls mu ms ra sr) ++ (if String.eqb ex "" then "" else nl ++ "Extra info:" ++ nl ++ ex))%string.
Proof. unfold planet_text, planet_lines. cbn [render]. rewrite <- !app_assoc_s. reflexivity. Qed.
Lemma planet_determines name cls mu ms ra sr ex name' cls' mu' ms' ra' sr' ex' : ~ has_char nlc name -> ~ has_char nlc cls -> ~ has_char nlc name' -> ~ has_char nlc cls' ->
  planet_text show name cls mu ms ra sr ex = planet_text show name' cls' mu' ms' ra' sr' ex' -> (name, cls, mu, ms, ra, sr, ex) = (name', cls', mu', ms', ra', sr', ex').
Proof.
  intros N1 N2 N3 N4 H. rewrite !planet_text_lines in H.
  assert (OK : forall n c a b d e, ~ has_char nlc n -> ~ has_char nlc c -> forall x, In x (planet_lines n c a b d e) -> ok_line x).
  { intros n c a b d e P Q x X. cbn [planet_lines In] in X. repeat (destruct X as [<-|X]; [split; cbn [fst snd]; [apply lab_ok; reflexivity|first [assumption|apply show_no; [exact Fd|exact spec_nl]|apply lab_ok; reflexivity]]|]). destruct X. }
  apply render_inj_tail in H; [|reflexivity|apply OK; assumption|apply OK; assumption]. destruct H as [H T]. cbn [planet_lines map snd] in H.
  apply cons_eq in H. destruct H as [A1 H]. apply cons_eq in H. destruct H as [A2 H]. apply cons_eq in H. destruct H as [_ H]. apply cons_eq in H. destruct H as [A3 H]. apply cons_eq in H. destruct H as [A4 H]. apply cons_eq in H. destruct H as [A5 H]. apply cons_eq in H. destruct H as [A6 _].
  apply (proj2 Fd) in A3, A4, A5, A6. assert (X : ex = ex').
  { destruct (String.eqb_spec ex "") as [->|N], (String.eqb_spec ex' "") as [->|N']; try reflexivity; try discriminate T. apply app_same, app_same, app_same in T. exact T. }
  congruence.
Qed.
Lemma planet_extra name cls mu ms ra sr ex : ex <> ""%string -> has (nl ++ "Extra info:" ++ nl ++ ex) (planet_text show name cls mu ms ra sr ex).
Proof. intros N. rewrite planet_text_lines. destruct (String.eqb_spec ex "") as [E|_]; [contradiction|]. apply has_app_r. exists "", "". rewrite app_nil_s. reflexivity. Qed.
End Planet.

Lemma degrees_eq x : x * r_RAD2DEG = degrees x. Proof. pose proof PI_RGT_0. unfold degrees, r_RAD2DEG. field. lra. Qed.
Section Bodies.
Variable show : option R -> string.
Variable show_date : R -> string.
Lemma show_pos_eq v : show_pos show (Some v) = coords show v. Proof. unfold show_pos, show_list, coords, triple_text. cbn [map commas]. rewrite <- !app_assoc_s. reflexivity. Qed.
Theorem kep_lines ref s mu : nonsingular mu s -> exists el rest, osculating mu s el /\ valid el /\
  kep_extra show show_date (ctor_state ref s mu) =
    ([("Keplerian planet elements: ", ""); ("Semi major axis: ", show (Some (el_a el))); ("Semi major axis (AU): ", show (Some (el_a el / 149597870700)))]%string ++ element_lines show el ++ rest ++
     [("Elements reference epoch (MJD2000): ", show (Some ref)); ("Elements reference epoch (UTC): ", show_date ref); ("r at ref. = ", coords show (fst s)); ("v at ref. = ", coords show (snd s))]%string)%list /\
  (0 < energy mu s -> rest = []) /\
  (energy mu s < 0 -> exists E, same_point_ellipse (el_e el) E (el_f el) /\ rest = [("Mean anomly (deg.): ", show (Some (degrees (E - el_e el * sin E))))]%string).
Proof.
  intros NS. destruct (kp_setup mu s NS) as [el [I [Es [Va [M [_ [Ell Hyp]]]]]]].
  assert (Osc : osculating mu s el) by (rewrite Es; apply el_state_osc; [exact M|apply valid_sound, Va]).
  destruct (Rtotal_order (energy mu s) 0) as [Neg|[Z|Pos]]; [|destruct NS as [_ [X _]]; contradiction|].
  - destruct (Ell Neg) as [A E]. assert (He : 0 <= el_e el < 1) by lra. assert (El : elliptic mu s) by (split; [apply NS|exact Neg]).
    exists el, [("Mean anomly (deg.): ", show (Some (degrees (half (sqrt ((1 - el_e el) / (1 + el_e el))) (el_f el) - el_e el * sin (half (sqrt ((1 - el_e el) / (1 + el_e el))) (el_f el))))))]%string.
    split; [exact Osc|]. split; [exact Va|]. split; [|split; [lra|intros _; eexists; split; [apply ell_point_back; exact He|reflexivity]]].
    rewrite (ctor_state_ell ref s mu El). unfold kep_extra. cbn [k_el k_ellipse k_ref k_pv]. rewrite I. unfold oel. cbn [obind]. unfold f2m. destruct (Rle_dec 1 (el_e el)); [lra|]. rewrite (f2e_half _ He), (e2m_eq _ He). cbn [obind].
    rewrite !degrees_eq, !show_pos_eq. reflexivity.
  - assert (Hy : hyperbolic mu s) by (split; [apply NS|exact Pos]). exists el, []. split; [exact Osc|]. split; [exact Va|]. split; [|split; [reflexivity|lra]].
    rewrite (ctor_state_hyp ref s mu Hy). unfold kep_extra. cbn [k_el k_ellipse k_ref k_pv]. rewrite I. unfold oel. cbn [obind]. rewrite !degrees_eq, !show_pos_eq. reflexivity.
Qed.
Theorem jr_lines newton name j : newton_ok newton -> jr_ctor name = Ret j -> exists el st m, osculating mu_sun st el /\ jr_eph newton j 0 = Ret (Some st) /\
  jr_elements newton j 0 JplModel.KEP_M = Ret (Some (El (el_a el) (el_e el) (el_i el) (el_W el) (el_w el) m)) /\
  jr_extra show show_date newton j = Ret ([("", ""); ("Low-precision planet elements: ", ""); ("Semi major axis (AU): ", show (Some (el_a el / 149597870700)))]%string ++ element_lines show el ++
    [("Mean anomly (deg.): ", show (Some (degrees m))); ("Elements reference epoch (MJD2000): ", show (Some 0)); ("Elements reference epoch (date): ", show_date 0); ("r at ref. = ", coords show (fst st)); ("v at ref. = ", coords show (snd st))]%string)%list.
Proof.
  intros NOK H. destruct (jr_elements_forms newton NOK name j 0 H ltac:(lra)) as [el [m [q [st [n [e0 [rate [k [A [B [C [_ [_ [D _]]]]]]]]]]]]]]. exists el, st, m. split; [exact C|]. split; [exact B|]. split; [exact D|].
  unfold jr_extra. rewrite A, B. cbn [bind]. unfold oel. cbn [obind].
  assert (F : f2m (el_f el) (el_e el) = Some m).
  { unfold jr_elements in A, D. destruct (jr_f_elements newton j 0) as [[el'|]| |]; cbn [bind] in A, D; try discriminate. cbn [obind] in A, D. apply ret_eq in A. injection A as ->.
    destruct (f2m (el_f el) (el_e el)) as [m'|]; cbn [obind] in D; [|discriminate D]. apply ret_eq in D. injection D as ->. reflexivity. }
  rewrite F. cbn [obind]. rewrite !degrees_eq, !show_pos_eq. reflexivity.
Qed.
End Bodies.
Lemma formats_exist : (exists show : double -> string, faithful show) /\ (exists show_n : Z -> string, faithful show_n).
Proof. split; [exists dec_d; exact dec_d_faithful|exists dec_z; exact dec_z_faithful]. Qed.
Lemma lambert_ndt r0 r1 tof mu cw mr L : vz (cross r0 r1) <> 0 -> lambert_r r0 r1 tof mu cw mr = Ret L -> lp_ndt RA (Some tof) (Some mu) (l_s L) = Some (tof / time_unit r0 r1 mu).
Proof.
  intros Hc H. destruct (lambert_pos _ _ _ _ _ _ _ H) as [Ht Hm]. rewrite lambert_r_eq in H by assumption. destruct (r_u32 _) as [q| |]; cbn [bind] in H; try discriminate. destruct (solved _ _ _ _ _ _ _) as [m| |]; cbn [bind] in H; try discriminate. apply ret_eq in H. subst L. cbn [l_s].
  pose proof (lambert_nd r0 r1 Hc) as S. rewrite <- (nd_time_r r0 r1 mu tof S Hm). unfold lp_ndt, nd_time.
  assert (C : forall a b, f_mul RA a b = f_mul RA b a) by (intros [a|] [b|]; cbn; try reflexivity; f_equal; ring). apply C.
Qed.
(** the default leg *)
Definition default_leg_text : outcome string := sf_text dec_d dec_z (fun _ => Ret (repeat dzero 7)) sf_default.
Lemma default_leg_text_ok : exists s, default_leg_text = Ret s /\ has ("Number of segments: 2" ++ nl) s.
Proof.
  destruct (sf_prints dec_d dec_z (fun _ => Ret (repeat dzero 7)) sf_default default_valid) as [[_ A] B]. destruct A as [s A]; [eexists; reflexivity|]. exists s. split; [exact A|]. destruct (B s A) as [m [_ [C _]]]. exact C.
Qed.
