(** * Proofs about the drawn legs *)
From Coq Require Import Reals ZArith List Lra Lia Psatz Bool.
From Verif Require Import Outcome PartialReal KepSpec Vec3 TwoBodyModel TwoBodySpec FlowMain TcModel DynModel SfModel SfSpec SfProofs SfMain PlotModel PlotProofs PlotLegModel PlotLegSpec.
Import ListNotations.
Open Scope R_scope.

Lemma arc_points_good newton mu dt0 units : units <> 0 -> newton_ok newton -> forall n rv dt, good_arc mu dt0 rv -> Rabs dt <= Rabs dt0 ->
  exists pts, arc_points newton n rv dt mu units = Ret pts /\ length pts = n /\ forall i, (i < n)%nat -> exists si, flow_at mu rv (INR i * dt) si /\ nth_error pts i = Some (vscal (/ units) (fst si)).
Proof.
  intros U NK. induction n as [|n IH]; intros rv dt G L; [exists []; repeat split; intros i Hi; lia|]. pose proof (good_regular _ _ _ G) as Rg.
  destruct (flow_exists mu rv dt Rg) as [s1 F]. pose proof (coast_good newton mu dt0 rv dt s1 NK G F L) as E. cbn in E. unfold coast in E.
  destruct (propagate_lagrangian newton rv dt mu false) as [[s1' m]| |] eqn:Q; cbn [bind fst] in E; try discriminate. injection E as ->.
  destruct (IH s1 dt (good_flow _ _ _ _ _ G F) L) as [pts [Ep [Lp Hp]]].
  exists (vscal (/ units) (fst rv) :: pts). split; [cbn [arc_points]; rewrite vdiv_some by exact U; rewrite Q; cbn [bind fst]; rewrite Ep; reflexivity|]. split; [cbn; rewrite Lp; reflexivity|].
  intros [|i] Hi; [exists rv; split; [cbn [INR]; rewrite Rmult_0_l; apply flow_0; exact Rg|reflexivity]|].
  destruct (Hp i ltac:(lia)) as [si [Fi Ei]]. exists si. split; [|exact Ei]. replace (INR (Datatypes.S i) * dt) with (dt + INR i * dt) by (rewrite S_INR; ring).
  exact (flow_comp mu rv dt s1 (INR i * dt) si (proj1 Rg) F Fi).
Qed.
Lemma ballistic_good newton mu dt0 units rv tof N : newton_ok newton -> units <> 0 -> good_arc mu dt0 rv -> Rabs tof <= Rabs dt0 -> (2 <= N)%Z ->
  exists pts, add_ballistic_arc newton rv tof mu units N = Ret pts /\ along mu units N rv tof pts.
Proof.
  intros NK U G L HN. assert (NP : 1 <= IZR (N - 1)) by (apply IZR_le; lia).
  assert (L' : Rabs (tof / IZR (N - 1)) <= Rabs dt0).
  { unfold Rdiv. rewrite Rabs_mult, Rabs_inv, (Rabs_right (IZR (N - 1))) by lra. pose proof (Rabs_pos tof). assert (/ IZR (N - 1) <= 1) by (rewrite <- Rinv_1; apply Rinv_le_contravar; lra).
    assert (0 < / IZR (N - 1)) by (apply Rinv_0_lt_compat; lra). nra. }
  destruct (arc_points_good newton mu dt0 units U NK (Z.to_nat N) rv (tof / IZR (N - 1)) G L') as [pts [E [Lp P]]]. exists pts.
  split; [unfold add_ballistic_arc; destruct (Z.eqb_spec N 1); [lia|exact E]|]. split; [exact Lp|]. intros i Hi. destruct (P i Hi) as [si [F Q]]. exists si. split; [|exact Q].
  replace (INR i * tof / IZR (N - 1)) with (INR i * (tof / IZR (N - 1))) by (unfold Rdiv; ring). exact F.
Qed.

(** both passes at once *)
Definition sleg (ok : state -> Prop) (mu c veff dt sign : R) (u : vec) (p q : col7) : Prop :=
  exists a, ok (fst p) /\ flow_at mu (fst p) (sign * (dt / 2)) a /\
  let dv := vscal (c / snd p) u in
  ok (kick a (vscal sign dv)) /\ flow_at mu (kick a (vscal sign dv)) (sign * (dt / 2)) (fst q) /\ snd q = snd p * exp (- sign * (norm dv / veff)).
Lemma vscal_1 u : vscal 1 u = u. Proof. apply vec_eq; unfold vscal; cbn; ring. Qed.
Lemma vscal_m1 u : vscal (-1) u = vneg u. Proof. apply vec_eq; unfold vscal, vneg; cbn; ring. Qed.
Lemma sleg_fwd ok mu c veff dt us : forall p q, legs (segment ok mu c veff dt) us p q -> legs (sleg ok mu c veff dt 1) us p q.
Proof.
  induction us as [|u us IH]; intros p q L; [exact L|]. destruct L as [z [[a [A [B [C [D E]]]]] L]]. exists z. split; [|apply IH; exact L].
  exists a. cbv zeta. rewrite vscal_1, Rmult_1_l. split; [exact A|]. split; [exact B|]. cbv zeta. split; [exact C|]. split; [exact D|]. rewrite E. f_equal. f_equal. unfold Rdiv. ring.
Qed.
Lemma sleg_bck ok mu c veff dt us : forall p q, legs (segment_back ok mu c veff dt) us p q -> legs (sleg ok mu c veff dt (-1)) us p q.
Proof.
  induction us as [|u us IH]; intros p q L; [exact L|]. destruct L as [z [[a [A [B [C [D E]]]]] L]]. exists z. split; [|apply IH; exact L].
  exists a. cbv zeta. rewrite vscal_m1. replace (-1 * (dt / 2)) with (- (dt / 2)) by ring. split; [exact A|]. split; [exact B|]. cbv zeta. split; [exact C|]. split; [exact D|]. rewrite E. f_equal. f_equal. ring.
Qed.

Lemma draw_loop_ok newton sign idx N th c dt isp mu units : newton_ok newton -> units <> 0 -> (2 <= N)%Z -> 0 <= c -> 0 < isp -> sign * sign = 1 -> forall k i p q,
  (forall j, (i <= j < i + Z.of_nat k)%Z -> (0 <= idx j /\ idx j + 2 < Z.of_nat (length th))%Z) -> 0 < snd p ->
  legs (sleg (good_arc mu dt) mu c (isp * G0) dt sign) (map (fun j => V (nth (Z.to_nat (idx (i + Z.of_nat j)%Z)) th 0) (nth (Z.to_nat (idx (i + Z.of_nat j)%Z + 1)) th 0) (nth (Z.to_nat (idx (i + Z.of_nat j)%Z + 2)) th 0)) (seq 0 k)) p q ->
  exists d, draw_loop newton sign idx k i N th c dt isp mu units (fst p) (snd p) = Ret d /\
    d_thr d = map (fun j => V (nth (Z.to_nat (idx (i + Z.of_nat j)%Z)) th 0) (nth (Z.to_nat (idx (i + Z.of_nat j)%Z + 1)) th 0) (nth (Z.to_nat (idx (i + Z.of_nat j)%Z + 2)) th 0)) (seq 0 k) /\
    length (d_mid d) = k /\ drawn mu c (isp * G0) dt units N sign (d_thr d) p q (d_arcs d) (d_grid d) (d_mid d).
Proof.
  intros NK U HN C0 I0 SS. induction k as [|k IH]; intros i p q Hx Mp L.
  - cbn in L. exists (mk_pass [] [] [] []). split; [reflexivity|]. split; [reflexivity|]. split; [reflexivity|]. cbn. auto.
  - cbn [seq map legs] in L. destruct L as [z [Sg L]]. rewrite Z.add_0_r in Sg. destruct (Hx i ltac:(lia)) as [X0 X1].
    set (u := V (nth (Z.to_nat (idx i)) th 0) (nth (Z.to_nat (idx i + 1)) th 0) (nth (Z.to_nat (idx i + 2)) th 0)) in *.
    destruct Sg as [a [G0_ [F0 [G1 [F1 M1]]]]]. cbv zeta in *. set (dv := vscal (c / snd p) u) in *.
    assert (AB : Rabs (sign * dt / 2) <= Rabs dt).
    { assert (S1 : Rabs sign = 1) by (destruct (Rabs_case sign) || idtac; assert (Rabs sign * Rabs sign = 1) by (rewrite <- Rabs_mult, SS; apply Rabs_R1); pose proof (Rabs_pos sign); nra).
      unfold Rdiv. rewrite !Rabs_mult, S1, (Rabs_right (/ 2)) by lra. pose proof (Rabs_pos dt). lra. }
    assert (TE : sign * (dt / 2) = sign * dt / 2) by (unfold Rdiv; ring). rewrite TE in F0, F1.
    destruct (ballistic_good newton mu dt units (fst p) (sign * dt / 2) N NK U G0_ AB HN) as [arc1 [E1 A1]].
    pose proof (coast_good newton mu dt (fst p) (sign * dt / 2) a NK G0_ F0 AB) as C1. cbn in C1.
    destruct (ballistic_good newton mu dt units (kick a (vscal sign dv)) (sign * dt / 2) N NK U G1 AB HN) as [arc2 [E2 A2]].
    pose proof (coast_good newton mu dt _ (sign * dt / 2) (fst z) NK G1 F1 AB) as C2. cbn in C2.
    assert (KE : (fst a, V (vx (snd a) + sign * (vx u * c / snd p)) (vy (snd a) + sign * (vy u * c / snd p)) (vz (snd a) + sign * (vz u * c / snd p))) = kick a (vscal sign dv)).
    { unfold kick, dv. f_equal. apply vec_eq; unfold vadd, vscal; cbn [vx vy vz]; field; lra. }
    assert (CM : 0 <= c / snd p) by (apply Rmult_le_pos; [exact C0|apply Rlt_le, Rinv_0_lt_compat, Mp]).
    assert (ME : snd p * exp (- sign * (norm u * c / snd p / isp / G0)) = snd z).
    { rewrite M1. f_equal. f_equal. f_equal. unfold dv. rewrite norm_vscal, (Rabs_right (c / snd p)) by (apply Rle_ge, CM). unfold G0. field. lra. }
    assert (Mz : 0 < snd z) by (rewrite <- ME; apply Rmult_lt_0_compat; [exact Mp|apply exp_pos]).
    destruct (IH (i + 1)%Z z q) as [d [Ed [Td [Ld Dd]]]]; [intros j Hj; apply Hx; lia|exact Mz| |].
    { rewrite <- seq_shift, map_map in L. erewrite map_ext; [exact L|]. intros j. cbv beta. replace (i + 1 + Z.of_nat j)%Z with (i + Z.of_nat (Datatypes.S j))%Z by lia. reflexivity. }
    exists (mk_pass (arc1 :: arc2 :: d_arcs d) (fst (fst z) :: d_grid d) (fst a :: d_mid d) (u :: d_thr d)). split; [|split; [|split]].
    + cbn [draw_loop]. rewrite !vget_at by lia. cbn [bind]. change (nth (Z.to_nat (idx i)) th 0) with (vx u). change (nth (Z.to_nat (idx i + 1)) th 0) with (vy u). change (nth (Z.to_nat (idx i + 2)) th 0) with (vz u).
      rewrite E1. cbn [bind]. rewrite C1. cbn [bind]. rewrite KE, E2. cbn [bind]. rewrite C2. cbn [bind]. change (V (vx u) (vy u) (vz u)) with u. rewrite ME, Ed. reflexivity.
    + cbn [d_thr]. rewrite Td. cbn [seq map]. rewrite Z.add_0_r. fold u. f_equal. rewrite <- seq_shift, map_map. apply map_ext. intros j. replace (i + 1 + Z.of_nat j)%Z with (i + Z.of_nat (Datatypes.S j))%Z by lia. reflexivity.
    + cbn. rewrite Ld. reflexivity.
    + cbn [d_thr d_arcs d_grid d_mid drawn]. exists a, z, arc1, arc2, (d_arcs d), (d_grid d), (d_mid d). cbv zeta. fold dv. rewrite TE.
      split; [exact F0|]. split; [exact F1|]. split; [exact M1|]. split; [exact A1|]. split; [exact A2|]. split; [reflexivity|]. split; [reflexivity|]. split; [reflexivity|]. exact Dd.
Qed.
Lemma scaled_ok units l : units <> 0 -> l <> [] -> scaled units l = Ret (Some (map (vscal (/ units)) l)).
Proof.
  intros U H. assert (E : forall l, all_some (map (vdiv units) l) = Some (map (vscal (/ units)) l)).
  { intros l0. induction l0 as [|a l0 IH]; [reflexivity|]. cbn [map all_some]. rewrite vdiv_some by exact U. cbn [obind]. rewrite IH. reflexivity. }
  unfold scaled. destruct l as [|a l]; [contradiction|]. rewrite E. reflexivity.
Qed.
Lemma half_run newton sign idx k l p q units N sm sg st us : newton_ok newton -> units <> 0 -> (2 <= N)%Z -> proper l -> sign * sign = 1 ->
  (forall j, (0 <= j < Z.of_nat k)%Z -> (0 <= idx j /\ idx j + 2 < Z.of_nat (length (s_thr l)))%Z) -> 0 < snd p ->
  us = map (fun j => V (nth (Z.to_nat (idx (Z.of_nat j))) (s_thr l) 0) (nth (Z.to_nat (idx (Z.of_nat j) + 1)) (s_thr l) 0) (nth (Z.to_nat (idx (Z.of_nat j) + 2)) (s_thr l) 0)) (seq 0 k) ->
  legs (sleg (good_arc (s_mu l) (leg_dt l)) (s_mu l) (s_T l * leg_dt l) (s_isp l * G0) (leg_dt l) sign) us p q ->
  (k = 0%nat -> sm = false /\ st = false) ->
  exists x, half newton sign idx k l (fst p) (snd p) units N sm sg st = Ret x /\ half_ok l units N sm sg st sign us p q x.
Proof.
  intros NK U HN P SS Hx Mp EU L Z0. destruct P as [[P1 [P2 [P3 P4]]] [P5 [P6 [P7 [P8 [P9 [P10 P11]]]]]]].
  assert (C0 : 0 <= s_T l * leg_dt l) by (apply Rmult_le_pos; [exact P7|unfold leg_dt; apply Rmult_le_pos; [lra|apply Rlt_le, Rinv_0_lt_compat, IZR_lt; exact P4]]).
  subst us. destruct (draw_loop_ok newton sign idx N (s_thr l) (s_T l * leg_dt l) (leg_dt l) (s_isp l) (s_mu l) units NK U HN C0 P8 SS k 0 p q) as [d [E [Td [Ld Dd]]]]; [intros j Hj; apply Hx; lia|exact Mp|exact L|].
  cbn [Z.add] in Td. eexists. split.
  - unfold half. fold (leg_dt l). rewrite E. cbn [bind]. unfold draw_marks. cbn [d_arcs d_grid d_mid d_thr].
    assert (GS : (if sg then bind (scaled units (fst (fst p) :: d_grid d)) (fun x => Ret (Some x)) else Ret None) = Ret (asked sg (map (vscal (/ units)) (fst (fst p) :: d_grid d)))) by (destruct sg; [rewrite scaled_ok by (exact U || discriminate); reflexivity|reflexivity]).
    assert (NE : sm = true \/ st = true -> d_mid d <> []) by (intros Q Q2; rewrite Q2 in Ld; cbn in Ld; destruct (Z0 (eq_sym Ld)) as [Qa Qb]; destruct Q; congruence).
    assert (MS : (if sm then bind (scaled units (d_mid d)) (fun x => Ret (Some x)) else Ret None) = Ret (asked sm (map (vscal (/ units)) (d_mid d)))) by (destruct sm; [rewrite scaled_ok by (exact U || (apply NE; auto)); reflexivity|reflexivity]).
    assert (AS : (if st then bind (scaled units (d_mid d)) (fun x => Ret (Some (match x with Some l0 => Some (combine l0 (d_thr d)) | None => None end))) else Ret None) = Ret (asked st (combine (map (vscal (/ units)) (d_mid d)) (d_thr d)))) by (destruct st; [rewrite scaled_ok by (exact U || (apply NE; auto)); reflexivity|reflexivity]).
    rewrite GS. cbn [bind]. rewrite MS. cbn [bind]. rewrite AS. cbn [bind]. reflexivity.
  - exists (d_grid d), (d_mid d). cbn [fst snd k_grid k_mid k_arrows]. rewrite Td in Dd |- *. split; [exact Dd|]. repeat split; reflexivity.
Qed.
Lemma sf_leg_drawn newton l pf pb units N sm sg st : newton_ok newton -> proper l -> units <> 0 -> (2 <= N)%Z ->
  forward_end (good_arc (s_mu l) (leg_dt l)) l pf -> backward_end (good_arc (s_mu l) (leg_dt l)) l pb ->
  (sm = true \/ st = true -> 0 < s_fwd l /\ 0 < s_bck l)%Z ->
  exists f b, add_sf_leg newton l units N sm sg st = Ret (f, b) /\
    half_ok l units N sm sg st 1 (firstn (Z.to_nat (s_fwd l)) (throttles (Z.to_nat (s_nseg l)) (s_thr l))) (s_rvs l, s_ms l) pf f /\
    half_ok l units N sm sg st (-1) (rev (skipn (Z.to_nat (s_fwd l)) (throttles (Z.to_nat (s_nseg l)) (s_thr l)))) (s_rvf l, s_mf l) pb b.
Proof.
  intros NK P U HN Fe Be Ne. pose proof P as [[P1 [P2 [P3 P4]]] [P5 [P6 [P7 [P8 [P9 [P10 P11]]]]]]].
  destruct (half_run newton 1 (fun i => 3 * i)%Z (Z.to_nat (s_fwd l)) l (s_rvs l, s_ms l) pf units N sm sg st (firstn (Z.to_nat (s_fwd l)) (throttles (Z.to_nat (s_nseg l)) (s_thr l)))) as [f [Ef Hf]]; try assumption.
  - ring.
  - intros j Hj. rewrite P5. lia.
  - rewrite throttles_fwd by lia. apply map_ext_in. intros j Hj. apply in_seq in Hj. unfold thr_vec. f_equal; f_equal; lia.
  - apply sleg_fwd. exact Fe.
  - intros Q. destruct sm; [destruct (Ne (or_introl eq_refl)); lia|]. destruct st; [destruct (Ne (or_intror eq_refl)); lia|]. auto.
  - destruct (half_run newton (-1) (fun i => s_nseg l * 3 - 3 - 3 * i)%Z (Z.to_nat (s_bck l)) l (s_rvf l, s_mf l) pb units N sm sg st (rev (skipn (Z.to_nat (s_fwd l)) (throttles (Z.to_nat (s_nseg l)) (s_thr l))))) as [b [Eb Hb]]; try assumption.
    + ring.
    + intros j Hj. rewrite P5. lia.
    + rewrite throttles_bck by (exact P5 || lia). rewrite P5. replace (Z.to_nat (s_nseg l) - Z.to_nat (s_fwd l))%nat with (Z.to_nat (s_bck l)) by lia.
      apply map_ext_in. intros j Hj. apply in_seq in Hj. f_equal; f_equal; lia.
    + apply sleg_bck. exact Be.
    + intros Q. destruct sm; [destruct (Ne (or_introl eq_refl)); lia|]. destruct st; [destruct (Ne (or_intror eq_refl)); lia|]. auto.
    + exists f, b. split; [|split; assumption]. unfold add_sf_leg. cbn [fst snd] in Ef, Eb. rewrite Ef. cbn [bind]. rewrite Eb. reflexivity.
Qed.
(** the two halves end at the two sides of the mismatch *)
Lemma drawn_last mu c veff dt units N sign us : forall p q arcs grid mid, drawn mu c veff dt units N sign us p q arcs grid mid ->
  last (fst (fst p) :: grid) vzero = fst (fst q) /\ length arcs = (2 * length us)%nat /\ length grid = length us /\ length mid = length us.
Proof.
  induction us as [|u us IH]; intros p q arcs grid mid D; cbn [drawn] in D.
  - destruct D as [-> [-> [-> ->]]]. repeat split.
  - destruct D as [a [z [a1 [a2 [ar [gr [mi [_ [_ [_ [_ [_ [-> [-> [-> D]]]]]]]]]]]]]]]. destruct (IH _ _ _ _ _ D) as [A [B [C E]]].
    split; [exact A|]. cbn [length]. rewrite B, C, E. repeat split; lia.
Qed.
(** without segments in a pass the middles cannot be drawn *)
Lemma sf_leg_empty newton l units N sg st : s_fwd l = 0%Z -> add_sf_leg newton l units N true sg st = Throw OutOfRange.
Proof.
  intros F. unfold add_sf_leg, half. rewrite F. change (Z.to_nat 0) with 0%nat. cbn [draw_loop bind]. unfold draw_marks. cbn [d_grid d_mid d_thr d_arcs].
  destruct sg; cbn [bind scaled]; reflexivity.
Qed.

(** ** The high-fidelity leg *)
Section Hf.
Variable F : Type.
Variables (fdiv fadd fmul : F -> F -> F).
Notation records_ok := (records_ok F). Notation samp := (samp F). Notation triple := (triple F). Notation arrows_at := (arrows_at F fdiv fadd fmul). Notation seg_pos := (seg_pos F fdiv).
Lemma mapM_ok {A B : Type} (f : A -> outcome B) (g : A -> B) l : (forall a, In a l -> f a = Ret (g a)) -> mapM f l = Ret (map g l).
Proof.
  induction l as [|a l IH]; intros H; [reflexivity|]. cbn [mapM map]. rewrite (H a (or_introl eq_refl)). cbn [bind]. rewrite IH by (intros x Hx; apply H; right; exact Hx). reflexivity.
Qed.
Lemma sample_ok raw nseg N k j : records_ok raw nseg N -> (k < nseg)%nat -> (j < N)%nat -> sample F raw k j = Ret (samp raw k j).
Proof.
  intros [L Fa] Hk Hj. unfold sample, samp. rewrite (nth_error_nth' raw [] (eq_ind_r (fun m => (k < m)%nat) Hk L)). rewrite Forall_forall in Fa.
  pose proof (Fa (nth k raw []) (nth_In raw [] (eq_ind_r (fun m => (k < m)%nat) Hk L))) as Lr. rewrite firstn_length, skipn_length, Lr. replace (Nat.eqb (Nat.min 7 (7 * N - 7 * j)) 7) with true by (symmetry; apply Nat.eqb_eq; lia). reflexivity.
Qed.
(** the samples of segment k *)
Definition seg_rows (raw : list (list F)) (N k : nat) : list (list F) := map (samp raw k) (seq 0 N).
Lemma prod_rows raw (seg : nat -> nat) N : forall l, map (fun p => samp raw (seg (fst p)) (snd p)) (list_prod l (seq 0 N)) = concat (map (fun i => seg_rows raw N (seg i)) l).
Proof. induction l as [|a l IH]; [reflexivity|]. cbn [list_prod map concat]. rewrite map_app, map_map, IH. reflexivity. Qed.
Lemma history_ok raw nseg N seg n : records_ok raw nseg N -> (forall i, (i < n)%nat -> (seg i < nseg)%nat) -> history F raw seg n N = Ret (concat (map (fun i => seg_rows raw N (seg i)) (seq 0 n))).
Proof.
  intros Rk H. unfold history. rewrite (mapM_ok _ (fun p => samp raw (seg (fst p)) (snd p))); [rewrite prod_rows; reflexivity|].
  intros [i j] Hp. apply in_prod_iff in Hp. destruct Hp as [Hi Hj]. apply in_seq in Hi, Hj. cbn [fst snd]. apply (sample_ok raw nseg N); [exact Rk|apply H; lia|lia].
Qed.
Lemma chunk {A : Type} (N : nat) (f : nat -> list A) : (forall i, length (f i) = N) -> forall n a i, (i < n)%nat -> firstn N (skipn (i * N) (concat (map f (seq a n)))) = f (a + i)%nat.
Proof.
  intros Lf. induction n as [|n IH]; intros a i Hi; [lia|]. cbn [seq map concat]. destruct i as [|i].
  - cbn [Nat.mul skipn]. rewrite firstn_app, Lf, Nat.sub_diag, firstn_O, app_nil_r, Nat.add_0_r. rewrite firstn_all2 by (rewrite Lf; lia). reflexivity.
  - rewrite skipn_app, Lf. rewrite skipn_all2 by (rewrite Lf; lia). cbn [app]. replace (Datatypes.S i * N - N)%nat with (i * N)%nat by lia. rewrite IH by lia. f_equal. lia.
Qed.
Lemma seg_pos_rows raw N units k : map (pos3 F fdiv units) (seg_rows raw N k) = seg_pos raw N units k.
Proof. unfold seg_rows, PlotLegSpec.seg_pos. rewrite map_map. reflexivity. Qed.
Lemma combine_repeat {A B C : Type} (f : A * B -> C) (l : list A) (x : B) n : length l = n -> map f (combine l (repeat x n)) = map (fun a => f (a, x)) l.
Proof. intros <-. induction l as [|a l IH]; [reflexivity|]. cbn. rewrite IH. reflexivity. Qed.
Lemma repeat_map {A B : Type} (f : A -> B) x n : map f (repeat x n) = repeat (f x) n.
Proof. induction n; cbn; congruence. Qed.
Lemma firstn_skipn_in {A : Type} (l : list A) a b c : (b + c <= a)%nat -> firstn c (skipn b (firstn a l)) = firstn c (skipn b l).
Proof. intros H. rewrite skipn_firstn_comm, firstn_firstn. f_equal. lia. Qed.
Lemma skip_skip {A : Type} (l : list A) : forall a b, skipn a (skipn b l) = skipn (a + b) l.
Proof.
  induction l as [|x l IH]; intros a b; [rewrite !skipn_nil; reflexivity|]. destruct b as [|b]; [rewrite Nat.add_0_r; reflexivity|]. rewrite Nat.add_succ_r. cbn [skipn]. apply IH.
Qed.
Lemma arrow_ok raw thr N units len n seg (ths : list (list F)) i kt : (forall k, length (seg_rows raw N k) = N) -> (i < n)%nat -> map (fun r => firstn 3 (skipn (i * 3) r)) ths = repeat (triple thr kt) N ->
  arrows_at raw thr N units len (seg i) kt (arrow F fdiv fadd fmul (concat (map (fun i => seg_rows raw N (seg i)) (seq 0 n))) ths units len N i).
Proof.
  intros SL L Et. unfold arrow, PlotLegSpec.arrows_at. cbn [q_at q_thr q_tips]. rewrite (chunk N (fun i => seg_rows raw N (seg i)) (fun i => SL _) n 0 i L), Nat.add_0_l, Et, seg_pos_rows.
  split; [reflexivity|]. split; [reflexivity|]. rewrite combine_repeat by (rewrite <- seg_pos_rows, map_length, SL; reflexivity). reflexivity.
Qed.
Lemma map_concat_pos raw N units (f : nat -> nat) l : map (pos3 F fdiv units) (concat (map (fun i => seg_rows raw N (f i)) l)) = concat (map (fun i => seg_pos raw N units (f i)) l).
Proof. induction l as [|a l IH]; [reflexivity|]. cbn [map concat]. rewrite map_app, IH, seg_pos_rows. reflexivity. Qed.
Lemma hf_drawn raw thr nseg nfwd N units len show : records_ok raw nseg N -> (nfwd <= nseg)%nat -> length thr = (3 * nseg)%nat ->
  exists f b, add_sf_hf_leg F fdiv fadd fmul raw thr nseg nfwd N units len show = Ret (f, b) /\
    fst f = concat (map (seg_pos raw N units) (seq 0 nfwd)) /\
    fst b = concat (map (fun i => seg_pos raw N units (nseg - 1 - i)) (seq 0 (nseg - nfwd))) /\
    length (snd f) = (if show then nfwd else 0%nat) /\ length (snd b) = (if show then nseg - nfwd else 0)%nat /\
    (forall i a, nth_error (snd f) i = Some a -> arrows_at raw thr N units len i i a) /\
    (forall i a, nth_error (snd b) i = Some a -> arrows_at raw thr N units len (nseg - 1 - i) (nfwd + i) a).
Proof.
  intros Rk Hn Lt. unfold add_sf_hf_leg, hf_half. rewrite (history_ok raw nseg N (fun i => i) nfwd Rk) by (intros; lia). cbn [bind].
  rewrite (history_ok raw nseg N (fun i => (nseg - i - 1)%nat) (nseg - nfwd) Rk) by (intros; lia). cbn [bind].
  eexists _, _. split; [reflexivity|]. cbn [fst snd]. split; [exact (map_concat_pos raw N units (fun i => i) _)|].
  split; [rewrite (map_concat_pos raw N units (fun i => (nseg - i - 1)%nat)); f_equal; apply map_ext; intros i; f_equal; lia|].
  split; [destruct show; [rewrite map_length, seq_length|]; reflexivity|]. split; [destruct show; [rewrite map_length, seq_length|]; reflexivity|].
  assert (SL : forall k, length (seg_rows raw N k) = N) by (intros k; unfold seg_rows; rewrite map_length, seq_length; reflexivity).
  destruct show; [|split; intros [|i] a Hi; discriminate].
  split; intros i a Hi.
  - assert (L : (i < nfwd)%nat) by (match type of Hi with nth_error ?l _ = _ => assert (Q : nth_error l i <> None) by congruence; apply nth_error_Some in Q; rewrite map_length, seq_length in Q; exact Q end).
    rewrite (map_nth_error _ i (seq 0 nfwd) (d := i)) in Hi by (rewrite (nth_error_nth' _ 0%nat) by (rewrite seq_length; exact L); rewrite seq_nth by exact L; reflexivity).
    injection Hi as <-. apply (arrow_ok raw thr N units len nfwd (fun i => i)); [exact SL|exact L|].
    rewrite !repeat_map. f_equal. unfold PlotLegSpec.triple. rewrite firstn_skipn_in by lia. replace (i * 3)%nat with (3 * i)%nat by lia. reflexivity.
  - assert (L : (i < nseg - nfwd)%nat) by (match type of Hi with nth_error ?l _ = _ => assert (Q : nth_error l i <> None) by congruence; apply nth_error_Some in Q; rewrite map_length, seq_length in Q; exact Q end).
    rewrite (map_nth_error _ i (seq 0 (nseg - nfwd)) (d := i)) in Hi by (rewrite (nth_error_nth' _ 0%nat) by (rewrite seq_length; exact L); rewrite seq_nth by exact L; reflexivity).
    injection Hi as <-. replace (nseg - 1 - i)%nat with (nseg - i - 1)%nat by lia. apply (arrow_ok raw thr N units len (nseg - nfwd) (fun i => (nseg - i - 1)%nat)); [exact SL|exact L|].
    rewrite !repeat_map. f_equal. unfold PlotLegSpec.triple. rewrite skip_skip, firstn_skipn_in by lia. f_equal. f_equal. lia.
Qed.
(** the backward arrows are right exactly when the throttles of the pass read the same in both directions *)
Lemma hf_arrows_iff raw thr nseg nfwd N units len : records_ok raw nseg N -> (nfwd <= nseg)%nat -> length thr = (3 * nseg)%nat -> (0 < N)%nat ->
  exists f b, add_sf_hf_leg F fdiv fadd fmul raw thr nseg nfwd N units len true = Ret (f, b) /\
    ((forall i a, nth_error (snd b) i = Some a -> q_at F a = seg_pos raw N units (nseg - 1 - i) /\ q_thr F a = repeat (triple thr (nseg - 1 - i)) N)
     <-> forall k, (nfwd <= k < nseg)%nat -> triple thr k = triple thr (nseg - 1 - (k - nfwd))).
Proof.
  intros Rk Hn Lt NP. destruct (hf_drawn raw thr nseg nfwd N units len true Rk Hn Lt) as [f [b [E [_ [_ [_ [Lb [_ B]]]]]]]]. exists f, b. split; [exact E|]. split.
  - intros H k Hk. destruct (nth_error (snd b) (k - nfwd)) as [a|] eqn:Q; [|apply nth_error_None in Q; lia].
    destruct (H _ _ Q) as [_ H2]. destruct (B _ _ Q) as [_ [B2 _]]. rewrite B2 in H2. replace (nfwd + (k - nfwd))%nat with k in H2 by lia.
    destruct N; [lia|]. cbn [repeat] in H2. exact (f_equal (hd []) H2).
  - intros H i a Q. destruct (B _ _ Q) as [B1 [B2 _]]. split; [exact B1|]. rewrite B2. f_equal.
    assert (L : (i < length (snd b))%nat) by (apply nth_error_Some; congruence). rewrite Lb in L. rewrite (H (nfwd + i)%nat ltac:(lia)). f_equal. lia.
Qed.
End Hf.

(** two segments flown backward: the arrows of the last segment carry the throttle of the one before it *)
Lemma hf_arrows_witness : exists raw thr f b a, add_sf_hf_leg nat Nat.div Nat.add Nat.mul raw thr 2%nat 0%nat 1%nat 1%nat 1%nat true = Ret (f, b) /\ records_ok nat raw 2%nat 1%nat /\ length thr = 6%nat /\
  nth_error (snd b) 0 = Some a /\ q_at nat a = seg_pos nat Nat.div raw 1%nat 1%nat 1%nat /\ q_thr nat a <> [triple nat thr 1%nat].
Proof.
  exists [[1; 2; 3; 0; 0; 0; 9]; [4; 5; 6; 0; 0; 0; 9]]%nat, [1; 0; 0; 0; 1; 0]%nat. eexists _, _, _. split; [reflexivity|].
  split; [split; [reflexivity|repeat constructor]|]. split; [reflexivity|]. split; [reflexivity|]. split; [reflexivity|]. cbn. discriminate.
Qed.

(** a coasting leg, with everything asked for *)
Lemma quarter_drawn newton : newton_ok newton ->
  exists f b, add_sf_leg newton (mk_sf (V 1 0 0, V 0 1 0) 10 [0; 0; 0; 0; 0; 0; 0; 0; 0] (V 0 1 0, V (-1) 0 0) 10 (PI / 2) 1 1 1 3 1 2) 1 5 true true true = Ret (f, b) /\
    length (fst f) = 2%nat /\ length (fst b) = 4%nat.
Proof.
  intros NK. set (l := mk_sf _ _ _ _ _ _ _ _ _ _ _ _). pose proof PI_RGT_0.
  assert (P : proper l) by (unfold proper; cbn; repeat split; try lia; try lra; reflexivity).
  assert (G1 : good_arc (s_mu l) (leg_dt l) (s_rvs l)) by (left; apply elliptic_at; unfold dot, cross, vzero; cbn; try lra; intros Q; injection Q; lra).
  assert (G2 : good_arc (s_mu l) (leg_dt l) (s_rvf l)) by (left; apply elliptic_at; unfold dot, cross, vzero; cbn; try lra; intros Q; injection Q; lra).
  assert (NT : no_thrust l) by (intros i; cbn; do 9 (destruct i as [|i]; [reflexivity|]); destruct i; reflexivity).
  destruct (coast_fwd_ex (good_arc (s_mu l) (leg_dt l)) (s_mu l) (s_T l * leg_dt l) (s_isp l * G0) (leg_dt l) (firstn (Z.to_nat (s_fwd l)) (throttles (Z.to_nat (s_nseg l)) (s_thr l))) ltac:(intros; eapply good_flow; eassumption) ltac:(intros; apply flow_exists; eapply good_regular; eassumption)
    ltac:(intros u Hu; apply (no_thrust_zero l (Z.to_nat (s_nseg l))); [exact NT|rewrite <- (firstn_skipn (Z.to_nat (s_fwd l)) _); apply in_or_app; left; exact Hu]) (s_rvs l, s_ms l) G1) as [pf Fe].
  destruct (coast_bck_ex (good_arc (s_mu l) (leg_dt l)) (s_mu l) (s_T l * leg_dt l) (s_isp l * G0) (leg_dt l) (rev (skipn (Z.to_nat (s_fwd l)) (throttles (Z.to_nat (s_nseg l)) (s_thr l)))) ltac:(intros; eapply good_flow; eassumption) ltac:(intros; apply flow_exists; eapply good_regular; eassumption)
    ltac:(intros u Hu; apply (no_thrust_zero l (Z.to_nat (s_nseg l))); [exact NT|rewrite <- (firstn_skipn (Z.to_nat (s_fwd l)) _); apply in_or_app; right; apply in_rev; exact Hu]) (s_rvf l, s_mf l) G2) as [pb Be].
  destruct (sf_leg_drawn newton l pf pb 1 5 true true true NK P ltac:(lra) ltac:(lia) Fe Be ltac:(intros _; cbn; lia)) as [f [b [E [[g [m [D _]]] [g' [m' [D' _]]]]]]].
  exists f, b. split; [exact E|]. destruct (drawn_last _ _ _ _ _ _ _ _ _ _ _ _ _ D) as [_ [A _]]. destruct (drawn_last _ _ _ _ _ _ _ _ _ _ _ _ _ D') as [_ [A' _]].
  split; [rewrite A|rewrite A']; reflexivity.
Qed.
(** a leg flown backward only, the middles asked for *)
Lemma empty_witness : exists l, proper l /\ forall newton units N sg st, add_sf_leg newton l units N true sg st = Throw OutOfRange.
Proof.
  exists (mk_sf (V 1 0 0, V 0 1 0) 10 [0; 0; 0] (V 0 1 0, V (-1) 0 0) 10 (PI / 2) 1 1 1 1 0 1). pose proof PI_RGT_0. split.
  - unfold proper. cbn. repeat split; try lia; try lra; reflexivity.
  - intros. apply sf_leg_empty. reflexivity.
Qed.
