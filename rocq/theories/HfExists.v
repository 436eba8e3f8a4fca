(** * The legs next to one whose gradient is computed can be flown *)
From Coq Require Import Reals Lra Lia List ZArith.
From Coquelicot Require Import Coquelicot.
From Verif Require Import RealLib Outcome Vec3 TwoBodySpec DynSpec DynModel DynProofs SfModel SfSpec SfGrad OdeLib OdeSd OdeNear HfGradModel HfGradSpec HfGradFlow HfGradAll HfGradChain HfGradMain HfGradMis HfGradExample HfCut HfNear PyMatModel PyMatSpec PyMatProofs PyMatLegs.
Import ListNotations.
Open Scope R_scope.

Lemma seg_flight mu veff h u p p' M U F : seg_data mu veff h u p p' M U F -> flight mu veff h u p p'.
Proof. intros [_ [_ [q [W [A [_ [Q0 [Q1 _]]]]]]]]. exists q. auto. Qed.
Lemma legs_seq (seg : vec -> col7 -> col7 -> Prop) (U : nat -> vec) (pj : nat -> col7) m : (forall j, (j < m)%nat -> seg (U j) (pj j) (pj (S j))) -> legs seg (map U (seq 0 m)) (pj 0%nat) (pj m).
Proof.
  induction m as [|m IH]; intros H; [reflexivity|]. rewrite seq_S, map_app. cbn [map plus]. apply legs_app. exists (pj m). split; [apply IH; intros; apply H; lia|apply H; lia].
Qed.
Section Main.
Variable tas_var : list R -> R -> R -> list R -> option (list R).
Variable l : hg.
Hypothesis Hl : proper_hf l.
Let n : nat := Z.to_nat (g_nseg l).
Let nf : nat := Z.to_nat (g_fwd l).
Let nb : nat := Z.to_nat (g_bck l).
Let veff : R := g_isp l * G0.
Lemma mc_grad_flown A B G : tas_var_exact tas_var -> thrusting l -> compute_mc_grad tas_var l = Ret (A, B, G) ->
  exists y0, flown (g_mu l) veff (g_T l) n nf (col_of (g_rvms l)) (g_thr l) (col_of (g_rvmf l)) (g_tof l) y0.
Proof.
  intros HT [T0 Nz] Eg. destruct (proper_nat l Hl) as [En [Ef [Eb [Hn [Hp [Hb [Lt [Et [Ls Lf]]]]]]]]].
  assert (Q := all_gradients_ok tas_var l n nf nb En Ef Eb Hn Hp Hb Lt Et Ls Lf (seg_of l) (seg_of_exact tas_var l Hl HT)).
  unfold compute_mc_grad in Eg. destruct (compute_all_gradients tas_var l) as [[[M U] F]|e|]; [|discriminate Eg|discriminate Eg]. clear Eg.
  destruct Q as [LM [LU [LF [xf [Q1 Q2]]]]].
  assert (Nt : forall j, (j < n)%nat -> thrust_of l j <> vzero).
  { intros j Hj Z. apply (Nz j Hj). unfold thrust_of, vscal, vzero in Z. destruct (thr_vec (g_thr l) j) as [a b c]. cbn [vx vy vz] in Z. injection Z as Z1 Z2 Z3.
    apply Rmult_integral in Z1. apply Rmult_integral in Z2. apply Rmult_integral in Z3. destruct Z1 as [?|Z1]; [contradiction|]. destruct Z2 as [?|Z2]; [contradiction|]. destruct Z3 as [?|Z3]; [contradiction|]. subst. reflexivity. }
  exists (minus7 (col_of (stf l xf nf)) (col_of (stb l n xf nb))), (col_of (stf l xf nf)), (col_of (stb l n xf nb)). split; [|split; [|reflexivity]].
  - rewrite us_firstn by lia. apply (legs_seq _ (fun j => vscal (g_T l) (thr_vec (g_thr l) j)) (fun j => col_of (stf l xf j))). intros j Hj.
    destruct (Q1 j Hj) as [s' [_ [S1 [S2 _]]]]. eapply seg_flight. change (stf l xf (S j)) with (nth j xf []). rewrite S2. apply S1. apply Nt. lia.
  - rewrite us_skipn by lia. replace (n - nf)%nat with nb by lia. apply (legs_seq _ (fun j => vscal (g_T l) (thr_vec (g_thr l) (n - 1 - j))) (fun j => col_of (stb l n xf j))). intros j Hj.
    destruct (Q2 j Hj) as [s' [_ [S1 [S2 _]]]]. eapply seg_flight. cbn [stb]. rewrite S2. apply S1. apply Nt. lia.
Qed.
Lemma mc_grad_exists A B G : tas_var_exact tas_var -> thrusting l -> compute_mc_grad tas_var l = Ret (A, B, G) ->
  forall xs th xf tof (dxs : col7) (dth : list R) (dxf : col7) (dtof : R),
  xs 0 = col_of (g_rvms l) -> th 0 = g_thr l -> xf 0 = col_of (g_rvmf l) -> tof 0 = g_tof l ->
  derive7 xs 0 dxs -> derive_list th 0 dth -> derive7 xf 0 dxf -> is_derive tof 0 dtof ->
  exists (y : R -> col7) eps, 0 < eps /\ (forall e, Rabs e < eps -> flown (g_mu l) veff (g_T l) n nf (xs e) (th e) (xf e) (tof e) (y e)) /\
  derive7 y 0 (plus7 (apply7 7 A (list7 dxs)) (plus7 (apply7 7 B (list7 dxf)) (apply7 (3 * n + 1) G (map (Rmult (g_T l)) dth ++ [dtof])))).
Proof.
  intros HT Th E xs th xf tof dxs dth dxf dtof E1 E2 E3 E4 D1 D2 D3 D4. destruct (mc_grad_flown A B G HT Th E) as [y0 Fl].
  destruct (flown_near (g_mu l) veff (veff_nz l Hl) (g_T l) n nf xs th xf tof dxs dth dxf dtof y0) as [y [eps [Ep Hy]]]; try assumption.
  - apply Th.
  - rewrite E2. apply Th.
  - rewrite E1, E2, E3, E4. exact Fl.
  - exists y, eps. split; [exact Ep|]. split; [exact Hy|]. destruct (mc_grad_jacobian tas_var l Hl A B G HT Th E) as [_ [_ [_ J]]]. apply (J xs th xf tof y); try assumption. exists eps. split; assumption.
Qed.
End Main.
Lemma gradient_exists tas_var l A B G : tas_var_exact tas_var -> proper_hf l -> thrusting l -> compute_mc_grad tas_var l = Ret (A, B, G) ->
  forall xs th xf tof (dxs : col7) (dth : list R) (dxf : col7) (dtof : R),
  xs 0 = col_of (g_rvms l) -> th 0 = g_thr l -> xf 0 = col_of (g_rvmf l) -> tof 0 = g_tof l ->
  derive7 xs 0 dxs -> derive_list th 0 dth -> derive7 xf 0 dxf -> is_derive tof 0 dtof ->
  exists (y : R -> col7) eps, 0 < eps /\
  (forall e, Rabs e < eps -> flown (g_mu l) (g_isp l * G0) (g_T l) (Z.to_nat (g_nseg l)) (Z.to_nat (g_fwd l)) (xs e) (th e) (xf e) (tof e) (y e)) /\
  derive7 y 0 (plus7 (apply7 7 A (list7 dxs)) (plus7 (apply7 7 B (list7 dxf)) (apply7 (3 * Z.to_nat (g_nseg l) + 1) G (map (Rmult (g_T l)) dth ++ [dtof])))).
Proof. intros HT P Th E. exact (mc_grad_exists tas_var l P A B G HT Th E). Qed.

(** ** Partial derivatives *)
Lemma partials_from F x0 r D : has_partials_where F x0 r D -> (forall j, (j < length x0)%nat -> exists y eps, 0 < eps /\ forall e, Rabs e < eps -> F (nudge x0 j e) (y e)) -> has_partials F x0 r D.
Proof. intros H E j Hj. destruct (E j Hj) as [y [eps [Ep Hy]]]. exists y, eps. split; [exact Ep|]. split; [exact Hy|]. apply (H j y Hj). exists eps. auto. Qed.
Lemma hf_near l (xs xf ut : R -> list R) dxs dxf dut y0 : let n := Z.to_nat (g_nseg l) in proper_hf l -> thrusting l ->
  flown (g_mu l) (g_isp l * G0) (g_T l) n (Z.to_nat (g_fwd l)) (col_of (g_rvms l)) (g_thr l) (col_of (g_rvmf l)) (g_tof l) y0 ->
  xs 0 = g_rvms l -> xf 0 = g_rvmf l -> ut 0 = hf_ut l -> (forall e, length (ut e) = (3 * n + 1)%nat) -> length dut = (3 * n + 1)%nat ->
  (forall k, is_derive (fun e => nth k (xs e) 0) 0 (nth k dxs 0)) -> (forall k, is_derive (fun e => nth k (xf e) 0) 0 (nth k dxf 0)) -> (forall k, is_derive (fun e => nth k (ut e) 0) 0 (nth k dut 0)) ->
  exists y eps, 0 < eps /\ forall e, Rabs e < eps -> misses_hf l (xs e) (xf e) (ut e) (y e).
Proof.
  intros n P Th Fl E1 E2 E3 LU LD D1 D2 D3. pose proof P as [_ [LT _]]. fold n in LT.
  assert (ET : firstn (3 * n) (ut 0) = g_thr l) by (rewrite E3; unfold hf_ut; rewrite firstn_app, LT, Nat.sub_diag, firstn_O, app_nil_r; rewrite <- LT; apply firstn_all).
  assert (EN : nth (3 * n) (ut 0) 0 = g_tof l) by (rewrite E3; unfold hf_ut; rewrite app_nth2, LT, Nat.sub_diag by lia; reflexivity).
  destruct (flown_near (g_mu l) (g_isp l * G0) (veff_nz l P) (g_T l) n (Z.to_nat (g_fwd l)) (fun e => col_of (xs e)) (fun e => firstn (3 * n) (ut e)) (fun e => col_of (xf e)) (fun e => nth (3 * n) (ut e) 0)
    (col_of dxs) (firstn (3 * n) dut) (col_of dxf) (nth (3 * n) dut 0) y0) as [y [eps [Ep Hy]]].
  - apply Th.
  - cbv beta. rewrite ET. apply Th.
  - apply col_derive. exact D1.
  - split; [rewrite !firstn_length, LU, LD; reflexivity|]. intros j. apply derive_nth_firstn. exact D3.
  - apply col_derive. exact D2.
  - apply D3.
  - cbv beta. rewrite ET, EN, E1, E2. exact Fl.
  - exists (fun e => list7 (y e)), eps. split; [exact Ep|]. intros e He. exists (y e). split; [apply Hy; exact He|reflexivity].
Qed.
Lemma hf_partials_exist tas_var l a b g : tas_var_exact tas_var -> proper_hf l -> thrusting l -> py_mc_grad_hf tas_var l = Ret (a, b, g) ->
  has_partials (fun xs => misses_hf l xs (g_rvmf l) (hf_ut l)) (g_rvms l) 7 (entry a) /\
  has_partials (fun xf => misses_hf l (g_rvms l) xf (hf_ut l)) (g_rvmf l) 7 (entry b) /\
  has_partials (fun ut => misses_hf l (g_rvms l) (g_rvmf l) ut) (hf_ut l) 7 (scaled_columns (Z.to_nat (g_nseg l)) (g_T l) g).
Proof.
  intros HT P Th E. destruct (hf_partials tas_var l a b g HT P Th E) as [H1 [H2 H3]].
  unfold py_mc_grad_hf in E. destruct (HfGradModel.compute_mc_grad tas_var l) as [[[A B] G]|e|] eqn:C; cbn [bind] in E; try discriminate.
  destruct (mc_grad_flown tas_var l P A B G HT Th C) as [y0 Fl]. pose proof P as [_ [LT [_ [L1 [L2 _]]]]]. set (n := Z.to_nat (g_nseg l)) in *.
  assert (LU : length (hf_ut l) = (3 * n + 1)%nat) by (unfold hf_ut; rewrite app_length, LT; reflexivity).
  split; [|split]; apply partials_from; try assumption; intros j Hj.
  - apply (hf_near l (fun e => nudge (g_rvms l) j e) (fun _ => g_rvmf l) (fun _ => hf_ut l) (unit (length (g_rvms l)) j) (zeros_ 7) (zeros_ (3 * n + 1)) y0); try assumption; try reflexivity; try (intros; apply still).
    + apply nudge_0. exact Hj.
    + intros; exact LU.
    + unfold zeros_. apply repeat_length.
    + intros k. apply nudge_derive. exact Hj.
  - apply (hf_near l (fun _ => g_rvms l) (fun e => nudge (g_rvmf l) j e) (fun _ => hf_ut l) (zeros_ 7) (unit (length (g_rvmf l)) j) (zeros_ (3 * n + 1)) y0); try assumption; try reflexivity; try (intros; apply still).
    + apply nudge_0. exact Hj.
    + intros; exact LU.
    + unfold zeros_. apply repeat_length.
    + intros k. apply nudge_derive. exact Hj.
  - apply (hf_near l (fun _ => g_rvms l) (fun _ => g_rvmf l) (fun e => nudge (hf_ut l) j e) (zeros_ 7) (zeros_ 7) (unit (length (hf_ut l)) j) y0); try assumption; try reflexivity; try (intros; apply still).
    + apply nudge_0. exact Hj.
    + intros e. rewrite nudge_length; [exact LU|exact Hj].
    + rewrite unit_length. exact LU.
    + intros k. apply nudge_derive. exact Hj.
Qed.
Lemma hf_plain_wrong : exists l tas_var a b g, tas_var_exact tas_var /\ proper_hf l /\ thrusting l /\ py_mc_grad_hf tas_var l = Ret (a, b, g) /\
  ~ has_partials (fun ut => misses_hf l (g_rvms l) (g_rvmf l) ut) (hf_ut l) 7 (entry g).
Proof.
  destruct hf_plain_refuted as [l [tas_var [a [b [g [HT [P [Th [E N]]]]]]]]]. exists l, tas_var, a, b, g. split; [exact HT|]. split; [exact P|]. split; [exact Th|]. split; [exact E|].
  intros H. apply N. intros j y Hj Hy i Hi. destruct (H j Hj) as [y' [eps' [Ep' [Hy' D]]]]. specialize (D i Hi).
  destruct Hy as [eps [Ep Hy]]. eapply (is_derive_ext_loc (fun e => nth i (y' e) 0)); [|exact D].
  exists (mkposreal (Rmin eps eps') ltac:(apply Rmin_glb_lt; assumption)). intros e He0. assert (He : Rabs (e + - 0) < Rmin eps eps') by exact He0. rewrite Ropp_0, Rplus_0_r in He.
  pose proof (Rmin_l eps eps'). pose proof (Rmin_r eps eps').
  destruct (Hy e ltac:(lra)) as [z [F ->]]. destruct (Hy' e ltac:(lra)) as [z' [F' ->]]. rewrite (flown_unique _ _ _ _ _ _ _ _ _ _ _ F F'). reflexivity.
Qed.
Lemma flight_near mu veff (u : R -> vec) (x : R -> col7) tof (dx : col7) y0 : veff <> 0 -> (forall rho, 0 < rho -> exists eps, 0 < eps /\ forall e, Rabs e < eps -> d3 (u e) (u 0) < rho) -> u 0 <> vzero ->
  derive7 x 0 dx -> flight mu veff tof (u 0) (x 0) y0 -> exists (y : R -> col7) eps, 0 < eps /\ forall e, Rabs e < eps -> flight mu veff tof (u e) (x e) (y e).
Proof.
  intros Hv HU Nz D Fl. destruct (side_near mu veff Hv (fun _ => tof) 0 (fun e => [u e]) x dx y0) as [y [eps [Ep Hy]]].
  - intros rho Hr. destruct (HU rho Hr) as [eps [Ep He]]. exists eps. split; [exact Ep|]. intros e Ee. constructor; [apply He; exact Ee|constructor].
  - apply der_const.
  - exact D.
  - constructor; [exact Nz|constructor].
  - exists y0. split; [exact Fl|reflexivity].
  - exists y, eps. split; [exact Ep|]. intros e Ee. destruct (Hy e Ee) as [z [F Ez]]. cbn [legs] in Ez. rewrite Ez. exact F.
Qed.
Lemma stark_partials_exist tas_var mu veff x u tof : tas_var_exact tas_var -> veff <> 0 -> length x = 7%nat -> length u = 3%nat -> (exists k, nth k u 0 <> 0) ->
  match py_propagate_var tas_var vars0 mu veff x u tof with
  | Ret (y, A, B) => flies mu veff tof x u y /\ shaped 7 7 A /\ shaped 7 3 B /\
      has_partials (fun x' => flies mu veff tof x' u) x 7 (entry A) /\
      has_partials (fun u' => flies mu veff tof x u') u 7 (entry B)
  | Throw e => e = DomainError
  | UB => False
  end.
Proof.
  intros HT Hv Lx Lu Nu. pose proof (stark_partials tas_var mu veff x u tof HT Hv Lx Lu Nu) as H.
  destruct (py_propagate_var tas_var vars0 mu veff x u tof) as [[[y A] B]|e|]; [|exact H|exact H].
  destruct H as [F [SA [SB [HA HB]]]]. split; [exact F|]. split; [exact SA|]. split; [exact SB|]. destruct F as [s [F _]].
  destruct u as [|ux [|uy [|uz [|? ?]]]]; try discriminate. cbn [nth] in F.
  assert (Un : V ux uy uz <> vzero). { intros U. injection U as -> -> ->. destruct Nu as [k Hk]. apply Hk. do 3 (destruct k as [|k]; [reflexivity|]). destruct k; reflexivity. }
  split; apply partials_from; try assumption; intros j Hj.
  - destruct (flight_near mu veff (fun _ => V ux uy uz) (fun e => col_of (nudge x j e)) tof (col_of (unit 7 j)) s Hv) as [y' [eps [Ep Hy]]].
    + intros rho Hr. exists 1. split; [lra|]. intros e _. unfold d3. rewrite !Rminus_diag_eq, Rabs_R0 by reflexivity. lra.
    + exact Un.
    + apply nudge_col; [exact Lx|lia].
    + cbv beta. rewrite nudge_0 by lia. exact F.
    + exists (fun e => list7 (y' e)), eps. split; [exact Ep|]. intros e He. exists (y' e). split; [apply Hy; exact He|reflexivity].
  - assert (DU : forall k, is_derive (fun e => nth k (nudge [ux; uy; uz] j e) 0) 0 (nth k (unit 3 j) 0)) by (intros k; apply (nudge_derive [ux; uy; uz] j k Hj)).
    destruct (flight_near mu veff (fun e => let n := nudge [ux; uy; uz] j e in V (nth 0 n 0) (nth 1 n 0) (nth 2 n 0)) (fun _ => col_of x) tof (col_of (zeros_ 7)) s Hv) as [y' [eps [Ep Hy]]].
    + intros rho Hr. destruct (fin_min 3 (fun k r => forall e, Rabs e < r -> Rabs (nth k (nudge [ux; uy; uz] j e) 0 - nth k (nudge [ux; uy; uz] j 0) 0) < rho / 3)) as [eps [Ep He]].
      * intros i k k' H L e Hs. apply H. lra.
      * intros k Hk. apply (cont_near (fun e => nth k (nudge [ux; uy; uz] j e) 0) (nth k (unit 3 j) 0)); [apply DU|lra].
      * exists eps. split; [exact Ep|]. intros e Ee. assert (H0 := He 0%nat ltac:(lia) e Ee). assert (H1 := He 1%nat ltac:(lia) e Ee). assert (H2 := He 2%nat ltac:(lia) e Ee). unfold d3. cbv zeta. cbn [vx vy vz]. lra.
    + cbv beta zeta. rewrite nudge_0 by exact Hj. exact Un.
    + apply (col_derive (fun _ => x) (zeros_ 7)). intros k. apply still.
    + cbv beta zeta. rewrite nudge_0 by exact Hj. exact F.
    + exists (fun e => list7 (y' e)), eps. split; [exact Ep|]. intros e He. exists (y' e). split; [apply Hy; exact He|reflexivity].
Qed.
