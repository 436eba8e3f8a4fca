(** * The planet-to-planet problem *)
From Coq Require Import Reals Lra Lia ZArith Bool.
From Coquelicot Require Import Coquelicot.
From Coq Require Import List.
From Verif Require Import Outcome PartialReal RealLib KepSpec Vec3 TwoBodyModel TwoBodySpec TcModel TcSpec TcProofs MgaSpec DynModel KplaModel StmProofs StmMain SfModel SfSpec SfGrad SfMain SfJac DirectModel DirectSpec SparseLib DirectProofs.
Import ListNotations.
Open Scope R_scope.

(** ** Fitness *)
Definition pl_vec (t0 mf : R) (us uf : vec) (th : list R) (tof : R) : list R := [t0; mf; vx us; vy us; vz us; vx uf; vy uf; vz uf] ++ th ++ [tof].
Lemma pl_last t0 mf us uf th tof : py_last (pl_vec t0 mf us uf th tof) = Ret tof. Proof. unfold pl_vec. rewrite app_assoc. apply py_last_app. Qed.
Lemma eta_vec u : V (vx u) (vy u) (vz u) = u. Proof. destruct u. reflexivity. Qed.
Lemma pl_us t0 mf us uf th tof : py_vec (pl_vec t0 mf us uf th tof) 2 = Ret us. Proof. unfold py_vec, pl_vec. cbn [app skipn firstn]. rewrite eta_vec. reflexivity. Qed.
Lemma pl_uf t0 mf us uf th tof : py_vec (pl_vec t0 mf us uf th tof) 5 = Ret uf. Proof. unfold py_vec, pl_vec. cbn [app skipn firstn]. rewrite eta_vec. reflexivity. Qed.
Lemma pl_leg_at P t0 mf us uf th tof s f : (0 < q_nseg P)%nat -> length th = (3 * q_nseg P)%nat -> 0 < tof -> q_ephs P t0 = Ret (Some s) -> q_ephf P (t0 + tof) = Ret (Some f) ->
  pl2pl_leg P (pl_vec t0 mf us uf th tof) = Ret (Some (pl2pl_of P s f mf us uf th tof, s, f)).
Proof.
  intros N L Tf S F. unfold pl2pl_leg. rewrite pl_last, pl_us, pl_uf. cbn [pl_vec app py_get nth_error bind]. rewrite S. cbn [bind]. rewrite F. cbn [bind].
  unfold py_mid. cbn [skipn]. rewrite removelast_last. rewrite (set_leg_ok _ _ _ _ _ _ _ _ _ (q_nseg P) th N L) by lra. reflexivity.
Qed.
Lemma pl_of_proper P s f mf us uf th tof : pl2pl_ok P -> length th = (3 * q_nseg P)%nat -> 0 < mf -> 0 < tof -> proper (pl2pl_of P s f mf us uf th tof).
Proof. intros [N [C [Ms [Mu [T [I _]]]]]] L Mf Tf. apply direct_proper; assumption. Qed.
Lemma vinf_some u w Ve : Ve <> 0 -> vinf_con u w Ve = Some ((dot u u - w ^ 2) / Ve ^ 2).
Proof. intros H. unfold vinf_con, pdiv. destruct (Req_EM_T (Ve * Ve) 0) as [E|_]; [apply Rmult_integral in E; tauto|]. unfold dot. f_equal. f_equal; ring. Qed.
Lemma pl_fitness_cases newton P t0 mf us uf th tof s f y : pl2pl_ok P -> length th = (3 * q_nseg P)%nat -> 0 < tof -> q_ephs P t0 = Ret (Some s) -> q_ephf P (t0 + tof) = Ret (Some f) ->
  compute_mismatch_constraints newton (pl2pl_of P s f mf us uf th tof) = Ret y ->
  pl2pl_fitness newton P (pl_vec t0 mf us uf th tof) = Ret (Some (direct_fitness (q_M P) (q_L P) (q_Vel P) mf y (q_nseg P) th ++ [(dot us us - q_vinfs P ^ 2) / q_Vel P ^ 2; (dot uf uf - q_vinff P ^ 2) / q_Vel P ^ 2])).
Proof.
  intros [N [C [Ms [Mu [T [I [HM [HL HV]]]]]]]] L Tf S F E. unfold pl2pl_fitness. rewrite (pl_leg_at P t0 mf us uf th tof s f N L Tf S F), pl_us, pl_uf.
  cbn [pl_vec app py_get nth_error bind]. rewrite E. cbn [bind]. cbn [pl2pl_of direct_leg s_nseg s_thr]. rewrite (tc_list (q_nseg P) th L). cbn [bind].
  rewrite !vinf_some by exact HV. cbn [obind]. rewrite scale_some by assumption. reflexivity.
Qed.
Theorem pl2pl_fitness_sound newton P z f r : newton_sound newton -> pl2pl_ok P -> pl2pl_value any_arc P z f -> pl2pl_fitness newton P z = Ret r -> r = Some f.
Proof.
  intros NS K [t0 [mf [us [uf [th [tof [s [f' [y [-> [L [Mf [Tf [S [F [Y ->]]]]]]]]]]]]]]]] H. pose proof (pl_of_proper P s f' mf us uf th tof K L Mf Tf) as Pr.
  fold (pl_vec t0 mf us uf th tof) in H.
  destruct (compute_mismatch_constraints newton (pl2pl_of P s f' mf us uf th tof)) as [y'| |] eqn:E.
  - pose proof (mismatch_sound newton _ _ _ NS Pr Y E) as ->. rewrite (pl_fitness_cases newton P _ _ _ _ _ _ _ _ _ K L Tf S F E) in H. injection H as <-. reflexivity.
  - unfold pl2pl_fitness in H. rewrite (pl_leg_at P t0 mf us uf th tof s f' (proj1 K) L Tf S F) in H. cbn [pl_vec app py_get nth_error bind] in H. rewrite E in H. discriminate.
  - unfold pl2pl_fitness in H. rewrite (pl_leg_at P t0 mf us uf th tof s f' (proj1 K) L Tf S F) in H. cbn [pl_vec app py_get nth_error bind] in H. rewrite E in H. discriminate.
Qed.
Theorem pl2pl_fitness_total newton P z f : newton_ok newton -> pl2pl_ok P -> pl2pl_value safe_arc P z f -> pl2pl_fitness newton P z = Ret (Some f).
Proof.
  intros NK K [t0 [mf [us [uf [th [tof [s [f' [y [-> [L [Mf [Tf [S [F [[pf [pb [FE [BE ->]]]] ->]]]]]]]]]]]]]]]]. pose proof (pl_of_proper P s f' mf us uf th tof K L Mf Tf) as Pr.
  destruct (mismatch_total newton _ pf pb NK Pr FE BE) as [E _]. apply (pl_fitness_cases newton P _ _ _ _ _ _ _ _ _ K L Tf S F E).
Qed.

(** ** The rows of A and B *)
Lemma row7_dots m p x k : row 7 m (list7 (p, x)) k = dot_lo m k (fst p) + dot_hi m k (snd p) + mlast 7 m k * x.
Proof. unfold row, list7, dot_lo, dot_hi, mlast. cbn [sum_n fst snd nth Nat.sub]. rewrite Nat.add_0_r. ring. Qed.
Lemma dot_lo_add m k a b : dot_lo m k (vadd a b) = dot_lo m k a + dot_lo m k b. Proof. unfold dot_lo, vadd. cbn [vx vy vz]. ring. Qed.
Lemma dot_hi_add m k a b : dot_hi m k (vadd a b) = dot_hi m k a + dot_hi m k b. Proof. unfold dot_hi, vadd. cbn [vx vy vz]. ring. Qed.
Lemma dot_lo_scal m k a b : dot_lo m k (vscal a b) = a * dot_lo m k b. Proof. unfold dot_lo, vscal. cbn [vx vy vz]. ring. Qed.
Lemma dot_hi_scal m k a b : dot_hi m k (vscal a b) = a * dot_hi m k b. Proof. unfold dot_hi, vscal. cbn [vx vy vz]. ring. Qed.
Lemma dot_lo_sub m k a b : dot_lo m k (vsub a b) = dot_lo m k a - dot_lo m k b. Proof. unfold dot_lo, vsub. cbn [vx vy vz]. ring. Qed.
Lemma dot_hi_sub m k a b : dot_hi m k (vsub a b) = dot_hi m k a - dot_hi m k b. Proof. unfold dot_hi, vsub. cbn [vx vy vz]. ring. Qed.
Definition rate_of (m : list R) (k : nat) (s : state) (mu : R) : R := dot_lo m k (snd s) + dot_hi m k (gravity mu (fst s)).
Lemma kep_rate_of m k s mu r : kep_rate m k s mu = Some r -> r = rate_of m k s mu.
Proof.
  unfold kep_rate, pdiv. destruct (Req_EM_T (norm (fst s) ^ 3) 0) as [E|NE]; cbn [obind]; [discriminate|]. intros [= <-].
  unfold rate_of, gravity. rewrite dot_hi_scal. field. intros Z. apply NE. rewrite Z. ring.
Qed.
Lemma kep_rate_some m k s mu : fst s <> vzero -> kep_rate m k s mu = Some (rate_of m k s mu).
Proof.
  intros NZ. destruct (kep_rate m k s mu) as [r|] eqn:E; [rewrite (kep_rate_of _ _ _ _ _ E); reflexivity|]. exfalso. unfold kep_rate, pdiv in E.
  destruct (Req_EM_T (norm (fst s) ^ 3) 0) as [Z|NE]; cbn [obind] in E; [|discriminate]. apply (pow_nonzero (norm (fst s)) 3) in Z; [exact Z|]. pose proof (norm_pos _ NZ). lra.
Qed.
Lemma kep_rate_nz m k s mu r : kep_rate m k s mu = Some r -> fst s <> vzero.
Proof. intros H Z. unfold kep_rate, pdiv in H. rewrite Z in H. destruct (Req_EM_T (norm vzero ^ 3) 0) as [_|NE]; [discriminate|]. apply NE. rewrite norm_0. ring. Qed.
(** the mass mismatch does not depend on the states *)
Definition slide (s d : state) (e : R) : state := (vadd (fst s) (vscal e (fst d)), vadd (snd s) (vscal e (snd d))).
Lemma slide_0 s d : slide s d 0 = s. Proof. destruct s as [[? ? ?] [? ? ?]]. unfold slide, vadd, vscal. cbn. f_equal; f_equal; ring. Qed.
Lemma vder_slide s d : vderive (fun e => vadd s (vscal e d)) 0 d.
Proof. eapply vder_eq; [apply vder_add; [apply vder_const|apply vder_scal; [apply der_id|apply vder_const]]|]. destruct d. unfold vadd, vscal, vzero. cbn. f_equal; ring. Qed.
Lemma sder_slide s d : sderive (slide s d) 0 d. Proof. split; apply vder_slide. Qed.
Lemma mass_of_leg ok l y : leg_mismatch ok l y -> snd y = fold_left (mf (s_T l * leg_dt l) (s_isp l * G0)) (firstn (Z.to_nat (s_fwd l)) (throttles (Z.to_nat (s_nseg l)) (s_thr l))) (s_ms l)
  - fold_left (mb (s_T l * leg_dt l) (s_isp l * G0)) (rev (skipn (Z.to_nat (s_fwd l)) (throttles (Z.to_nat (s_nseg l)) (s_thr l)))) (s_mf l).
Proof. intros [pf [pb [F [B ->]]]]. unfold forward_end in F. unfold backward_end in B. apply mass_fwd in F. apply mass_bck in B. cbn [snd minus7] in *. rewrite F, B. reflexivity. Qed.
Lemma derive_const_list (l : list R) : derive_list (fun _ => l) 0 (map (fun _ => 0) l).
Proof.
  split; [apply map_length|]. intros j. eapply der_to; [apply der_const|]. symmetry. revert j. induction l as [|x l IH]; intros [|j]; cbn; try reflexivity. apply IH.
Qed.
Lemma is_derive_uniq (f : R -> R) x a b : is_derive f x a -> is_derive f x b -> a = b.
Proof. intros A B. apply is_derive_unique in A. apply is_derive_unique in B. rewrite <- A, <- B. reflexivity. Qed.
Lemma mass_rows ok l y0 A B G : proper l -> mismatch_jacobian ok l y0 A B G -> forall p, row 7 A (list7 (p, 0)) 6 = 0 /\ row 7 B (list7 (p, 0)) 6 = 0.
Proof.
  intros Pr [LA [LB [LG J]]] p. assert (LE : length (s_thr l) = (3 * Z.to_nat (s_nseg l))%nat) by (destruct Pr as [_ [LE _]]; exact LE).
  assert (R0 : row (3 * Z.to_nat (s_nseg l) + 1) G (map (fun _ => 0) (s_thr l) ++ [0]) 6 = 0).
  { rewrite row_mrow by lia. replace (map (fun _ => 0) (s_thr l) ++ [0]) with (map (fun _ : R => 0) (s_thr l ++ [0])) by (rewrite map_app; reflexivity).
    generalize (mrow (3 * Z.to_nat (s_nseg l) + 1) G 6) (s_thr l ++ [0]). intros v u. revert u. induction v as [|x v IH]; intros [|b u]; cbn; try reflexivity. rewrite IH. ring. }
  split.
  - destruct (J (slide (s_rvs l) p) (fun _ => s_ms l) (fun _ => s_thr l) (fun _ => s_rvf l) (fun _ => s_mf l) (fun _ => s_tof l) p 0 (map (fun _ => 0) (s_thr l)) (vzero, vzero) 0 0)
      as [y [eps [E0 [Y0 [Ym Dy]]]]]; try reflexivity; try apply der_const; try apply sder_const; try apply derive_const_list; try (intros e; exact LE); [apply slide_0|apply sder_slide|].
    pose proof (der7 _ _ 6 ltac:(lia) Dy) as D6. rewrite !nth_plus7, !nth_apply7 in D6 by lia. rewrite R0, row_zero in D6.
    assert (C6 : is_derive (fun e => nth 6 (list7 (y e)) 0) 0 0).
    { apply (der_near (fun _ => snd (y 0)) _ 0 eps E0); [|apply der_const]. intros e He. cbn [list7 nth]. rewrite (mass_of_leg _ _ _ (Ym e He)).
      rewrite (mass_of_leg _ _ _ (Ym 0 ltac:(rewrite Rabs_R0; exact E0))). reflexivity. }
    pose proof (is_derive_uniq _ _ _ _ D6 C6). lra.
  - destruct (J (fun _ => s_rvs l) (fun _ => s_ms l) (fun _ => s_thr l) (slide (s_rvf l) p) (fun _ => s_mf l) (fun _ => s_tof l) (vzero, vzero) 0 (map (fun _ => 0) (s_thr l)) p 0 0)
      as [y [eps [E0 [Y0 [Ym Dy]]]]]; try reflexivity; try apply der_const; try apply sder_const; try apply derive_const_list; try (intros e; exact LE); [apply slide_0|apply sder_slide|].
    pose proof (der7 _ _ 6 ltac:(lia) Dy) as D6. rewrite !nth_plus7, !nth_apply7 in D6 by lia. rewrite R0, row_zero in D6.
    assert (C6 : is_derive (fun e => nth 6 (list7 (y e)) 0) 0 0).
    { apply (der_near (fun _ => snd (y 0)) _ 0 eps E0); [|apply der_const]. intros e He. cbn [list7 nth]. rewrite (mass_of_leg _ _ _ (Ym e He)).
      rewrite (mass_of_leg _ _ _ (Ym 0 ltac:(rewrite Rabs_R0; exact E0))). reflexivity. }
    pose proof (is_derive_uniq _ _ _ _ D6 C6). lra.
Qed.

(** ** Gradient *)
Definition pl_nums (A B G : list R) (w : nat) (s f : state) (mu : R) (k : nat) (sc : R) : list R :=
  [(rate_of A k s mu + rate_of B k f mu) / sc / sec2day; mlast 7 B k / sc] ++ map (fun j => nth (7 * k + 3 + j) A 0 / sc) (seq 0 3) ++ map (fun j => nth (7 * k + 3 + j) B 0 / sc) (seq 0 3)
  ++ on_last (fun a => (a + rate_of B k f mu / sc) * day2sec) (map (fun a => a / sc) (mrow w G k)).
Definition pl_mass (B G : list R) (w : nat) (f : state) (mu sc : R) : list R :=
  [mlast 7 B 6 / sc] ++ on_last (fun a => (a + rate_of B 6 f mu / sc) * day2sec) (map (fun a => a / sc) (mrow w G 6)).
Definition pl_block (P : pl2pl) (A B G : list R) (s f : state) (us uf : vec) (th : list R) (i : nat) : block :=
  let n := q_nseg P in
  match i with
  | O => (0%nat, [1%nat], [-1 / q_M P])
  | S k => if Nat.ltb k 6 then (S k, seq 0 (9 + 3 * n), pl_nums A B G (3 * n + 1) s f (q_mu P) k (unit_of (q_M P) (q_L P) (q_Vel P) k))
           else if Nat.eqb k 6 then (S k, 1%nat :: seq 8 (1 + 3 * n), pl_mass B G (3 * n + 1) f (q_mu P) (q_M P))
           else if Nat.ltb k (7 + n) then (S k, [3 * (k - 7) + 8; 3 * (k - 7) + 9; 3 * (k - 7) + 10]%nat, tc_line th (k - 7))
           else if Nat.eqb k (7 + n) then (S k, seq 2 3, map (fun x => x / (q_Vel P * q_Vel P)) [2 * vx us; 2 * vy us; 2 * vz us])
           else (S k, seq 5 3, map (fun x => x / (q_Vel P * q_Vel P)) [2 * vx uf; 2 * vy uf; 2 * vz uf])
  end.
Ltac blk k := match goal with |- pl_block ?P ?A ?B ?G ?s ?f ?us ?uf ?th ?i = _ => change (pl_block P A B G s f us uf th i) with (pl_block P A B G s f us uf th (S k)) end; unfold pl_block; cbv zeta;
  destruct (Nat.ltb_spec k 6) as [Q1|_]; [lia|]; destruct (Nat.eqb_spec k 6) as [Q2|_]; [lia|].
Lemma blk_tc P A B G s f us uf th i : (i < q_nseg P)%nat -> pl_block P A B G s f us uf th (8 + i) = ((8 + i)%nat, [3 * i + 8; 3 * i + 9; 3 * i + 10]%nat, tc_line th i).
Proof. intros I. blk (7 + i)%nat. destruct (Nat.ltb_spec (7 + i) (7 + q_nseg P)) as [_|Q]; [|lia]. replace (7 + i - 7)%nat with i by lia. reflexivity. Qed.
Lemma blk_us P A B G s f us uf th : pl_block P A B G s f us uf th (8 + q_nseg P) = ((8 + q_nseg P)%nat, seq 2 3, map (fun x => x / (q_Vel P * q_Vel P)) [2 * vx us; 2 * vy us; 2 * vz us]).
Proof. blk (7 + q_nseg P)%nat. rewrite Nat.ltb_irrefl, Nat.eqb_refl. reflexivity. Qed.
Lemma blk_uf P A B G s f us uf th : pl_block P A B G s f us uf th (9 + q_nseg P) = ((9 + q_nseg P)%nat, seq 5 3, map (fun x => x / (q_Vel P * q_Vel P)) [2 * vx uf; 2 * vy uf; 2 * vz uf]).
Proof.
  blk (8 + q_nseg P)%nat. destruct (Nat.ltb_spec (8 + q_nseg P) (7 + q_nseg P)) as [Q|_]; [lia|]. destruct (Nat.eqb_spec (8 + q_nseg P) (7 + q_nseg P)) as [Q|_]; [lia|]. reflexivity.
Qed.
Lemma pl_pat P A B G s f us uf th : pl2pl_sparsity P = bpat (map (pl_block P A B G s f us uf th) (seq 0 (8 + q_nseg P + 2))).
Proof.
  rewrite seq_app, map_app, bpat_app, seq_app, map_app, bpat_app. unfold pl2pl_sparsity. cbv zeta. rewrite <- app_assoc. cbn [Nat.add].
  assert (E1 : bpat (map (pl_block P A B G s f us uf th) (seq 8 (q_nseg P))) = flat_map (fun i => [(8 + i, 3 * i + 8); (8 + i, 3 * i + 9); (8 + i, 3 * i + 10)]%nat) (seq 0 (q_nseg P))).
  { unfold bpat. rewrite flat_map_map. apply flat_shift. intros i I. rewrite (blk_tc P A B G s f us uf th i I). reflexivity. }
  assert (E2 : bpat (map (pl_block P A B G s f us uf th) (seq (8 + q_nseg P) 2)) = map (fun j => (8 + q_nseg P, j)%nat) (seq 2 3) ++ map (fun j => (9 + q_nseg P, j)%nat) (seq 5 3)).
  { cbn [seq map]. change (S (8 + q_nseg P)) with (9 + q_nseg P)%nat. rewrite blk_us, blk_uf. unfold bpat. cbn [flat_map bkey bcol fst snd]. rewrite app_nil_r. reflexivity. }
  rewrite E1. change (S (S (S (S (S (S (S (S (q_nseg P))))))))) with (8 + q_nseg P)%nat in *. rewrite E2. rewrite !app_assoc. f_equal. f_equal. f_equal. cbn [Nat.sub]. 
  unfold bpat. change (seq 0 8) with [0; 1; 2; 3; 4; 5; 6; 7]%nat. cbn [map flat_map pl_block bkey bcol fst snd Nat.ltb Nat.leb Nat.eqb seq]. rewrite ?app_nil_r, <- ?app_assoc. reflexivity.
Qed.

Lemma pl_val P A B G s f us uf th : q_M P <> 0 -> q_L P <> 0 -> q_Vel P <> 0 -> fst s <> vzero -> fst f <> vzero -> let n := q_nseg P in let w := (3 * n + 1)%nat in
  pconcat ([pdivs [-1] (q_M P)] ++ map (fun i => pl2pl_line A B G w s f (q_mu P) i (q_L P)) (seq 0 3) ++ map (fun i => pl2pl_line A B G w s f (q_mu P) i (q_Vel P)) (seq 3 3)
           ++ [pl2pl_mass B G w f (q_mu P) (q_M P)] ++ [Some (flat_map (tc_line th) (seq 0 n))]
           ++ [pdivs [2 * vx us; 2 * vy us; 2 * vz us; 2 * vx uf; 2 * vy uf; 2 * vz uf] (q_Vel P * q_Vel P)])
  = Some (bval (map (pl_block P A B G s f us uf th) (seq 0 (8 + n + 2)))).
Proof.
  intros HM HL HV Zs Zf n w.
  assert (HV2 : q_Vel P * q_Vel P <> 0) by (intros E; apply Rmult_integral in E; tauto).
  assert (LE : forall k sc, sc <> 0 -> pl2pl_line A B G w s f (q_mu P) k sc = Some (pl_nums A B G w s f (q_mu P) k sc)).
  { intros k sc Sc. unfold pl2pl_line. rewrite !kep_rate_some by assumption. cbn [obind]. destruct (Req_EM_T sc 0); [contradiction|]. reflexivity. }
  assert (ME : pl2pl_mass B G w f (q_mu P) (q_M P) = Some (pl_mass B G w f (q_mu P) (q_M P))).
  { unfold pl2pl_mass. rewrite !kep_rate_some by assumption. cbn [obind]. destruct (Req_EM_T (q_M P) 0); [contradiction|]. reflexivity. }
  cbn [seq map app]. rewrite !LE, ME, !pdivs_some by assumption. cbn [pconcat obind]. f_equal.
  rewrite seq_app, map_app, bval_app, seq_app, map_app, bval_app. cbn [Nat.add]. change (S (S (S (S (S (S (S (S n)))))))) with (8 + n)%nat.
  assert (E1 : bval (map (pl_block P A B G s f us uf th) (seq 8 n)) = flat_map (tc_line th) (seq 0 n)).
  { unfold bval. rewrite flat_map_map. apply flat_shift. intros i I. rewrite (blk_tc P A B G s f us uf th i I). reflexivity. }
  assert (E2 : bval (map (pl_block P A B G s f us uf th) (seq (8 + n) 2)) = map (fun x => x / (q_Vel P * q_Vel P)) [2 * vx us; 2 * vy us; 2 * vz us] ++ map (fun x => x / (q_Vel P * q_Vel P)) [2 * vx uf; 2 * vy uf; 2 * vz uf]).
  { cbn [seq map]. change (S (8 + n)) with (9 + q_nseg P)%nat. unfold n. rewrite blk_us, blk_uf. unfold bval. cbn [flat_map bnum fst snd]. rewrite app_nil_r. reflexivity. }
  rewrite E1, E2, app_nil_r. rewrite <- !app_assoc.
  change (seq 0 8) with [0; 1; 2; 3; 4; 5; 6; 7]%nat. unfold bval. cbn [map flat_map]. rewrite <- !app_assoc. reflexivity.
Qed.
Lemma pl_gradient_cases newton P t0 mf us uf th tof s f o : pl2pl_ok P -> length th = (3 * q_nseg P)%nat -> 0 < tof -> q_ephs P t0 = Ret (Some s) -> q_ephf P (t0 + tof) = Ret (Some f) ->
  compute_mc_grad newton (pl2pl_of P s f mf us uf th tof) = Ret o -> fst s <> vzero -> fst f <> vzero ->
  pl2pl_gradient newton P (pl_vec t0 mf us uf th tof) = Ret (match o with None => None | Some (A, B, G) => Some (bval (map (pl_block P A B G s f us uf th) (seq 0 (8 + q_nseg P + 2)))) end).
Proof.
  intros [N [C [Ms [Mu [T [I [HM [HL HV]]]]]]]] L Tf S F E Zs Zf. unfold pl2pl_gradient. rewrite (pl_leg_at P t0 mf us uf th tof s f N L Tf S F), pl_us, pl_uf. cbn [bind]. rewrite E. cbn [bind].
  destruct (tc_rows_list (q_nseg P) th L) as [t [Et Rw]]. cbn [pl2pl_of direct_leg s_nseg s_thr s_mu]. rewrite Et, Nat2Z.id. cbn [bind]. rewrite (Rw (q_nseg P) 0%nat) by lia. cbn [bind].
  destruct o as [[[A B] G]|]; [|reflexivity]. rewrite (pl_val P A B G s f us uf th HM HL HV Zs Zf). reflexivity.
Qed.
Lemma pl_gradient_some newton P t0 mf us uf th tof s f g : pl2pl_ok P -> length th = (3 * q_nseg P)%nat -> 0 < tof -> q_ephs P t0 = Ret (Some s) -> q_ephf P (t0 + tof) = Ret (Some f) ->
  pl2pl_gradient newton P (pl_vec t0 mf us uf th tof) = Ret (Some g) -> fst s <> vzero /\ fst f <> vzero /\ exists A B G, compute_mc_grad newton (pl2pl_of P s f mf us uf th tof) = Ret (Some (A, B, G)).
Proof.
  intros [N [C [Ms [Mu [T [I [HM [HL HV]]]]]]]] L Tf S F H. unfold pl2pl_gradient in H. rewrite (pl_leg_at P t0 mf us uf th tof s f N L Tf S F), pl_us, pl_uf in H. cbn [bind] in H.
  destruct (compute_mc_grad newton (pl2pl_of P s f mf us uf th tof)) as [[[[A B] G]|]| |] eqn:E; cbn [bind] in H; try discriminate.
  2:{ destruct (compute_tc_grad _ _); cbn [bind] in H; try discriminate. destruct (tc_rows _ _ _ _); discriminate. }
  destruct (compute_tc_grad _ _); cbn [bind] in H; try discriminate. destruct (tc_rows _ _ _ _); cbn [bind] in H; try discriminate.
  cbn [seq map app] in H. rewrite (pdivs_some _ _ HM) in H. cbn [pconcat obind] in H. unfold pl2pl_line in H at 1.
  destruct (kep_rate A 0 s (s_mu (pl2pl_of P s f mf us uf th tof))) as [ks|] eqn:K1; cbn [obind] in H; [|discriminate].
  destruct (kep_rate B 0 f (s_mu (pl2pl_of P s f mf us uf th tof))) as [kf|] eqn:K2; cbn [obind] in H; [|discriminate].
  split; [apply (kep_rate_nz _ _ _ _ _ K1)|]. split; [apply (kep_rate_nz _ _ _ _ _ K2)|]. exists A, B, G. reflexivity.
Qed.
(** along a curve, with what the planets really do *)
Definition nv (k : nat) (l : list R) : vec := V (nth k l 0) (nth (S k) l 0) (nth (S (S k)) l 0).
Definition off (mu : R) (dS : state) (h : R) (s : state) : state := (vsub (fst dS) (vscal (86400 * h) (snd s)), vsub (snd dS) (vscal (86400 * h) (gravity mu (fst s)))).
Definition pl_corr (P : pl2pl) (A B : list R) (x y : state) (i : nat) : R :=
  match i with O => 0 | S k => if Nat.ltb k 6 then (row 7 A (list7 (x, 0)) k + row 7 B (list7 (y, 0)) k) / unit_of (q_M P) (q_L P) (q_Vel P) k else 0 end.
Lemma first8 (l : list R) : (8 <= length l)%nat -> firstn 8 l = [nth 0 l 0; nth 1 l 0; nth 2 l 0; nth 3 l 0; nth 4 l 0; nth 5 l 0; nth 6 l 0; nth 7 l 0].
Proof. intros L. do 8 (destruct l as [|? l]; [cbn in L; lia|]). reflexivity. Qed.
Lemma pl_parts m (l : list R) : length l = (8 + m + 1)%nat -> l = pl_vec (nth 0 l 0) (nth 1 l 0) (nv 2 l) (nv 5 l) (firstn m (skipn 8 l)) (nth (8 + m) l 0).
Proof. intros L. rewrite (parts 8 m l L) at 1. rewrite first8 by lia. reflexivity. Qed.
Lemma der_nv k c d : derive_list c 0 d -> vderive (fun e => nv k (c e)) 0 (nv k d).
Proof. intros [_ D]. split; [apply (D k)|split; [apply (D (S k))|apply (D (S (S k)))]]. Qed.
Lemma pl_dots A B G w s f mu k sc dt0 dmf dus duf dth dt : (w * k + w <= length G)%nat -> w = (length dth + 1)%nat ->
  dots (pl_nums A B G w s f mu k sc) (pl_vec dt0 dmf dus duf dth dt)
  = (rate_of A k s mu * (86400 * dt0) + rate_of B k f mu * (86400 * (dt0 + dt)) + mlast 7 B k * dmf + dot_hi A k dus + dot_hi B k duf + row w G (dth ++ [dt * 86400]) k) / sc.
Proof.
  intros LG W. rewrite row_mrow by exact LG. unfold pl_nums, pl_vec. assert (Lm : length (mrow w G k) = (length dth + 1)%nat) by (rewrite mrow_len by exact LG; exact W).
  destruct (snoc_of _ _ Lm) as [r [a [-> Lr]]]. rewrite map_app. change (map (fun x => x / sc) [a]) with [a / sc]. rewrite on_last_app.
  cbn [seq map app dots]. rewrite !dots_app by (rewrite ?map_length; exact Lr). rewrite dots_map_div. cbn [dots]. unfold day2sec, sec2day, dot_hi, Rdiv. rewrite !Nat.add_0_r.
  replace (7 * k + 3 + 1)%nat with (7 * k + 4)%nat by lia. replace (7 * k + 3 + 2)%nat with (7 * k + 5)%nat by lia. rewrite Rinv_mult, Rinv_inv, Rinv_1. ring.
Qed.
Lemma mass_dots B G w f mu sc dmf dth dt : (w * 6 + w <= length G)%nat -> w = (length dth + 1)%nat ->
  dots (pl_mass B G w f mu sc) (dmf :: dth ++ [dt]) = (rate_of B 6 f mu * (86400 * dt) + mlast 7 B 6 * dmf + row w G (dth ++ [dt * 86400]) 6) / sc.
Proof.
  intros LG W. rewrite row_mrow by exact LG. unfold pl_mass. assert (Lm : length (mrow w G 6) = (length dth + 1)%nat) by (rewrite mrow_len by exact LG; exact W).
  destruct (snoc_of _ _ Lm) as [r [a [-> Lr]]]. rewrite map_app. change (map (fun x => x / sc) [a]) with [a / sc]. rewrite on_last_app.
  cbn [app dots]. rewrite !dots_app by (rewrite ?map_length; exact Lr). rewrite dots_map_div. cbn [dots]. unfold day2sec, Rdiv. ring.
Qed.
Lemma fit_app M L Ve mf y n th t i : nth (8 + n + i) (direct_fitness M L Ve mf y n th ++ t) 0 = nth i t 0.
Proof. rewrite app_nth2; rewrite fit_len; [|lia]. f_equal. lia. Qed.
Lemma vinf_der (u : R -> vec) d w Ve : vderive u 0 d -> Ve <> 0 -> is_derive (fun e => (dot (u e) (u e) - w ^ 2) / Ve ^ 2) 0 (2 * dot (u 0) d / (Ve * Ve)).
Proof.
  intros D H. pose proof (der_dot _ _ _ _ _ D D) as E. pose proof (der_minus _ _ _ _ _ E (der_const (w ^ 2) 0)) as E1. pose proof (der_mult _ _ _ _ _ E1 (der_const (/ Ve ^ 2) 0)) as E2. cbv beta in E2.
  unfold Rdiv. eapply der_to; [exact E2|]. unfold dot. field. exact H.
Qed.
Section Core.
Variables (newton : (R -> R * R) -> R -> R -> R -> option R) (P : pl2pl) (t0 mf : R) (us uf : vec) (th : list R) (tof : R) (s f : state) (y0 : col7) (A B G : list R).
Hypotheses (NS : newton_sound newton) (K : pl2pl_ok P) (L : length th = (3 * q_nseg P)%nat) (Mf : 0 < mf) (Tf : 0 < tof).
Let leg := pl2pl_of P s f mf us uf th tof.
Let n := q_nseg P.
Hypotheses (Y : leg_mismatch (any_arc leg) leg y0) (GR : compute_mc_grad newton leg = Ret (Some (A, B, G))).
Let z := pl_vec t0 mf us uf th tof.
Let f0 := direct_fitness (q_M P) (q_L P) (q_Vel P) mf y0 n th ++ [(dot us us - q_vinfs P ^ 2) / q_Vel P ^ 2; (dot uf uf - q_vinff P ^ 2) / q_Vel P ^ 2].
Let mk := pl_block P A B G s f us uf th.
Lemma pl_f0_len : length f0 = (8 + n + 2)%nat. Proof. unfold f0. rewrite app_length, fit_len. reflexivity. Qed.
Lemma pl_z_len : length z = (8 + 3 * n + 1)%nat. Proof using L. clear -L. unfold z, pl_vec. rewrite !app_length, L. cbn [length]. unfold n. lia. Qed.
Lemma pl_grad_len : length G = (7 * (3 * n + 1))%nat.
Proof. destruct (grad_jacobian newton _ _ _ _ _ NS (pl_of_proper P s f mf us uf th tof K L Mf Tf) Y GR) as [_ [_ [LG _]]]. cbn [pl2pl_of direct_leg s_nseg] in LG. rewrite Nat2Z.id in LG. exact LG. Qed.
Lemma pl_blocks k : (k < 8 + n + 2)%nat -> bkey (mk k) = k /\ bfit (mk k) /\ NoDup (bcol (mk k)) /\ forall j, In j (bcol (mk k)) -> (j < length z)%nat.
Proof.
  pose proof pl_grad_len as LG. rewrite pl_z_len. destruct k as [|k]; intros Hk; unfold mk, pl_block.
  - cbn [bkey bcol bnum fst snd]. split; [reflexivity|]. split; [reflexivity|]. split; [repeat constructor; intros []|]. intros j [<-|[]]. lia.
  - fold n. cbv zeta. destruct (Nat.ltb_spec k 6) as [K6|K6]; [|destruct (Nat.eqb_spec k 6) as [E6|K7]; [|destruct (Nat.ltb_spec k (7 + n)) as [K8|K8]; [|destruct (Nat.eqb_spec k (7 + n)) as [K9|K9]]]];
      cbn [bkey bcol bnum fst snd]; (split; [reflexivity|]).
    + split; [|split; [apply seq_NoDup|intros j Q; apply in_seq in Q; lia]].
      unfold bfit, bcol, bnum, pl_nums. cbn [fst snd]. rewrite !app_length, on_last_len, !map_length, !seq_length. cbn [length]. rewrite mrow_len by nia. lia.
    + split; [|split; [constructor; [rewrite in_seq; lia|apply seq_NoDup]|intros j [<-|Q]; [lia|apply in_seq in Q; lia]]].
      unfold bfit, bcol, bnum, pl_mass. cbn [fst snd]. cbn [length]. rewrite app_length, on_last_len, !map_length, !seq_length. cbn [length]. rewrite mrow_len by nia. lia.
    + split; [reflexivity|]. split; [repeat constructor; cbn [In]; lia|]. intros j [<-|[<-|[<-|[]]]]; lia.
    + split; [reflexivity|]. split; [apply seq_NoDup|]. intros j Q. apply in_seq in Q. lia.
    + split; [reflexivity|]. split; [apply seq_NoDup|]. intros j Q. apply in_seq in Q. lia.
Qed.
Lemma pl_core c d cs cf dS dF : c 0 = z -> (forall e, length (c e) = length z) -> derive_list c 0 d -> cs 0 = s -> cf 0 = f -> sderive cs 0 dS -> sderive cf 0 dF ->
  near (fun e => q_ephs P (nth 0 (c e) 0) = Ret (Some (cs e))) -> near (fun e => q_ephf P (nth 0 (c e) 0 + nth (8 + 3 * n) (c e) 0) = Ret (Some (cf e))) ->
  exists F eps, 0 < eps /\ F 0 = f0 /\ (forall e, Rabs e < eps -> pl2pl_value any_arc P (c e) (F e)) /\
  forall i, (i < 8 + n + 2)%nat -> is_derive (fun e => nth i (F e) 0) 0
    (dots (bnum (mk i)) (pick d (bcol (mk i))) + pl_corr P A B (off (q_mu P) dS (nth 0 d 0) s) (off (q_mu P) dF (nth 0 d 0 + nth (8 + 3 * n) d 0) f) i).
Proof.
  intros C0 Lc D S0 F0 DS DF NrS NrF. pose proof (pl_of_proper P s f mf us uf th tof K L Mf Tf) as Pr. fold leg in Pr.
  pose proof (grad_jacobian newton _ _ _ _ _ NS Pr Y GR) as JJ. pose proof (mass_rows _ _ _ _ _ _ Pr JJ) as MR. destruct JJ as [LA [LB [LG J]]]. clear LG. pose proof pl_grad_len as LG.
  pose proof pl_z_len as Lz.
  unfold leg in J. cbn [pl2pl_of direct_leg s_nseg s_thr s_mu s_rvs s_ms s_rvf s_mf s_tof] in J. rewrite Nat2Z.id in J. fold n in J.
  destruct (curve_parts 8 (3 * n) c d z C0 Lc Lz D) as [_ [Lth [Dth [Dtof [_ Ld]]]]].
  destruct (parts_at 8 (3 * n) [t0; mf; vx us; vy us; vz us; vx uf; vy uf; vz uf] th tof z eq_refl eq_refl L) as [_ [Zth Ztof]].
  pose proof (proj2 D 1%nat) as Dmf. pose proof (der_nv 2 _ _ D) as Dus. pose proof (der_nv 5 _ _ D) as Duf.
  assert (Zus : nv 2 z = us) by (unfold z, pl_vec, nv; cbn [app nth]; apply eta_vec). assert (Zuf : nv 5 z = uf) by (unfold z, pl_vec, nv; cbn [app nth]; apply eta_vec).
  destruct (J (fun e => (fst (cs e), vadd (snd (cs e)) (nv 2 (c e)))) (fun _ => q_ms P) (fun e => firstn (3 * n) (skipn 8 (c e))) (fun e => (fst (cf e), vadd (snd (cf e)) (nv 5 (c e))))
              (fun e => nth 1 (c e) 0) (fun e => nth (8 + 3 * n) (c e) 0 * 86400)
              (fst dS, vadd (snd dS) (nv 2 d)) 0 (firstn (3 * n) (skipn 8 d)) (fst dF, vadd (snd dF) (nv 5 d)) (nth 1 d 0) (nth (8 + 3 * n) d 0 * 86400)) as [y [eps [E0 [Y0 [Ym Dy]]]]].
  { rewrite C0, S0, Zus. reflexivity. }
  { reflexivity. }
  { rewrite C0. exact Zth. }
  { rewrite C0, F0, Zuf. reflexivity. }
  { rewrite C0. reflexivity. }
  { rewrite C0, Ztof. reflexivity. }
  { destruct DS as [DS1 DS2]. split; cbn [fst snd]; [exact DS1|apply vder_add; [exact DS2|exact Dus]]. }
  { apply der_const. } { exact Lth. } { exact Dth. }
  { destruct DF as [DF1 DF2]. split; cbn [fst snd]; [exact DF1|apply vder_add; [exact DF2|exact Duf]]. }
  { exact Dmf. }
  { pose proof (der_mult _ _ _ _ _ Dtof (der_const 86400 0)) as Q. cbv beta in Q. eapply der_to; [exact Q|]. ring. }
  assert (M1 : near (fun e => 0 < nth 1 (c e) 0)) by (apply (near_gt _ _ 0 Dmf); rewrite C0; exact Mf).
  assert (M2 : near (fun e => 0 < nth (8 + 3 * n) (c e) 0)) by (apply (near_gt _ _ 0 Dtof); rewrite C0, Ztof; exact Tf).
  destruct (near_and _ _ (near_and _ _ M1 M2) (near_and _ _ NrS NrF)) as [e1 [E1 NN]].
  exists (fun e => direct_fitness (q_M P) (q_L P) (q_Vel P) (nth 1 (c e) 0) (y e) n (firstn (3 * n) (skipn 8 (c e)))
            ++ [(dot (nv 2 (c e)) (nv 2 (c e)) - q_vinfs P ^ 2) / q_Vel P ^ 2; (dot (nv 5 (c e)) (nv 5 (c e)) - q_vinff P ^ 2) / q_Vel P ^ 2]), (Rmin eps e1).
  split; [apply Rmin_glb_lt; assumption|]. split; [rewrite C0, Zth, Y0, Zus, Zuf; reflexivity|]. destruct K as [N [Cu [Ms [Mu [T [I [HM [HL HV]]]]]]]]. split.
  - intros e He. pose proof (Rmin_l eps e1). pose proof (Rmin_r eps e1). destruct (NN e ltac:(lra)) as [[N1 N2] [N3 N4]].
    exists (nth 0 (c e) 0), (nth 1 (c e) 0), (nv 2 (c e)), (nv 5 (c e)), (firstn (3 * n) (skipn 8 (c e))), (nth (8 + 3 * n) (c e) 0), (cs e), (cf e), (y e).
    split; [apply pl_parts; rewrite Lc; exact Lz|]. split; [apply Lth|]. split; [exact N1|]. split; [exact N2|]. split; [exact N3|]. split; [exact N4|]. split; [|reflexivity].
    apply (Ym e). lra.
  - intros i Hi. assert (Ldt : length (firstn (3 * n) (skipn 8 d)) = (3 * n)%nat) by (rewrite firstn_length, skipn_length; lia).
    pose proof (pl_parts (3 * n) d Ld) as Pd.
    destruct i as [|k]; [|unfold mk, pl_block, pl_corr; fold n; cbv zeta; destruct (Nat.ltb_spec k 6) as [K6|K6]; [|destruct (Nat.eqb_spec k 6) as [E6|K7]; [|destruct (Nat.ltb_spec k (7 + n)) as [K8|K8]; [|destruct (Nat.eqb_spec k (7 + n)) as [K9|K9]]]]].
    + cbn [mk pl_block bcol bnum fst snd pick map dots direct_fitness app nth pl_corr]. unfold Rdiv.
      pose proof (der_mult _ _ _ _ _ (der_opp _ _ _ Dmf) (der_const (/ q_M P) 0)) as Q. cbv beta in Q. eapply der_to; [exact Q|]. ring.
    + cbn [bcol bnum fst snd]. rewrite pick_seq by lia. cbn [skipn]. rewrite firstn_all2 by lia.
      eapply der_ext; [intros e; symmetry; apply fit_mis; lia|].
      eapply der_to; [apply (mis_der y A B G _ _ _ _ _ k ltac:(lia) Dy)|].
      match goal with |- _ = dots ?v d + _ => transitivity (dots v (pl_vec (nth 0 d 0) (nth 1 d 0) (nv 2 d) (nv 5 d) (firstn (3 * n) (skipn 8 d)) (nth (8 + 3 * n) d 0)) + (row 7 A (list7 (off (q_mu P) dS (nth 0 d 0) s, 0)) k + row 7 B (list7 (off (q_mu P) dF (nth 0 d 0 + nth (8 + 3 * n) d 0) f, 0)) k) / unit_of (q_M P) (q_L P) (q_Vel P) k); [|rewrite <- Pd; reflexivity] end.
      rewrite pl_dots by nia. rewrite !row7_dots. unfold off, rate_of. cbn [fst snd]. rewrite !dot_lo_sub, !dot_hi_sub, !dot_hi_add, !dot_lo_scal, !dot_hi_scal. unfold Rdiv. ring.
    + subst k. cbn [bcol bnum fst snd]. change (pick d (1%nat :: seq 8 (1 + 3 * n))) with (nth 1 d 0 :: pick d (seq 8 (1 + 3 * n))). rewrite pick_seq by lia.
      assert (Ed : firstn (1 + 3 * n) (skipn 8 d) = firstn (3 * n) (skipn 8 d) ++ [nth (8 + 3 * n) d 0]).
      { replace (1 + 3 * n)%nat with (S (3 * n)) by lia. rewrite (firstn_S_app 0) by (rewrite skipn_length; lia). rewrite nth_skipn0. reflexivity. }
      rewrite Ed, mass_dots by nia.
      eapply der_ext; [intros e; symmetry; apply fit_mis; lia|].
      eapply der_to; [apply (mis_der y A B G _ _ _ _ _ 6 ltac:(lia) Dy)|]. rewrite !row7_dots.
      destruct (MR (fst dS, vadd (snd dS) (nv 2 d))) as [R1 _]. destruct (MR (fst dF, vadd (snd dF) (nv 5 d))) as [_ R2]. destruct (MR (snd f, gravity (q_mu P) (fst f))) as [_ R3].
      rewrite row7_dots in R1, R2, R3. cbn [fst snd] in *. change (unit_of (q_M P) (q_L P) (q_Vel P) 6) with (q_M P).
      assert (Q1 : dot_lo A 6 (fst dS) + dot_hi A 6 (vadd (snd dS) (nv 2 d)) = 0) by lra. assert (Q2 : dot_lo B 6 (fst dF) + dot_hi B 6 (vadd (snd dF) (nv 5 d)) = 0) by lra.
      assert (Q3 : rate_of B 6 f (q_mu P) = 0) by (unfold rate_of; lra). rewrite Q1, Q2, Q3. unfold Rdiv. ring.
    + cbn [bcol bnum fst snd pick map]. replace (S k) with (8 + (k - 7))%nat by lia.
      eapply der_ext; [intros e; symmetry; apply fit_tc; lia|].
      eapply der_to; [apply (tc_der _ _ (k - 7) Dth)|]. rewrite C0, Zth. rewrite !nth_mid by lia. unfold tc_line. cbn [dots].
      replace (8 + 3 * (k - 7))%nat with (3 * (k - 7) + 8)%nat by lia. replace (8 + (3 * (k - 7) + 1))%nat with (3 * (k - 7) + 9)%nat by lia.
      replace (8 + (3 * (k - 7) + 2))%nat with (3 * (k - 7) + 10)%nat by lia. ring.
    + cbn [bcol bnum fst snd]. replace (S k) with (8 + n + 0)%nat by lia. eapply der_ext; [intros e; symmetry; rewrite fit_app; cbn [nth]; reflexivity|].
      eapply der_to; [apply (vinf_der _ _ _ _ Dus HV)|]. rewrite C0, Zus. unfold dot, nv. cbn [vx vy vz seq pick map dots]. unfold Rdiv. ring.
    + cbn [bcol bnum fst snd]. replace (S k) with (8 + n + 1)%nat by lia. eapply der_ext; [intros e; symmetry; rewrite fit_app; cbn [nth]; reflexivity|].
      eapply der_to; [apply (vinf_der _ _ _ _ Duf HV)|]. rewrite C0, Zuf. unfold dot, nv. cbn [vx vy vz seq pick map dots]. unfold Rdiv. ring.
Qed.
End Core.
