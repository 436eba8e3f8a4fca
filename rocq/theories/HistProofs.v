(** * The state history of the high-fidelity leg *)
From Coq Require Import ZArith Reals Lra List Bool Lia ZifyBool ZifyNat.
From Flocq Require Import Core.Core IEEE754.BinarySingleNaN.
From Verif Require Import Outcome StateMonad Float64 Float64Facts LegModel LegSpec LegProofs HfModel HfSpec HfProofs HistModel HistSpec.
Import ListNotations.
Open Scope Z_scope.
Ltac Zify.zify_post_hook ::= Z.div_mod_to_equations.

Lemma put_mid a y b (x : list double) i : i = Z.of_nat (length a) -> put (a ++ y :: b) i x = Ret (a ++ x :: b).
Proof.
  intros ->. unfold put, lenZ. rewrite app_length. cbn [length].
  rewrite (proj2 (Z.leb_le 0 _)), (proj2 (Z.ltb_lt _ _)) by lia. cbn [andb]. rewrite Nat2Z.id. f_equal.
  rewrite firstn_app, Nat.sub_diag, firstn_all. cbn [firstn]. rewrite app_nil_r. f_equal. f_equal.
  rewrite skipn_app, skipn_all2 by lia. replace (S (length a) - length a)%nat with 1%nat by lia. reflexivity.
Qed.

Lemma copy_into_full g src : lenZ src = g -> copy_into g src = Ret src.
Proof.
  intros H. unfold copy_into. rewrite H, Z.leb_refl, Z.sub_diag. cbn [Z.to_nat repeat]. rewrite app_nil_r. reflexivity.
Qed.

Lemma grid_points_length k : forall t s, length (grid_points k t s) = k.
Proof. induction k; intros; cbn [grid_points length]; [reflexivity|]. rewrite IHk. reflexivity. Qed.

Lemma grid_points_step k : forall t s j, (j < k)%nat ->
  nth j (grid_points k t s) dzero = dadd (nth j (t :: grid_points k t s) dzero) s.
Proof.
  induction k as [|k IH]; intros t s j Hj; [lia|]. destruct j as [|j]; [reflexivity|].
  cbn [grid_points nth]. rewrite IH by lia. reflexivity.
Qed.

Lemma time_grid_length l g : 0 <= g * hf_n l - 2 < 2 ^ 32 -> lenZ (time_grid l g) = g * hf_n l - 1.
Proof.
  intros H. unfold time_grid, lenZ. cbv zeta. cbn [length]. rewrite grid_points_length. unfold wrap32.
  rewrite Z.mod_small by lia. lia.
Qed.

Lemma time_grid_nth l g k : 0 <= g * hf_n l - 2 < 2 ^ 32 -> 1 <= g < 2 ^ 32 -> (Z.of_nat k < g * hf_n l - 2) ->
  nth 0 (time_grid l g) dzero = dzero /\
  nth (S k) (time_grid l g) dzero
  = dadd (nth k (time_grid l g) dzero) (ddiv (ddiv (hf_tof l) (d_of_Z (hf_n l))) (d_of_Z (g - 1))).
Proof.
  intros H Hg Hk. split; [reflexivity|]. unfold time_grid. cbv zeta. unfold wrap32. rewrite !Z.mod_small by lia.
  cbn [nth]. rewrite grid_points_step by lia. reflexivity.
Qed.

Lemma seg_times_length tg g i : 0 <= i -> 1 <= g -> (i + 1) * (g - 1) + 1 <= lenZ tg -> lenZ (seg_times tg g i) = g.
Proof.
  intros Hi Hg H. unfold seg_times, lenZ in *. rewrite firstn_length, skipn_length.
  assert (0 <= i * (g - 1)) by nia. nia.
Qed.

Lemma seg_times_slice tg g i : 0 <= i -> 1 <= g -> (i + 1) * (g - 1) + 1 <= lenZ tg ->
  slice tg (i * (g - 1)) ((i + 1) * (g - 1) + 1) = Ret (seg_times tg g i).
Proof.
  intros Hi Hg H. rewrite slice_ok; [| nia | exact H].
  unfold sub_range, seg_times. f_equal. f_equal. f_equal. nia.
Qed.

Section Loops.
Variable ig : double -> list double -> list double -> double -> list double -> bool * list double * list double * double.
Hypothesis Hdim : grid_dim ig.
Variables (tol : double) (p : list double).
Hypothesis Hp : length p = 2%nat.

Definition seg_hist (u gr : list double) (l : hfleg) (k : list double -> sm hfleg (list (list double))) : hfleg * outcome (list (list double)) :=
  let '(ok, out, x', t') := ig tol (p ++ u) (ta_state (hf_tas l)) (hd dzero gr) gr in
  let l2 := h_tas (mk_ta tol (p ++ u) x' t') l in
  if ok then k out l2 else (l2, Throw DomainError).

Lemma hist_fwd_step k i g tg out l u gr :
  slice (hf_thrusts l) (wrap32 (i * 3)) (wrap32 (3 * (i + 1))) = Ret u -> length u = 3%nat ->
  slice tg (wrap32 (i * (g - 1))) (wrap32 ((i + 1) * (g - 1) + 1)) = Ret gr -> lenZ gr = g -> 1 <= g ->
  good tol p (hf_tas l) ->
  hist_fwd ig (S k) i g tg out l
  = seg_hist u gr l (fun st => sbind (slift (put out i st)) (fun o => hist_fwd ig k (i + 1) g tg o)).
Proof.
  intros Sl L3 Sg Lg Hg G. cbn [hist_fwd]. unfold sbind at 1. rewrite Sl.
  destruct (good_pars tol p Hp u (hf_tas l) L3 G) as [[G1 _] P1].
  unfold sbind at 1, tas_upd at 1, smodify at 1.
  unfold sbind at 1, slift at 1. rewrite Sg.
  unfold sbind at 1, slift at 1. rewrite (copy_into_full g gr Lg).
  unfold sbind at 1, slift at 1.
  destruct gr as [|t0 gr]; [cbn in Lg; lia|]. cbn [at0].
  unfold sbind at 1, tas_upd at 1, smodify at 1.
  unfold sbind at 1, tas_propagate_grid at 1. cbn [h_tas hf_tas].
  cbn [ta_set_time ta_tol ta_pars ta_state ta_time].
  unfold seg_hist. cbn [hd].
  replace (ta_tol (ta_set_pars 2 u (hf_tas l))) with tol by (symmetry; exact G1).
  replace (ta_pars (ta_set_pars 2 u (hf_tas l))) with (p ++ u) by (symmetry; exact P1).
  change (ta_state (ta_set_pars 2 u (hf_tas l))) with (ta_state (hf_tas l)).
  destruct (ig tol (p ++ u) (ta_state (hf_tas l)) t0 (t0 :: gr)) as [[[[|] o] x'] t']; reflexivity.
Qed.

Lemma hist_bck_step k i g tg out l u gr :
  slice (hf_thrusts l) (wrap32 ((hf_n l - (i + 1)) * 3)) (wrap32 ((hf_n l - i) * 3)) = Ret u -> length u = 3%nat ->
  slice tg (wrap32 ((hf_n l - (i + 1)) * (g - 1))) (wrap32 ((hf_n l - i) * (g - 1) + 1)) = Ret gr -> lenZ gr = g -> 1 <= g ->
  good tol p (hf_tas l) ->
  hist_bck ig (S k) i g tg out l
  = seg_hist u (rev gr) l (fun st => sbind (fun l => (l, put out (wrap32 (hf_n l - 1 - i)) st)) (fun o => hist_bck ig k (i + 1) g tg o)).
Proof.
  intros Sl L3 Sg Lg Hg G. cbn [hist_bck]. unfold sbind at 1. rewrite Sl.
  destruct (good_pars tol p Hp u (hf_tas l) L3 G) as [[G1 _] P1].
  unfold sbind at 1, tas_upd at 1, smodify at 1.
  unfold sbind at 1. cbn [h_tas hf_n]. rewrite Sg.
  assert (Lr : lenZ (rev gr) = g) by (unfold lenZ in *; rewrite rev_length; exact Lg).
  unfold sbind at 1, slift at 1. rewrite (copy_into_full g _ Lr).
  unfold sbind at 1, slift at 1.
  destruct (rev gr) as [|t0 gr']; [cbn in Lr; lia|]. cbn [at0].
  unfold sbind at 1, tas_upd at 1, smodify at 1.
  unfold sbind at 1, tas_propagate_grid at 1. cbn [h_tas hf_tas].
  cbn [ta_set_time ta_tol ta_pars ta_state ta_time].
  unfold seg_hist. cbn [hd].
  replace (ta_tol (ta_set_pars 2 u (hf_tas l))) with tol by (symmetry; exact G1).
  replace (ta_pars (ta_set_pars 2 u (hf_tas l))) with (p ++ u) by (symmetry; exact P1).
  change (ta_state (ta_set_pars 2 u (hf_tas l))) with (ta_state (hf_tas l)).
  destruct (ig tol (p ++ u) (ta_state (hf_tas l)) t0 (t0 :: gr')) as [[[[|] o] x'] t']; reflexivity.
Qed.

(** generic induction step; [W] turns the samples of the remaining segments into the final array *)
Lemma seg_hist_fly u gr l k segs (W : list double -> list (list double) -> list (list double)) : length u = 3%nat -> good tol p (hf_tas l) ->
  (forall st a1, good tol p a1 -> exists a, good tol p a /\ fst (k st (h_tas a1 l)) = h_tas a l /\
     match fly_grid ig tol p segs (ta_state a1) with
     | Some os => snd (k st (h_tas a1 l)) = Ret (W st os)
     | None => snd (k st (h_tas a1 l)) = Throw DomainError
     end) ->
  exists a, good tol p a /\ fst (seg_hist u gr l k) = h_tas a l /\
     match fly_grid ig tol p ((u, gr) :: segs) (ta_state (hf_tas l)) with
     | Some os => exists st os', os = st :: os' /\ snd (seg_hist u gr l k) = Ret (W st os')
     | None => snd (seg_hist u gr l k) = Throw DomainError
     end.
Proof.
  intros L3 Hg K. unfold seg_hist. cbn [fly_grid].
  pose proof (Hdim tol (p ++ u) (ta_state (hf_tas l)) (hd dzero gr) gr) as [D _].
  destruct (ig tol (p ++ u) (ta_state (hf_tas l)) (hd dzero gr) gr) as [[[ok o] x'] t']. cbn [fst snd] in D.
  assert (G2 : good tol p (mk_ta tol (p ++ u) x' t')) by (apply good_after; [exact L3|rewrite D; apply Hg]).
  destruct ok.
  - destruct (K o _ G2) as [a [Ga [Ea Ra]]]. exists a. split; [exact Ga|]. split; [exact Ea|].
    change (ta_state (mk_ta tol (p ++ u) x' t')) with x' in Ra.
    destruct (fly_grid ig tol p segs x'); [|exact Ra]. exists o, l0. split; [reflexivity|exact Ra].
  - eexists. split; [exact G2|]. split; reflexivity.
Qed.

Lemma hist_fwd_fly th T g tg : forall k i don l,
  hf_thrusts l = thrusts_of T th -> Z.of_nat (length th) = 3 * hf_n l -> 3 * hf_n l < 2 ^ 32 ->
  1 <= g -> hf_n l * (g - 1) + 1 <= lenZ tg -> lenZ tg < 2 ^ 32 ->
  0 <= i -> i + Z.of_nat k <= hf_n l -> lenZ don = i -> good tol p (hf_tas l) ->
  exists a, good tol p a /\
    fst (hist_fwd ig k i g tg (don ++ repeat [] (Z.to_nat (hf_n l - i))) l) = h_tas a l /\
    match fly_grid ig tol p (map (fun j => (seg_thrust T th (Z.of_nat j), seg_times tg g (Z.of_nat j)))
                               (seq (Z.to_nat i) k)) (ta_state (hf_tas l)) with
    | Some os => snd (hist_fwd ig k i g tg (don ++ repeat [] (Z.to_nat (hf_n l - i))) l)
                 = Ret (don ++ os ++ repeat [] (Z.to_nat (hf_n l - i - Z.of_nat k)))
    | None => snd (hist_fwd ig k i g tg (don ++ repeat [] (Z.to_nat (hf_n l - i))) l) = Throw DomainError
    end.
Proof.
  induction k as [|k IH]; intros i don l Hth Hlen Hsz Hg Htg Htg2 Hi Hk Hdon G.
  - exists (hf_tas l). split; [exact G|]. cbn [hist_fwd sret fst snd seq map fly_grid]. rewrite h_tas_id. split; [reflexivity|].
    cbn [app Z.of_nat]. rewrite Z.sub_0_r. reflexivity.
  - assert (Sl : slice (hf_thrusts l) (wrap32 (i * 3)) (wrap32 (3 * (i + 1))) = Ret (seg_thrust T th i)).
    { unfold wrap32. rewrite !Z.mod_small by lia. rewrite slice_ok.
      - f_equal. rewrite Hth. unfold sub_range, thrusts_of, seg_thrust.
        rewrite skipn_map, firstn_map.
        replace (Z.to_nat (3 * (i + 1) - i * 3)) with 3%nat by lia. replace (i * 3) with (3 * i) by lia. reflexivity.
      - lia.
      - rewrite Hth. unfold thrusts_of. rewrite map_length. lia. }
    assert (L3 : length (seg_thrust T th i) = 3%nat).
    { unfold seg_thrust. rewrite map_length, firstn_length, skipn_length. lia. }
    assert (B : (i + 1) * (g - 1) + 1 <= lenZ tg) by nia.
    assert (B0 : 0 <= i * (g - 1) <= (i + 1) * (g - 1)) by nia.
    assert (Sg : slice tg (wrap32 (i * (g - 1))) (wrap32 ((i + 1) * (g - 1) + 1)) = Ret (seg_times tg g i)).
    { unfold wrap32. rewrite !Z.mod_small by lia. apply seg_times_slice; assumption. }
    rewrite (hist_fwd_step k i g tg _ l _ _ Sl L3 Sg (seg_times_length tg g i Hi Hg B) Hg G).
    cbn [seq map]. rewrite Z2Nat.id by lia.
    destruct (seg_hist_fly (seg_thrust T th i) (seg_times tg g i) l
      (fun st => sbind (slift (put (don ++ repeat [] (Z.to_nat (hf_n l - i))) i st)) (fun o => hist_fwd ig k (i + 1) g tg o))
      (map (fun j => (seg_thrust T th (Z.of_nat j), seg_times tg g (Z.of_nat j))) (seq (S (Z.to_nat i)) k))
      (fun st os => don ++ st :: os ++ repeat [] (Z.to_nat (hf_n l - i - Z.of_nat (S k)))) L3 G) as [a [Ga [Ea Ra]]].
    { intros st a1 Ga1.
      replace (Z.to_nat (hf_n l - i)) with (S (Z.to_nat (hf_n l - (i + 1)))) by lia. cbn [repeat].
      unfold sbind, slift. rewrite put_mid by (unfold lenZ in Hdon; lia).
      destruct (IH (i + 1) (don ++ [st]) (h_tas a1 l) Hth Hlen Hsz Hg Htg Htg2 ltac:(lia) ltac:(cbn [h_tas hf_n]; lia)
        ltac:(unfold lenZ in *; rewrite app_length; cbn [length]; lia) Ga1) as [a [Ga [Ea Ra]]].
      cbn [h_tas hf_n hf_tas] in Ea, Ra. rewrite <- app_assoc in Ea, Ra. cbn [app] in Ea, Ra.
      exists a. split; [exact Ga|]. split; [exact Ea|].
      replace (Z.to_nat (i + 1)) with (S (Z.to_nat i)) in Ra by lia.
      replace (hf_n l - (i + 1) - Z.of_nat k) with (hf_n l - i - Z.of_nat (S k)) in Ra by lia.
      destruct (fly_grid ig tol p _ (ta_state a1)) as [os|]; [|exact Ra].
      change (sret (don ++ st :: repeat [] (Z.to_nat (hf_n l - (i + 1))))) with (sret (S:=hfleg) (don ++ st :: repeat [] (Z.to_nat (hf_n l - (i + 1))))).
      etransitivity; [exact Ra|]. f_equal. rewrite <- app_assoc. reflexivity. }
    exists a. split; [exact Ga|]. split; [exact Ea|].
    destruct (fly_grid ig tol p (_ :: _) _) as [os|]; [|exact Ra].
    destruct Ra as [st [os' [-> Ra]]]. rewrite Ra. cbn [app]. reflexivity.
Qed.

Lemma hist_bck_fly th T g tg : forall k i don fin l,
  hf_thrusts l = thrusts_of T th -> Z.of_nat (length th) = 3 * hf_n l -> 3 * hf_n l < 2 ^ 32 ->
  1 <= g -> hf_n l * (g - 1) + 1 <= lenZ tg -> lenZ tg < 2 ^ 32 ->
  0 <= i -> lenZ don + Z.of_nat k + i = hf_n l -> lenZ fin = i -> good tol p (hf_tas l) ->
  exists a, good tol p a /\
    fst (hist_bck ig k i g tg (don ++ repeat [] k ++ fin) l) = h_tas a l /\
    match fly_grid ig tol p (map (fun j => (seg_thrust T th (hf_n l - 1 - Z.of_nat j), rev (seg_times tg g (hf_n l - 1 - Z.of_nat j))))
                               (seq (Z.to_nat i) k)) (ta_state (hf_tas l)) with
    | Some os => snd (hist_bck ig k i g tg (don ++ repeat [] k ++ fin) l) = Ret (don ++ rev os ++ fin)
    | None => snd (hist_bck ig k i g tg (don ++ repeat [] k ++ fin) l) = Throw DomainError
    end.
Proof.
  induction k as [|k IH]; intros i don fin l Hth Hlen Hsz Hg Htg Htg2 Hi Hk Hfin G.
  - exists (hf_tas l). split; [exact G|]. cbn [hist_bck sret fst snd seq map fly_grid]. rewrite h_tas_id. split; reflexivity.
  - set (s := hf_n l - 1 - i).
    assert (Ld : 0 <= lenZ don) by (unfold lenZ; lia).
    assert (Sl : slice (hf_thrusts l) (wrap32 ((hf_n l - (i + 1)) * 3)) (wrap32 ((hf_n l - i) * 3)) = Ret (seg_thrust T th s)).
    { unfold wrap32. rewrite !Z.mod_small by lia. rewrite slice_ok.
      - f_equal. rewrite Hth. unfold sub_range, thrusts_of, seg_thrust.
        rewrite skipn_map, firstn_map.
        replace (Z.to_nat ((hf_n l - i) * 3 - (hf_n l - (i + 1)) * 3)) with 3%nat by lia.
        replace ((hf_n l - (i + 1)) * 3) with (3 * s) by (unfold s; lia). reflexivity.
      - lia.
      - rewrite Hth. unfold thrusts_of. rewrite map_length. lia. }
    assert (L3 : length (seg_thrust T th s) = 3%nat).
    { unfold seg_thrust, s. rewrite map_length, firstn_length, skipn_length. lia. }
    assert (Hs : 0 <= s) by (unfold s; lia).
    assert (B : (s + 1) * (g - 1) + 1 <= lenZ tg) by (unfold s; nia).
    assert (B0 : 0 <= s * (g - 1) <= (s + 1) * (g - 1)) by nia.
    assert (Sg : slice tg (wrap32 ((hf_n l - (i + 1)) * (g - 1))) (wrap32 ((hf_n l - i) * (g - 1) + 1)) = Ret (seg_times tg g s)).
    { replace (hf_n l - (i + 1)) with s by (unfold s; lia). replace (hf_n l - i) with (s + 1) by (unfold s; lia).
      unfold wrap32. rewrite !Z.mod_small by lia. apply seg_times_slice; assumption. }
    rewrite (hist_bck_step k i g tg _ l _ _ Sl L3 Sg (seg_times_length tg g s Hs Hg B) Hg G).
    cbn [seq map]. rewrite Z2Nat.id by lia. fold s.
    destruct (seg_hist_fly (seg_thrust T th s) (rev (seg_times tg g s)) l
      (fun st => sbind (fun l0 => (l0, put (don ++ repeat [] (S k) ++ fin) (wrap32 (hf_n l0 - 1 - i)) st)) (fun o => hist_bck ig k (i + 1) g tg o))
      (map (fun j => (seg_thrust T th (hf_n l - 1 - Z.of_nat j), rev (seg_times tg g (hf_n l - 1 - Z.of_nat j)))) (seq (S (Z.to_nat i)) k))
      (fun st os => don ++ rev os ++ st :: fin) L3 G) as [a [Ga [Ea Ra]]].
    { intros st a1 Ga1.
      assert (E : don ++ repeat [] (S k) ++ fin = (don ++ repeat [] k) ++ ([] : list double) :: fin).
      { rewrite <- app_assoc. f_equal. rewrite (app_assoc (repeat [] k) [[]] fin : repeat [] k ++ [] :: fin = _).
        f_equal. clear. induction k; [reflexivity|]. cbn [repeat app]. f_equal. exact IHk. }
      rewrite E. unfold sbind. cbn [h_tas hf_n]. fold s.
      rewrite put_mid by (rewrite app_length, repeat_length; unfold wrap32, lenZ in *; rewrite Z.mod_small by lia; unfold s; lia).
      rewrite <- app_assoc.
      destruct (IH (i + 1) don (st :: fin) (h_tas a1 l) Hth Hlen Hsz Hg Htg Htg2 ltac:(lia) ltac:(cbn [h_tas hf_n]; lia)
        ltac:(unfold lenZ in *; cbn [length]; lia) Ga1) as [a [Ga [Ea Ra]]].
      exists a. split; [exact Ga|]. split; [exact Ea|].
      replace (Z.to_nat (i + 1)) with (S (Z.to_nat i)) in Ra by lia. exact Ra. }
    exists a. split; [exact Ga|]. split; [exact Ea|].
    destruct (fly_grid ig tol p (_ :: _) _) as [os|]; [|exact Ra].
    destruct Ra as [st [os' [-> Ra]]]. rewrite Ra. cbn [rev]. rewrite <- app_assoc. reflexivity.
Qed.
End Loops.

Section History.
Variable ig : double -> list double -> list double -> double -> list double -> bool * list double * list double * double.
Hypothesis Hdim : grid_dim ig.

Lemma fly_grid_length tol p : forall segs x os, fly_grid ig tol p segs x = Some os ->
  length os = length segs /\ forall i, (i < length segs)%nat -> length (nth i os []) = (length (snd (nth i segs ([], []))) * 7)%nat.
Proof.
  induction segs as [|[u gr] segs IH]; intros x os H.
  - inversion H. split; [reflexivity|]. intros i Hi. cbn in Hi. lia.
  - cbn [fly_grid] in H. pose proof (Hdim tol (p ++ u) x (hd dzero gr) gr) as [_ D].
    destruct (ig tol (p ++ u) x (hd dzero gr) gr) as [[[ok o] x'] t']. cbn [fst snd] in D.
    destruct ok; [|discriminate]. destruct (fly_grid ig tol p segs x') as [os'|] eqn:E; [|discriminate]. inversion H; subst.
    destruct (IH _ _ E) as [L1 L2]. split; [cbn [length]; lia|].
    intros [|i] Hi; cbn [nth snd]; [exact D|]. apply L2. cbn [length] in Hi. lia.
Qed.

Lemma history_unfold g l :
  get_state_history ig g l =
  let tg := time_grid l g in
  let l1 := h_tas (ta_set_state 0 (hf_rvms l) (ta_set_time dzero (hf_tas l))) l in
  match hist_fwd ig (Z.to_nat (hf_nf l)) 0 g tg (repeat [] (Z.to_nat (hf_n l))) l1 with
  | (l2, Ret out) =>
      let l3 := h_tas (ta_set_state 0 (hf_rvmf l2) (ta_set_time (hf_tof l2) (hf_tas l2))) l2 in
      hist_bck ig (Z.to_nat (hf_nb l2)) 0 g tg out l3
  | (l2, Throw e) => (l2, Throw e)
  | (l2, UB) => (l2, UB)
  end.
Proof.
  unfold get_state_history. cbv zeta.
  unfold sbind at 1. unfold sbind at 1, tas_upd at 1, smodify at 1.
  unfold sbind at 1, tas_upd at 1, smodify at 1. cbn [h_tas hf_tas hf_rvms].
  unfold sbind at 1. cbn [h_tas hf_nf hf_n].
  destruct (hist_fwd ig _ 0 _ _ _) as [l2 [out| |]]; reflexivity.
Qed.

Theorem history_gen tol mu isp T g l : hf_wf l -> ta_holds tol mu isp (hf_tas l) ->
  hf_thrusts l = thrusts_of T (hf_thr l) -> 2 <= hf_n l -> 2 <= g -> g * hf_n l < 2 ^ 32 ->
  snd (get_state_history ig g l)
  = history_spec ig (hf_rvms l) (hf_thr l) (hf_rvmf l) (time_grid l g) T isp mu tol (hf_n l) (hf_nf l) g.
Proof.
  intros [Wn Wt Wu Wf Wb _ Wc W1 W2 _ _ _ _ _] [S1 [S2 S3]] S4 N2 G2 GN.
  rewrite history_unfold. cbv zeta. set (tg := time_grid l g).
  assert (Ltg : lenZ tg = g * hf_n l - 1) by (apply time_grid_length; nia).
  set (p := [mu; dmul isp dG0]) in *.
  assert (G : good tol p (hf_tas l)) by (split; [exact S1|split; [exact S2|exact S3]]).
  apply (good_set_time _ _ dzero) in G.
  destruct (good_set_state _ _ (hf_rvms l) _ W1 G) as [G1 E1].
  set (a1 := ta_set_state 0 (hf_rvms l) (ta_set_time dzero (hf_tas l))) in *.
  destruct (hist_fwd_fly ig Hdim tol p eq_refl (hf_thr l) T g tg (Z.to_nat (hf_nf l)) 0 [] (h_tas a1 l)
    S4 Wt ltac:(cbn [h_tas hf_n]; lia) ltac:(lia) ltac:(cbn [h_tas hf_n]; nia) ltac:(lia) ltac:(lia) ltac:(cbn [h_tas hf_n]; lia) eq_refl G1) as [a2 [Ga2 [E2 R2]]].
  cbn [h_tas hf_tas hf_n app] in R2, E2. rewrite Z.sub_0_r in R2, E2. rewrite E1 in R2. change (Z.to_nat 0) with 0%nat in R2.
  unfold history_spec. cbv zeta. fold p. unfold fwd_hist_segs, bck_hist_segs.
  destruct (hist_fwd ig (Z.to_nat (hf_nf l)) 0 g tg (repeat [] (Z.to_nat (hf_n l))) (h_tas a1 l)) as [l2 r2]. cbn [fst snd] in E2, R2.
  assert (E2' : l2 = h_tas a2 l) by exact E2. clear E2. subst l2.
  destruct (fly_grid ig tol p _ (hf_rvms l)) as [xf|] eqn:Exf.
  2:{ replace r2 with (@Throw (list (list double)) DomainError) by (symmetry; exact R2). reflexivity. }
  replace r2 with (@Ret (list (list double)) (xf ++ repeat [] (Z.to_nat (hf_n l - Z.of_nat (Z.to_nat (hf_nf l)))))) by (symmetry; exact R2).
  cbn [h_tas hf_rvmf hf_tof hf_tas hf_nb].
  assert (Lxf : length xf = Z.to_nat (hf_nf l)) by (apply fly_grid_length in Exf; rewrite map_length, seq_length in Exf; tauto).
  apply (good_set_time _ _ (hf_tof l)) in Ga2.
  destruct (good_set_state _ _ (hf_rvmf l) _ W2 Ga2) as [G4 E4].
  set (a4 := ta_set_state 0 (hf_rvmf l) (ta_set_time (hf_tof l) a2)) in *.
  match goal with |- context [hist_bck ig _ 0 g tg _ ?m] => change m with (h_tas a4 l) end.
  destruct (hist_bck_fly ig Hdim tol p eq_refl (hf_thr l) T g tg (Z.to_nat (hf_nb l)) 0 xf [] (h_tas a4 l)
    S4 Wt ltac:(cbn [h_tas hf_n]; lia) ltac:(lia) ltac:(cbn [h_tas hf_n]; nia) ltac:(lia) ltac:(lia)
    ltac:(cbn [h_tas hf_n]; unfold lenZ; rewrite Lxf; lia) eq_refl G4) as [a5 [G5 [E5 R5]]].
  cbn [h_tas hf_tas hf_n] in R5. rewrite E4, app_nil_r in R5. change (Z.to_nat 0) with 0%nat in R5.
  replace (Z.to_nat (hf_n l - Z.of_nat (Z.to_nat (hf_nf l)))) with (Z.to_nat (hf_nb l)) by lia.
  rewrite <- Wb.
  destruct (fly_grid ig tol p _ (hf_rvmf l)) as [xb|]; [|exact R5].
  rewrite app_nil_r in R5. exact R5.
Qed.

Theorem history_ok g l : hf_wf l -> hf_synced l -> 2 <= hf_n l -> 2 <= g -> g * hf_n l < 2 ^ 32 ->
  snd (get_state_history ig g l)
  = history_spec ig (hf_rvms l) (hf_thr l) (hf_rvmf l) (time_grid l g) (hf_T l) (hf_isp l) (hf_mu l) (hf_tol l) (hf_n l) (hf_nf l) g.
Proof. intros W [H1 [_ H3]]. apply history_gen; assumption. Qed.

(** shape of the result *)
Theorem history_shape g l : hf_wf l -> (exists tol mu isp, ta_holds tol mu isp (hf_tas l)) ->
  (exists T, hf_thrusts l = thrusts_of T (hf_thr l)) -> 2 <= hf_n l -> 2 <= g -> g * hf_n l < 2 ^ 32 ->
  match snd (get_state_history ig g l) with
  | Ret h => lenZ h = hf_n l /\ Forall (fun r => lenZ r = 7 * g) h
  | Throw e => e = DomainError
  | UB => False
  end.
Proof.
  intros W [tol [mu [isp H1]]] [T H2] N2 G2 GN. rewrite (history_gen tol mu isp T) by assumption.
  destruct W as [Wn Wt Wu Wf Wb _ _ _ _ _ _ _ _ _].
  assert (Ltg : lenZ (time_grid l g) = g * hf_n l - 1) by (apply time_grid_length; nia).
  unfold history_spec. cbv zeta.
  destruct (fly_grid ig tol _ (fwd_hist_segs _ _ _ _ _) _) as [a|] eqn:Ea; [|reflexivity].
  destruct (fly_grid ig tol _ (bck_hist_segs _ _ _ _ _ _) _) as [b|] eqn:Eb; [|reflexivity].
  destruct (fly_grid_length _ _ _ _ _ Ea) as [La Fa]. destruct (fly_grid_length _ _ _ _ _ Eb) as [Lb Fb].
  unfold fwd_hist_segs in La, Fa. unfold bck_hist_segs in Lb, Fb. rewrite map_length, seq_length in La, Lb, Fa, Fb.
  split; [unfold lenZ; rewrite app_length, rev_length; lia|].
  apply Forall_app. split; [|apply Forall_rev].
  - apply Forall_forall. intros r Hr. apply (In_nth _ _ []) in Hr. destruct Hr as [i [Hi <-]]. rewrite La in Hi.
    unfold lenZ. rewrite (Fa i Hi).
    rewrite (nth_indep _ _ ((fun j => (seg_thrust T (hf_thr l) (Z.of_nat j), seg_times (time_grid l g) g (Z.of_nat j))) 0%nat))
      by (rewrite map_length, seq_length; exact Hi).
    rewrite (map_nth (fun j => (seg_thrust T (hf_thr l) (Z.of_nat j), seg_times (time_grid l g) g (Z.of_nat j)))).
    rewrite seq_nth by exact Hi. cbn [snd].
    assert (B : lenZ (seg_times (time_grid l g) g (Z.of_nat (0 + i))) = g) by (apply seg_times_length; nia).
    unfold lenZ in B. lia.
  - apply Forall_forall. intros r Hr. apply (In_nth _ _ []) in Hr. destruct Hr as [i [Hi <-]]. rewrite Lb in Hi.
    unfold lenZ. rewrite (Fb i Hi).
    rewrite (nth_indep _ _ ((fun j => (seg_thrust T (hf_thr l) (hf_n l - 1 - Z.of_nat j), rev (seg_times (time_grid l g) g (hf_n l - 1 - Z.of_nat j)))) 0%nat))
      by (rewrite map_length, seq_length; exact Hi).
    rewrite (map_nth (fun j => (seg_thrust T (hf_thr l) (hf_n l - 1 - Z.of_nat j), rev (seg_times (time_grid l g) g (hf_n l - 1 - Z.of_nat j))))).
    rewrite seq_nth by exact Hi. cbn [snd]. rewrite rev_length.
    assert (B : lenZ (seg_times (time_grid l g) g (hf_n l - 1 - Z.of_nat (0 + i))) = g) by (apply seg_times_length; nia).
    unfold lenZ in B. lia.
Qed.
(** one segment: the code always reads past the end of its time grid *)
Theorem history_one_segment g l : hf_wf l -> (exists tol mu isp, ta_holds tol mu isp (hf_tas l)) ->
  (exists T, hf_thrusts l = thrusts_of T (hf_thr l)) -> hf_n l = 1 -> 2 <= g < 2 ^ 32 -> snd (get_state_history ig g l) = UB.
Proof.
  intros W H1 [T H2] N G. destruct W as [Wn Wt Wu Wf Wb _ _ _ _ _ _ _ _ _]. rewrite history_unfold. cbv zeta.
  assert (Ltg : lenZ (time_grid l g) = g - 1) by (rewrite time_grid_length; lia).
  set (tg := time_grid l g) in *.
  assert (Lu : Z.of_nat (length (hf_thrusts l)) = 3) by lia.
  assert (Su : slice (hf_thrusts l) (wrap32 0) (wrap32 3) = Ret (sub_range (hf_thrusts l) 0 3)) by (unfold wrap32; rewrite !Z.mod_small by lia; apply slice_ok; lia).
  assert (St : slice tg (wrap32 0) (wrap32 (1 * (g - 1) + 1)) = UB).
  { unfold slice, wrap32. rewrite !Z.mod_small by lia. rewrite Ltg. rewrite (proj2 (Z.leb_gt (1 * (g - 1) + 1) (g - 1))) by lia.
    rewrite andb_false_r. reflexivity. }
  assert (C : hf_nf l = 1 \/ hf_nf l = 0) by lia. destruct C as [C|C]; rewrite C.
  - change (Z.to_nat 1) with 1%nat. cbn [hist_fwd]. unfold sbind at 1. cbn [h_tas hf_thrusts].
    change (0 * 3) with 0. change (3 * (0 + 1)) with 3. rewrite Su.
    unfold sbind at 1, tas_upd at 1, smodify at 1. unfold sbind at 1, slift at 1.
    change (0 * (g - 1)) with 0. change (0 + 1) with 1. rewrite St. reflexivity.
  - change (Z.to_nat 0) with 0%nat. cbn [hist_fwd sret]. cbn [h_tas hf_nb]. rewrite Wb, N, C. change (Z.to_nat (1 - 0)) with 1%nat.
    cbn [hist_bck]. unfold sbind at 1. cbn [h_tas hf_thrusts hf_n]. rewrite N.
    change ((1 - (0 + 1)) * 3) with 0. change ((1 - 0) * 3) with 3. rewrite Su.
    unfold sbind at 1, tas_upd at 1, smodify at 1. unfold sbind at 1. cbn [h_tas hf_n]. rewrite N.
    change (1 - (0 + 1)) with 0. change (1 - 0) with 1. change (0 * (g - 1)) with 0. rewrite St. reflexivity.
Qed.
End History.

From Verif Require Import HfHistProofs LegPropProofs.

Theorem history_reachable ig integ var_ic rvms th rvmf tof T isp mu cut tol l es l' g : grid_dim ig -> integ_dim integ ->
  length rvms = 7%nat -> length rvmf = 7%nat -> short th ->
  hf_ctor var_ic rvms th rvmf tof T isp mu cut tol = Ret l ->
  Forall (ev_ok hop_ok) es -> sets_return integ es l -> hf_run integ es l = Ret l' ->
  2 <= hf_n l' -> 2 <= g -> g * hf_n l' < 2 ^ 32 ->
  match snd (get_state_history ig g l') with
  | Ret h => lenZ h = hf_n l' /\ Forall (fun r => lenZ r = 7 * g) h
  | Throw e => e = DomainError
  | UB => False
  end.
Proof.
  intros D Di H1 H2 H3 H4 He Hs Hr N2 G2 GN.
  destruct (hf_ctor_wf _ _ _ _ _ _ _ _ _ _ _ H1 H2 H3 H4) as (W & [S1 [S2 S3]] & _).
  destruct (run_inv integ Di hop_ok _ _ _ (fun o x => x) es l l' He W S1 (ex_intro _ _ S3) Hs Hr) as (W' & T' & U').
  apply history_shape; try assumption. eexists _, _, _. exact T'.
Qed.

Definition w_leg1 : outcome hfleg := hf_ctor [] w_rv (repeat done 3) w_rvf done done done done done d1em16.
Lemma w_leg1_ok : match w_leg1 with Ret l => hf_n l =? 1 | _ => false end = true.
Proof. vm_compute. reflexivity. Qed.

Theorem history_ub_witness : exists l, w_leg1 = Ret l /\ hf_n l = 1 /\ forall ig g, 2 <= g < 2 ^ 32 -> snd (get_state_history ig g l) = UB.
Proof.
  pose proof w_leg1_ok as H. destruct w_leg1 as [l| |] eqn:E; try discriminate. exists l. split; [reflexivity|].
  assert (N : hf_n l = 1) by lia. split; [exact N|]. intros ig g Hg.
  destruct (hf_ctor_wf [] w_rv (repeat done 3) w_rvf done done done done done d1em16 l (repeat_length _ _) (repeat_length _ _) ltac:(unfold short; rewrite repeat_length; lia) E) as (W & [S1 [S2 S3]] & _).
  apply history_one_segment; try assumption; eauto.
Qed.

(** a grid oracle for examples: seven zeros per sampling time *)
Definition flat_grid (tol : double) (p x : list double) (t : double) (gr : list double) : bool * list double * list double * double :=
  (true, repeat t (length gr * 7), x, t).
Lemma flat_grid_dim : grid_dim flat_grid.
Proof. intros tol p x t gr. unfold flat_grid. cbn [fst snd]. rewrite repeat_length. split; reflexivity. Qed.
