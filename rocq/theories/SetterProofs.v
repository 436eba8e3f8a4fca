(** * The setters of the two legs store and refuse what they should *)
From Coq Require Import ZArith Reals List Lia Lra Bool.
From Flocq Require Import Core.Core IEEE754.BinarySingleNaN.
From Verif Require Import Outcome StateMonad Float64 Float64Facts LegModel LegSpec LegProofs HfModel HfSpec HfProofs SetterSpec.
Import ListNotations.
Open Scope Z_scope.

Lemma below_iff v : dltb v dzero = true <-> below_zero v.
Proof.
  split.
  - intros H. destruct v as [s|[|]| |s m e Hb] eqn:E; try discriminate H.
    + left; reflexivity.
    + right. rewrite <- E in *. split; [subst; reflexivity|]. apply dltb_R in H; [exact H|subst; reflexivity|reflexivity].
  - intros [->|[F H]]; [reflexivity|]. apply dltb_R; [exact F|reflexivity|exact H].
Qed.
Lemma above_iff v : dgtb v done = true <-> above_one v.
Proof.
  destruct d_one as [F1 V1]. unfold dgtb. split.
  - intros H. destruct v as [s|[|]| |s m e Hb] eqn:E; try (vm_compute in H; discriminate H).
    + left; reflexivity.
    + right. rewrite <- E in *. split; [subst; reflexivity|]. apply dltb_R in H; [rewrite V1 in H; exact H|exact F1|subst; reflexivity].
  - intros [->|[F H]]; [vm_compute; reflexivity|]. apply dltb_R; [exact F1|exact F|rewrite V1; exact H].
Qed.
Lemma le_zero_iff v : dleb v dzero = true <-> below_zero v \/ (is_finite v = true /\ B2R v = 0%R).
Proof.
  split.
  - intros H. destruct v as [s|[|]| |s m e Hb] eqn:E; try discriminate H.
    + right. split; reflexivity.
    + left; left; reflexivity.
    + rewrite <- E in *. assert (F : is_finite v = true) by (subst; reflexivity). apply dleb_R in H; [|exact F|reflexivity]. cbn in H.
      destruct (Req_dec (B2R v) 0); [right; split; assumption|left; right]. split; [exact F|lra].
  - intros [[->|[F H]]|[F H]]; [reflexivity| |]; (apply dleb_R; [exact F|reflexivity|cbn; lra]).
Qed.
Lemma nat3_iff (th : list double) : check_throttles th = Ret tt \/ check_throttles th = Throw LogicError.
Proof. unfold check_throttles, guard. destruct (negb _); cbn; [right; reflexivity|]. destruct th; [right|left]; reflexivity. Qed.
Lemma throttles_iff th : check_throttles th = Throw LogicError <-> bad_throttles (Z.of_nat (length th)).
Proof.
  unfold check_throttles, guard, bad_throttles, lenZ. destruct (Z.of_nat (length th) mod 3 =? 0) eqn:E; cbn [negb bind].
  - destruct th as [|x th]; [split; [intros _; left; cbn; lia|reflexivity]|]. split; [discriminate|]. cbn [length] in *. lia.
  - split; [intros _; right; lia|reflexivity].
Qed.
Lemma thrit_iff i j : (negb (Z.rem (j - i) 3 =? 0) || (j - i <=? 0)) = true <-> bad_throttles (j - i).
Proof.
  unfold bad_throttles. destruct (Z.leb_spec (j - i) 0).
  - rewrite orb_true_r. split; [intros _; left; lia|reflexivity].
  - rewrite orb_false_r, Z.rem_mod_nonneg by lia. split; [intros; right; lia|intros; lia].
Qed.

(** ** sims_flanagan *)
Lemma resplit_data l l' : sf_resplit l = (l', Ret tt) -> data_of l' = data_of l.
Proof. unfold sf_resplit, sbind, smodify. destruct (nseg_fwd_of _ _); intros H; inversion H; reflexivity. Qed.
Theorem sf_stores o l l' : sf_do o l = (l', Ret tt) -> data_of l' = wanted o (data_of l).
Proof.
  intros H. destruct o; cbn [sf_do] in H; try unfold sbind at 1 in H; unfold slift, smodify in H.
  1, 8, 9, 10: match type of H with match ?c with _ => _ end = _ => destruct c as [[]| |]; inversion H; reflexivity end.
  all: try (inversion H; reflexivity).
  - destruct (check_throttles v) as [[]| |]; try discriminate H. apply resplit_data in H. exact H.
  - destruct (guard _ _) as [[]| |]; try discriminate H. apply resplit_data in H. exact H.
  - destruct (check_cut v) as [[]| |]; try discriminate H. unfold sbind in H. destruct (nseg_fwd_of _ _); inversion H; reflexivity.
  - destruct (sanity_checks _ _ _ _ _ _ _ _ _) as [[]| |]; try discriminate H. apply resplit_data in H. exact H.
Qed.
Definition answer {S} (l : S) (no : Prop) (m : S * outcome unit) : Prop :=
  match m with (l', Ret _) => ~ no | (l', Throw e) => no /\ l' = l | (_, UB) => False end.
Lemma guard_answer {S} (l l' : S) b e no : (b = true <-> no) -> answer l no (match guard b e with Ret _ => (l', Ret tt) | Throw x => (l, Throw x) | UB => (l, UB) end).
Proof. intros H. unfold guard. destruct b; cbn; [split; [apply H|]; reflexivity|]. intros N. apply H in N. discriminate. Qed.
Lemma cut_iff v : (dltb v dzero || dgtb v done) = true <-> below_zero v \/ above_one v.
Proof. rewrite orb_true_iff, below_iff, above_iff. reflexivity. Qed.
Lemma resplit_runs l : unit_double (sf_cut l) -> exists l', sf_resplit l = (l', Ret tt).
Proof.
  intros U. unfold sf_resplit, sbind, smodify. cbn [up_split sf_n sf_cut sf_thr].
  destruct (split_correct (nseg_of (sf_thr l)) (sf_cut l)) as [E _]; [|exact U|rewrite E; eexists; reflexivity].
  unfold nseg_of, wrap32. pose proof (Z.mod_pos_bound (lenZ (sf_thr l)) (2 ^ 32) ltac:(lia)). split; [apply Z.div_pos; lia|]. apply Z.div_lt_upper_bound; lia.
Qed.
Theorem sf_answers o l : valid_leg l -> op_ok o -> op_no_nan_cut o -> answer l (refused o) (sf_do o l).
Proof.
  intros V Ok Nn. destruct o; cbn [op_ok op_no_nan_cut] in Ok, Nn; cbn [sf_do refused]; try unfold sbind at 1; unfold slift, smodify;
    unfold check_tof, check_max_thrust, check_isp, check_mu; try (apply guard_answer, below_iff); try (intros []); try contradiction.
  - destruct (nat3_iff v) as [E|E]; rewrite E.
    + destruct (resplit_runs (up_thr v l)) as [l' R]; [cbn; apply V|]. unfold sbind. rewrite R. intros B. apply throttles_iff in B. rewrite E in B. discriminate.
    + split; [apply throttles_iff; exact E|reflexivity].
  - destruct (resplit_runs (up_thr (sub_range src i j) l)) as [l' R]; [cbn; apply V|].
    pose proof (thrit_iff i j) as T. unfold guard. destruct (_ || _).
    + split; [apply T; reflexivity|reflexivity].
    + unfold sbind. rewrite R. intros B. apply T in B. discriminate.
  - pose proof (cut_iff v) as T. destruct (check_cut v) as [[]| |] eqn:E.
    + pose proof (check_cut_ok v E Nn) as U. unfold sbind, smodify. cbn [up_cut sf_n sf_cut].
      destruct (split_correct (sf_n l) v) as [E1 _]; [destruct V; lia|exact U|]. rewrite E1. intros B. unfold check_cut, guard in E. apply T in B. rewrite B in E. discriminate.
    + unfold check_cut, guard in E. destruct (_ || _); [split; [apply T; reflexivity|reflexivity]|discriminate].
    + unfold check_cut, guard in E. destruct (_ || _); discriminate.
Qed.

(** ** sims_flanagan_hf *)
Lemma hf_resplit_data l l' : hf_resplit l = (l', Ret tt) -> hf_data_of l' = hf_data_of l.
Proof. unfold hf_resplit, sbind, smodify. destruct (nseg_fwd_of _ _); intros H; inversion H; reflexivity. Qed.
Lemma hf_resplit_then k l l' : sbind hf_resplit (fun _ => k) l = (l', Ret tt) -> exists l1, hf_resplit l = (l1, Ret tt) /\ k l1 = (l', Ret tt).
Proof. unfold sbind. destruct (hf_resplit l) as [l1 [[]| |]]; intros H; try discriminate. exists l1. split; [reflexivity|exact H]. Qed.
Lemma blit6 (rv x : list double) : length rv = 6%nat -> length x = 7%nat -> blit 0 rv x = rv ++ [nth 6 x dzero].
Proof. intros A B. do 8 (destruct x as [|? x]; try discriminate B). unfold blit. rewrite A. reflexivity. Qed.
Lemma blit1 (m : double) (x : list double) : length x = 7%nat -> blit 6 [m] x = firstn 6 x ++ [m].
Proof. intros B. do 8 (destruct x as [|? x]; try discriminate B). reflexivity. Qed.
Lemma tail_data th l l' : sbind hf_resplit (fun _ => sbind (hf_check_all th) (fun _ => hf_rethrust)) l = (l', Ret tt) -> hf_data_of l' = hf_data_of l.
Proof.
  intros H. apply hf_resplit_then in H as [l1 [H1 H2]]. apply hf_resplit_data in H1. rewrite <- H1. unfold sbind, hf_check_all, hf_rethrust, smodify in H2.
  destruct (sanity_checks_hf _ _ _ _ _ _ _ _ _ _) as [[]| |]; inversion H2; reflexivity.
Qed.
Theorem hf_stores o l l' : hf_wf l -> hop_ok o -> hf_do o l = (l', Ret tt) -> hf_data_of l' = hf_wanted o (hf_data_of l).
Proof.
  intros W Ok H. pose proof (w_rvms l W) as L1. pose proof (w_rvmf l W) as L2. destruct o; cbn [hop_ok] in Ok; try rewrite set_unfold in H; try rewrite set_short_unfold in H; cbn [hf_do] in H.
  15, 16: apply tail_data in H; exact H.
  1, 8, 9, 10, 12: unfold sbind at 1 in H; unfold slift, smodify in H; match type of H with match ?c with _ => _ end = _ => destruct c as [[]| |]; inversion H; reflexivity end.
  - inversion H; subst. unfold hf_data_of, hf_wanted. hfs. cbn [h_rvms hf_rvms hf_thr hf_rvmf hf_tof hf_T hf_isp hf_mu hf_cut hf_tol]. rewrite blit6 by assumption. reflexivity.
  - inversion H; subst. unfold hf_data_of, hf_wanted. cbn [h_rvms hf_rvms hf_thr hf_rvmf hf_tof hf_T hf_isp hf_mu hf_cut hf_tol]. rewrite blit1 by assumption. reflexivity.
  - unfold sbind at 1 in H. unfold slift in H. destruct (check_throttles v) as [[]| |]; try discriminate H. unfold sbind at 1, smodify at 1 in H. apply hf_resplit_then in H as [l1 [H1 H2]].
    apply hf_resplit_data in H1. unfold hf_rethrust, smodify in H2. inversion H2. exact H1.
  - unfold sbind at 1 in H. unfold slift in H. destruct (guard _ _) as [[]| |]; try discriminate H. unfold sbind at 1, smodify at 1 in H. apply hf_resplit_then in H as [l1 [H1 H2]].
    apply hf_resplit_data in H1. unfold hf_rethrust, smodify in H2. inversion H2. exact H1.
  - inversion H; subst. unfold hf_data_of, hf_wanted. cbn [h_rvmf hf_rvms hf_thr hf_rvmf hf_tof hf_T hf_isp hf_mu hf_cut hf_tol]. rewrite blit6 by assumption. reflexivity.
  - inversion H; subst. unfold hf_data_of, hf_wanted. cbn [h_rvmf hf_rvms hf_thr hf_rvmf hf_tof hf_T hf_isp hf_mu hf_cut hf_tol]. rewrite blit1 by assumption. reflexivity.
  - unfold sbind at 1 in H. unfold slift in H. destruct (check_cut v) as [[]| |]; try discriminate H. unfold sbind, smodify in H. destruct (nseg_fwd_of _ _); inversion H; reflexivity.
  - inversion H; reflexivity.
  - inversion H; reflexivity.
Qed.
Definition said {S} (no : Prop) (m : S * outcome unit) : Prop := match snd m with Ret _ => ~ no | Throw _ => no | UB => False end.
Lemma guard_said {S} (l l' : S) b e no : (b = true <-> no) -> said no (match guard b e with Ret _ => (l', Ret tt) | Throw x => (l, Throw x) | UB => (l, UB) end).
Proof. intros H. unfold guard. destruct b; cbn; [apply H; reflexivity|]. intros N. apply H in N. discriminate. Qed.
Lemma nseg_range th : 0 <= nseg_of th < 2 ^ 32.
Proof.
  unfold nseg_of, wrap32. pose proof (Z.mod_pos_bound (lenZ th) (2 ^ 32) ltac:(lia)). split; [apply Z.div_pos; lia|]. apply Z.div_lt_upper_bound; lia.
Qed.
Lemma hf_resplit_runs l : unit_double (hf_cut l) -> exists l', hf_resplit l = (l', Ret tt) /\ hf_data_of l' = hf_data_of l /\ wrap32 (hf_nf l' + hf_nb l') = hf_n l'.
Proof.
  intros U. unfold hf_resplit, sbind, smodify. cbn [h_split hf_n hf_cut hf_thr].
  destruct (split_correct (nseg_of (hf_thr l)) (hf_cut l)) as [E [B C]]; [apply nseg_range|exact U|rewrite E; eexists; split; [reflexivity|]].
  split; [reflexivity|]. cbn [h_split hf_n hf_nf hf_nb]. rewrite C. pose proof (nseg_range (hf_thr l)). unfold wrap32. rewrite Z.mod_small; lia.
Qed.
Lemma tol_iff v : (dleb v dzero || dgtb v done) = true <-> (below_zero v \/ (is_finite v = true /\ B2R v = 0%R) \/ above_one v).
Proof. rewrite orb_true_iff, le_zero_iff, above_iff. tauto. Qed.
Definition bad_all (th : list double) (tof T isp mu cut tol : double) : Prop :=
  bad_throttles (Z.of_nat (length th)) \/ below_zero tof \/ below_zero T \/ below_zero isp \/ below_zero mu \/
      (below_zero cut \/ above_one cut) \/ (below_zero tol \/ (is_finite tol = true /\ B2R tol = 0%R) \/ above_one tol).
Lemma sanity_said th tof T isp mu cut tol n nf nb : wrap32 (nf + nb) = n ->
  match sanity_checks_hf th tof T isp mu cut tol n nf nb with Ret _ => ~ bad_all th tof T isp mu cut tol | Throw _ => bad_all th tof T isp mu cut tol | UB => False end.
Proof.
  intros N. unfold sanity_checks_hf, bad_all. pose proof (throttles_iff th) as I0. pose proof (below_iff tof) as I1. pose proof (below_iff T) as I2. pose proof (below_iff isp) as I3. pose proof (below_iff mu) as I4.
  pose proof (cut_iff cut) as I5. pose proof (tol_iff tol) as I6. unfold check_tof, check_max_thrust, check_isp, check_mu, check_cut, check_tol, check_nseg, guard.
  destruct (nat3_iff th) as [E|E]; rewrite E in *; cbn [bind]; [|tauto].
  destruct (dltb tof dzero); cbn [bind]; [tauto|]. destruct (dltb T dzero); cbn [bind]; [tauto|]. destruct (dltb isp dzero); cbn [bind]; [tauto|]. destruct (dltb mu dzero); cbn [bind]; [tauto|].
  destruct (dltb cut dzero || dgtb cut done); cbn [bind]; [tauto|]. destruct (dleb tol dzero || dgtb tol done); cbn [bind]; [tauto|].
  rewrite N, Z.eqb_refl. cbn [negb].
  assert (forall a b : Prop, (a <-> b) -> ~ a -> ~ b) as G by tauto.
  apply (G _ _ I0) in E || idtac. intros X.
  assert (J0 : ~ bad_throttles (Z.of_nat (length th))) by (intros B; apply I0 in B; discriminate). assert (D : false <> true) by discriminate. tauto.
Qed.
Lemma tail_said th l : hf_thr l = th -> unit_double (hf_cut l) ->
  said (bad_all th (hf_tof l) (hf_T l) (hf_isp l) (hf_mu l) (hf_cut l) (hf_tol l)) (sbind hf_resplit (fun _ => sbind (hf_check_all th) (fun _ => hf_rethrust)) l).
Proof.
  intros Et U. destruct (hf_resplit_runs l U) as [l1 [R [D N]]]. unfold sbind at 1. rewrite R. unfold sbind, hf_check_all, hf_rethrust, smodify.
  unfold hf_data_of in D. injection D as D1 D2 D3 D4 D5 D6 D7 D8 D9. rewrite D4, D5, D6, D7, D8, D9.
  pose proof (sanity_said th (hf_tof l) (hf_T l) (hf_isp l) (hf_mu l) (hf_cut l) (hf_tol l) (hf_n l1) (hf_nf l1) (hf_nb l1) N) as S.
  destruct (sanity_checks_hf _ _ _ _ _ _ _ _ _ _) as [[]| |]; exact S.
Qed.
Theorem hf_answers o l : hf_wf l -> hop_ok o -> cut_convertible o -> said (hf_refused o) (hf_do o l).
Proof.
  intros W Ok Cv. pose proof (w_cut l W) as U. destruct o; cbn [hop_ok cut_convertible] in Ok, Cv; try rewrite set_unfold; try rewrite set_short_unfold; cbn [hf_do hf_refused].
  15: match goal with |- said _ (_ ?x) => exact (tail_said th x eq_refl Cv) end.
  15: { pose proof (tail_said th (mk_hf rvms (hf_vars l) th (hf_thrusts l) rvmf tof (hf_T l) (hf_isp l) (hf_mu l) (hf_cut l) (hf_tol l)
           (hf_n l) (hf_nf l) (hf_nb l) (hf_tas l) (hf_tasv l)) eq_refl U) as H. cbn [hf_tof hf_T hf_isp hf_mu hf_cut hf_tol] in H.
        assert (Q : bad_all th tof (hf_T l) (hf_isp l) (hf_mu l) (hf_cut l) (hf_tol l) <-> bad_throttles (Z.of_nat (length th)) \/ below_zero tof).
        { unfold bad_all. pose proof (not_negative_check _ (w_T l W)) as N2. pose proof (not_negative_check _ (w_isp l W)) as N3. pose proof (not_negative_check _ (w_mu l W)) as N4.
          pose proof (w_tol l W) as [N5 N6]. pose proof (check_cut_unit _ U) as N7. unfold check_cut, guard in N7.
          pose proof (below_iff (hf_T l)). pose proof (below_iff (hf_isp l)). pose proof (below_iff (hf_mu l)). pose proof (cut_iff (hf_cut l)). pose proof (tol_iff (hf_tol l)).
          rewrite N2, N3, N4, N5, N6 in *. cbn [orb] in *. destruct (dltb (hf_cut l) dzero || dgtb (hf_cut l) done); [discriminate|]. assert (D : false <> true) by discriminate. tauto. }
        unfold said in *. destruct (snd _) as [x| |]; [|tauto|exact H]. tauto. }
  all: try unfold sbind at 1; unfold slift, smodify; unfold check_tof, check_max_thrust, check_isp, check_mu; try (apply guard_said, below_iff); try (intros []).
  - destruct (nat3_iff v) as [E|E]; rewrite E.
    + unfold sbind at 1. destruct (hf_resplit_runs (h_thr v l) U) as [l1 [R _]]. unfold sbind. rewrite R. intros B. apply throttles_iff in B. rewrite E in B. discriminate.
    + apply throttles_iff. exact E.
  - pose proof (thrit_iff i j) as T. unfold guard. destruct (_ || _).
    + apply T; reflexivity.
    + unfold sbind at 1. destruct (hf_resplit_runs (h_thr (sub_range src i j) l) U) as [l1 [R _]]. unfold sbind. rewrite R. intros B. apply T in B. discriminate.
  - pose proof (cut_iff v) as T. destruct (check_cut v) as [[]| |] eqn:E.
    + pose proof (check_cut_ok v E Ok) as U'. unfold sbind. cbn [h_cut hf_n hf_cut].
      destruct (split_correct (hf_n l) v) as [E1 _]; [destruct (w_n l W); lia|exact U'|]. rewrite E1. intros B. unfold check_cut, guard in E. apply T in B. rewrite B in E. discriminate.
    + unfold check_cut, guard in E. destruct (_ || _); [apply T; reflexivity|discriminate].
    + unfold check_cut, guard in E. destruct (_ || _); discriminate.
  - unfold check_tol. apply guard_said, tol_iff.
Qed.
