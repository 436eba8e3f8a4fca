From Coq Require Import Reals List Lra Lia.
From Verif Require Import Outcome MgaModel MgaSpec.
Import ListNotations.
Open Scope R_scope.

Lemma fold_total l : forall a, fold_left Rplus l a = a + total l.
Proof. induction l as [|x l IH]; intros a; cbn; [lra|]. rewrite IH. lra. Qed.
Lemma py_sum_total l : py_sum l = total l. Proof. unfold py_sum. rewrite fold_total. lra. Qed.
Lemma total_app a b : total (a ++ b) = total a + total b.
Proof. induction a as [|x a IH]; cbn; [lra|]. rewrite IH. lra. Qed.
Lemma total_scale k l : total (map (fun t => t / k) l) = total l / k.
Proof. induction l as [|x l IH]; cbn; [unfold Rdiv; ring|]. rewrite IH. unfold Rdiv. ring. Qed.
Lemma total_scale2 k m l : total (map (fun t => t / k * m) l) = total l / k * m.
Proof. induction l as [|x l IH]; cbn; [unfold Rdiv; ring|]. rewrite IH. unfold Rdiv. ring. Qed.

Lemma total_ln_neg al : al <> [] -> Forall (fun a => 0 < a < 1) al -> total (map ln al) < 0.
Proof.
  intros N H. destruct al as [|a al]; [congruence|]. clear N. cbn.
  inversion H as [|? ? Ha Hr]; subst. assert (ln a < 0) by (rewrite <- ln_1; apply ln_increasing; lra).
  enough (total (map ln al) <= 0) by lra. clear - Hr. induction Hr as [|b l Hb _ IH]; cbn; [lra|].
  assert (ln b < 0) by (rewrite <- ln_1; apply ln_increasing; lra). lra.
Qed.

Lemma alpha_decodes t0 T al : al <> [] -> Forall (fun a => 0 < a < 1) al -> 0 < T ->
  exists d, alpha2direct (t0 :: T :: al) = Ret (t0 :: d) /\ length d = length al /\ Forall (fun t => 0 < t) d /\ total d = T.
Proof.
  intros N H HT. pose proof (total_ln_neg al N H) as S. eexists. split; [reflexivity|]. rewrite py_sum_total.
  split; [rewrite !map_length; reflexivity|]. split.
  - apply Forall_forall. intros x Hx. apply in_map_iff in Hx as [y [<- Hy]]. apply in_map_iff in Hy as [a [<- Ha]].
    rewrite Forall_forall in H. specialize (H a Ha). assert (L : ln a < 0) by (rewrite <- ln_1; apply ln_increasing; lra).
    replace (ln a / total (map ln al) * T) with ((- ln a) * / (- total (map ln al)) * T) by (field; lra).
    apply Rmult_lt_0_compat; [|lra]. apply Rmult_lt_0_compat; [lra|]. apply Rinv_0_lt_compat. lra.
  - rewrite total_scale2. field. lra.
Qed.

Lemma alpha_round_trip t0 d : total d <> 0 ->
  exists al, direct2alpha (t0 :: d) = Ret (t0 :: total d :: al) /\ length al = length d /\
    (Forall (fun t => 0 < t) d -> Forall (fun a => / exp 1 <= a < 1) al) /\ alpha2direct (t0 :: total d :: al) = Ret (t0 :: d).
Proof.
  intros N. unfold direct2alpha. rewrite py_sum_total. eexists. split; [reflexivity|]. split; [apply map_length|]. split.
  - intros P. assert (T : forall x, In x d -> 0 < x <= total d).
    { clear N. induction P as [|y l Hy HP IH]; intros x Hx; [destruct Hx|]. cbn. assert (0 <= total l).
      { clear - HP. induction HP; cbn; lra. } destruct Hx as [->|Hx]; [lra|]. specialize (IH x Hx). lra. }
    apply Forall_forall. intros a Ha. apply in_map_iff in Ha as [x [<- Hx]]. specialize (T x Hx).
    replace (x / - total d) with (- (x / total d)) by (field; lra).
    assert (0 < x / total d) by (apply Rdiv_lt_0_compat; lra). assert (x / total d <= 1) by (apply Rmult_le_reg_r with (total d); [lra|]; unfold Rdiv; rewrite Rmult_assoc, Rinv_l; lra).
    rewrite <- exp_Ropp. split.
    + destruct (Rle_lt_or_eq_dec (-1) (- (x / total d))) as [H1|H1]; [lra| |]. left. apply exp_increasing; lra. rewrite <- H1. replace (- (1)) with (-1) by lra. lra.
    + rewrite <- exp_0. apply exp_increasing. lra.
  - unfold alpha2direct. rewrite py_sum_total.
    assert (E : map ln (map (fun t => exp (t / - total d)) d) = map (fun x => x / - total d) d) by (rewrite map_map; apply map_ext; intros; apply ln_exp).
    rewrite E, total_scale, map_map. do 2 f_equal. transitivity (map (fun x => x) d); [|apply map_id]. apply map_ext. intros x. field. lra.
Qed.

Lemma eta_loop_total dt es : forall T, total (eta_loop dt T es) = dt - (dt - total T) * remaining es.
Proof.
  induction es as [|e es IH]; intros T; cbn; [lra|]. rewrite IH, total_app, py_sum_total. cbn. ring.
Qed.
Lemma eta_loop_length dt es : forall T, length (eta_loop dt T es) = (length T + length es)%nat.
Proof. induction es as [|e es IH]; intros T; cbn; [lia|]. rewrite IH, app_length. cbn. lia. Qed.
Lemma remaining_range es : Forall (fun e => 0 <= e <= 1) es -> 0 <= remaining es <= 1.
Proof. induction 1 as [|e es He _ IH]; cbn; [lra|]. split; [apply Rmult_le_pos; lra|]. replace 1 with (1 * 1) by ring. apply Rmult_le_compat; lra. Qed.
Lemma remaining_pos es : Forall (fun e => 0 < e < 1) es -> 0 < remaining es.
Proof. induction 1 as [|e es He _ IH]; cbn; [lra|]. apply Rmult_lt_0_compat; lra. Qed.
Lemma eta_loop_pos dt es : forall T, total T < dt -> Forall (fun e => 0 < e < 1) es -> Forall (fun t => 0 < t) T -> Forall (fun t => 0 < t) (eta_loop dt T es).
Proof.
  induction es as [|e es IH]; intros T HT He HP; cbn; [exact HP|]. inversion He as [|? ? H1 H2]; subst.
  assert (0 < (dt - total T) * e < dt - total T).
  { split; [apply Rmult_lt_0_compat; lra|]. rewrite <- (Rmult_1_r (dt - total T)) at 2. apply Rmult_lt_compat_l; lra. }
  apply IH; [rewrite total_app, py_sum_total; cbn; lra|exact H2|]. apply Forall_app. split; [exact HP|]. constructor; [|constructor]. rewrite py_sum_total. lra.
Qed.
Lemma eta_loop_nonneg dt es : forall T, total T <= dt -> Forall (fun e => 0 <= e <= 1) es -> Forall (fun t => 0 <= t) T -> Forall (fun t => 0 <= t) (eta_loop dt T es).
Proof.
  induction es as [|e es IH]; intros T HT He HP; cbn; [exact HP|]. inversion He as [|? ? H1 H2]; subst.
  assert (0 <= (dt - total T) * e <= dt - total T).
  { split; [apply Rmult_le_pos; lra|]. rewrite <- (Rmult_1_r (dt - total T)) at 2. apply Rmult_le_compat_l; lra. }
  apply IH; [rewrite total_app, py_sum_total; cbn; lra|exact H2|]. apply Forall_app. split; [exact HP|]. constructor; [|constructor]. rewrite py_sum_total. lra.
Qed.

Lemma eta_decodes dt t0 es : es <> [] -> Forall (fun e => 0 <= e <= 1) es -> 0 <= dt ->
  exists d, eta2direct (Eta dt) (t0 :: es) = Ret (t0 :: d) /\ length d = length es /\ Forall (fun t => 0 <= t) d /\
    total d = dt * (1 - remaining es) /\ total d <= dt /\
    (0 < dt -> Forall (fun e => 0 < e < 1) es -> Forall (fun t => 0 < t) d /\ total d < dt).
Proof.
  intros N H HT. destruct es as [|e es]; [congruence|]. clear N. inversion H as [|? ? H1 H2]; subst.
  assert (B : 0 <= dt * e <= dt).
  { split; [apply Rmult_le_pos; lra|]. rewrite <- (Rmult_1_r dt) at 2. apply Rmult_le_compat_l; lra. }
  assert (E : total (eta_loop dt [dt * e] es) = dt * (1 - remaining (e :: es))) by (rewrite eta_loop_total; cbn; ring).
  pose proof (remaining_range _ H) as RR.
  exists (eta_loop dt [dt * e] es). split; [reflexivity|]. split; [rewrite eta_loop_length; reflexivity|]. split.
  { apply eta_loop_nonneg; [cbn; lra|exact H2|]. constructor; [lra|constructor]. }
  split; [exact E|]. split.
  { rewrite E. rewrite <- (Rmult_1_r dt) at 2. apply Rmult_le_compat_l; lra. }
  intros Hdt Hs. pose proof (remaining_pos _ Hs) as RP. inversion Hs as [|? ? H3 H4]; subst. split.
  - assert (0 < dt * e < dt). { split; [apply Rmult_lt_0_compat; lra|]. rewrite <- (Rmult_1_r dt) at 2. apply Rmult_lt_compat_l; lra. }
    apply eta_loop_pos; [cbn; lra|exact H4|]. constructor; [lra|constructor].
  - rewrite E. rewrite <- (Rmult_1_r dt) at 2. apply Rmult_lt_compat_l; lra.
Qed.

(** durations that leave some time before every leg *)
Lemma eta_inv dt ds : forall seen, (forall a b, ds = a ++ b -> b <> [] -> total (seen ++ a) <> dt) ->
  eta_loop dt seen (eta_inv_loop dt seen ds) = seen ++ ds.
Proof.
  induction ds as [|d ds IH]; intros seen H; cbn; [rewrite app_nil_r; reflexivity|].
  rewrite py_sum_total. assert (N : total seen <> dt) by (specialize (H [] (d :: ds) eq_refl ltac:(discriminate)); rewrite app_nil_r in H; exact H).
  replace ((dt - total seen) * (d / (dt - total seen))) with d by (field; lra).
  rewrite IH; [rewrite <- app_assoc; reflexivity|]. intros a b E Nb. rewrite <- app_assoc. cbn. apply (H (d :: a) b); [cbn; congruence|exact Nb].
Qed.
Lemma eta_round_trip dt t0 d : d <> [] -> (forall a b, d = a ++ b -> b <> [] -> total a <> dt) ->
  bind (direct2eta (Eta dt) (t0 :: d)) (eta2direct (Eta dt)) = Ret (t0 :: d).
Proof.
  intros N H. destruct d as [|d1 ds]; [congruence|]. cbn. assert (dt <> 0) by (specialize (H [] (d1 :: ds) eq_refl ltac:(discriminate)); cbn in H; lra).
  replace (dt * (d1 / dt)) with d1 by (field; lra). rewrite eta_inv; [reflexivity|].
  intros a b E Nb. apply (H (d1 :: a) b); [cbn; congruence|exact Nb].
Qed.
Lemma eta_loop_prefix dt es : forall T, exists r, eta_loop dt T es = T ++ r /\ (total T <> dt -> (forall a b, es = a ++ b -> b <> [] -> Forall (fun e => e <> 1) a) ->
   eta_inv_loop dt T r = es).
Proof.
  induction es as [|e es IH]; intros T; cbn; [exists []; rewrite app_nil_r; split; [reflexivity|]; reflexivity|].
  destruct (IH (T ++ [(dt - py_sum T) * e])) as [r [E F]]. exists ((dt - py_sum T) * e :: r). split; [rewrite E, <- app_assoc; reflexivity|].
  intros N H. cbn. rewrite py_sum_total in *. f_equal; [field; lra|].
  destruct es as [|e2 es].
  { cbn in E. rewrite <- (app_nil_r (T ++ _)) in E at 1. apply app_inv_head in E. subst r. reflexivity. }
  apply F.
  - rewrite total_app. cbn. specialize (H [e] (e2 :: es) eq_refl ltac:(discriminate)). inversion H; subst.
    replace (total T + ((dt - total T) * e + 0)) with (dt - (dt - total T) * (1 - e)) by ring. intros Q.
    assert (Z : (dt - total T) * (1 - e) = 0) by lra. apply Rmult_integral in Z. lra.
  - intros a b Ea Nb. specialize (H (e :: a) b ltac:(cbn; congruence) Nb). inversion H; assumption.
Qed.
Lemma eta_round_trip2 dt t0 es : es <> [] -> dt <> 0 -> (forall a b, es = a ++ b -> b <> [] -> Forall (fun e => e <> 1) a) ->
  bind (eta2direct (Eta dt) (t0 :: es)) (direct2eta (Eta dt)) = Ret (t0 :: es).
Proof.
  intros N Hd H. destruct es as [|e es]; [congruence|]. cbn.
  destruct (eta_loop_prefix dt es [dt * e]) as [r [E F]]. rewrite E. cbn. replace (dt * e / dt) with e by (field; lra).
  destruct es as [|e2 es].
  { cbn in E. injection E as <-. reflexivity. }
  rewrite F; [reflexivity| |].
  - cbn. specialize (H [e] (e2 :: es) eq_refl ltac:(discriminate)). inversion H; subst. intros Q.
    assert (Z : dt * (1 - e) = 0) by lra. apply Rmult_integral in Z. lra.
  - intros a b Ea Nb. specialize (H (e :: a) b ltac:(cbn; congruence) Nb). inversion H; assumption.
Qed.

Lemma decode_agrees enc n t0 x : match enc with Alpha => length x = S n | _ => length x = n end -> (0 < n)%nat ->
  exists d, decode_tofs enc n (t0 :: x) = Ret d /\
    (match enc with Alpha => alpha2direct (t0 :: x) | Direct => Ret (t0 :: x) | Eta _ => eta2direct enc (t0 :: x) end) = Ret (t0 :: d).
Proof.
  intros L N. destruct enc as [| |dt].
  - destruct x as [|x1 x]; [cbn in L; lia|]. eexists; split; reflexivity.
  - exists x. split; reflexivity.
  - destruct x as [|x1 x]; [cbn in L; lia|]. cbn in L. subst n. unfold decode_tofs, eta2direct. rewrite Nat.ltb_irrefl, firstn_all. eexists; split; reflexivity.
Qed.

Lemma direct2alpha_not_inverse : exists x y, alpha2direct x = Ret y /\ direct2alpha y <> Ret x.
Proof.
  exists [0; 1; / 2]. eexists. split; [reflexivity|]. unfold direct2alpha. rewrite !py_sum_total. cbn.
  assert (ln (/ 2) < 0) by (rewrite <- ln_1; apply ln_increasing; lra).
  intros Q. injection Q as _ Q.
  replace (ln (/ 2) / (ln (/ 2) + 0) * 1) with 1 in Q by (field; lra).
  replace (1 / - (1 + 0)) with (- (1)) in Q by field.
  rewrite exp_Ropp in Q. pose proof (exp_ineq1 1 ltac:(lra)) as X.
  apply (f_equal Rinv) in Q. rewrite !Rinv_inv in Q. lra.
Qed.
