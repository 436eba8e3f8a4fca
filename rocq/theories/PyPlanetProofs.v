(** * Proofs about Python planets (C51) *)
From Coq Require Import ZArith List Bool String Lia.
From Verif Require Import Outcome Float64 PlanetModel PlanetSpec PlanetProofs PyPlanetModel PyPlanetSpec.
Import ListNotations.
Open Scope Z_scope.

Lemma method_callable {A} (a : attr A) m : method a m -> callable_attribute a = m.
Proof.
  intro H. destruct a as [| |f]; cbn.
  - destruct m as [g|]; [|reflexivity]. destruct (H g) as [H1 _]. discriminate (H1 eq_refl).
  - destruct m as [g|]; [|reflexivity]. destruct (H g) as [H1 _]. discriminate (H1 eq_refl).
  - symmetry. apply (proj2 (H f)). reflexivity.
Qed.
Lemma eph_loop_ext p q ts : (forall t, u_eph p t = u_eph q t) -> forall fuel i r, eph_loop p ts fuel i r = eph_loop q ts fuel i r.
Proof.
  intros H. induction fuel as [|k IH]; intros i r; [reflexivity|]. cbn [eph_loop].
  destruct (vget ts i) as [t|e|]; cbn [bind]; try reflexivity. unfold eph. rewrite H. destruct (u_eph q t) as [[[[a b] c] [[d e] f]]|e|]; cbn [bind]; try reflexivity.
  repeat (match goal with |- bind ?m _ = bind ?m _ => destruct m; cbn [bind]; try reflexivity end). apply IH.
Qed.
Lemma default_eph_v_ext p q ts : (forall t, u_eph p t = u_eph q t) -> default_eph_v p ts = default_eph_v q ts.
Proof. intro H. unfold default_eph_v. destruct (max_doubles <? _); [reflexivity|]. apply eph_loop_ext, H. Qed.

Section Oracles.
Variable dem : udpla -> string.
Variable ic2par : posvel -> double -> list double.
Variable f2m : double -> double -> double.
Variable par2eq : list double -> bool -> list double.
Variable two_pi : double.
Notation wrap := (wrap ic2par f2m par2eq two_pi).
Notation py_planet := (py_planet ic2par f2m par2eq two_pi).

Lemma py_planet_cases o :
  ((exists e, py_planet o = Throw e) <-> o_kind o <> Instance \/ forall f, o_eph o <> Method f) /\
  (py_planet o = Throw InvalidArgument <-> o_kind o <> Instance) /\
  (py_planet o = Throw NotImplemented <-> o_kind o = Instance /\ forall f, o_eph o <> Method f) /\
  py_planet o <> UB.
Proof.
  unfold PyPlanetModel.py_planet. destruct (o_kind o), (o_eph o) as [| |g]; cbn [callable_attribute];
    (split; [|split; [|split]]); try split; try split; intros; try congruence; try (destruct H; congruence); eauto;
    try (right; intros f; discriminate); try (left; discriminate); try (intros f; discriminate);
    try (destruct H as [e He]; discriminate); try (destruct H as [H|H]; [congruence|exfalso; apply (H g); reflexivity]);
    try (destruct H as [_ H]; exfalso; apply (H g); reflexivity).
Qed.
Lemma py_planet_some o u : same_methods o u -> o_kind o = Instance -> py_planet o = Ret (wrap o).
Proof. intros (He & _) Hk. unfold PyPlanetModel.py_planet. rewrite Hk, He. reflexivity. Qed.

Lemma transparent o u : o_kind o = Instance -> same_methods o u -> dem u = o_type_name o -> exists p, py_planet o = Ret p /\
  (forall t, eph p t = eph u t) /\ (forall ts, eph_v p ts = eph_v u ts) /\
  get_mu_central_body p = get_mu_central_body u /\ get_mu_self p = get_mu_self u /\ get_radius p = get_radius u /\ get_safe_radius p = get_safe_radius u /\
  get_name dem p = get_name dem u /\ get_extra_info p = get_extra_info u /\
  ((exists n, get_name dem u = Ret n) -> (forall t, period dem two_pi p t = period dem two_pi u t) /\
     forall t et, elements dem ic2par f2m par2eq p t et = elements dem ic2par f2m par2eq u t et).
Proof.
  intros Hk Hm Hd. exists (wrap o). split; [eapply py_planet_some; eauto|].
  destruct Hm as (He & Hev & Hmu & Hms & Hr & Hs & Hn & Hx & Hp & Hel).
  apply method_callable in Hev, Hmu, Hms, Hr, Hs, Hn, Hx, Hp, Hel.
  assert (He' : forall t, w_eph o t = u_eph u t) by (intro t; unfold w_eph; rewrite He; reflexivity).
  split; [exact He'|]. split.
  { intro ts. unfold eph_v. cbn. unfold w_eph_v. rewrite Hev. destruct (u_eph_v u); [reflexivity|]. apply default_eph_v_ext. exact He'. }
  unfold get_mu_central_body, get_mu_self, get_radius, get_safe_radius, get_name, get_extra_info. cbn.
  unfold w_mu, w_mu_self, w_radius, w_safe_radius, w_name, w_extra, getter_wrapper. rewrite Hmu, Hms, Hr, Hs, Hn, Hx, Hd. unfold get_or.
  do 6 (split; [reflexivity|]).
  intros [n Hname]. split.
  - intro t. unfold period. cbn. unfold w_period. rewrite Hp, Hmu. destruct (u_period u); [reflexivity|]. unfold w_mu, get_mu_central_body, getter_wrapper, get_name, get_or. rewrite Hmu.
    destruct (u_mu u) as [m|].
    + rewrite He'. unfold eph. destruct (u_eph u t) as [[[[a b] c] [[d e] f]]|e|]; cbn [bind]; try reflexivity. destruct m; cbn [bind]; try reflexivity.
      unfold period_from_energy. cbn [fst snd]. destruct (dgtb _ _); reflexivity.
    + rewrite Hd, Hname. reflexivity.
  - intros t et. unfold elements. cbn. unfold w_elements. rewrite Hel, Hmu. destruct (u_elements u); [reflexivity|]. unfold w_mu, get_mu_central_body, getter_wrapper, get_name, get_or. rewrite Hmu.
    destruct (u_mu u) as [m|].
    + rewrite He'. unfold eph. destruct (u_eph u t); cbn [bind]; try reflexivity.
    + rewrite Hd, Hname. reflexivity.
Qed.

Lemma chunk6_ok n : forall l, (6 * n <= List.length l)%nat -> exists tab, chunk6 n l = Ret tab /\ List.length tab = n /\
  forall i, (i < n)%nat -> nth_error tab i = Some (firstn 6 (skipn (6 * i) l)).
Proof.
  induction n as [|n IH]; intros l H.
  - exists []. repeat split. intros i Hi. lia.
  - cbn [chunk6]. destruct (Nat.ltb_spec (List.length l) 6); [lia|].
    destruct (IH (skipn 6 l)) as (tab & Ht & Hl & Hn). { rewrite skipn_length. lia. }
    rewrite Ht. cbn [bind]. exists (firstn 6 l :: tab). split; [reflexivity|]. split; [cbn; lia|].
    intros [|i] Hi; [reflexivity|]. cbn [nth_error]. rewrite Hn by lia. do 2 f_equal.
    assert (Hs : forall a b (m : list double), skipn a (skipn b m) = skipn (b + a) m).
    { intros a b. induction b as [|b IHb]; intros m; [reflexivity|]. destruct m as [|x m]; [destruct a; reflexivity|]. cbn. apply IHb. }
    rewrite Hs. f_equal. lia.
Qed.
Lemma chunk6_ub n : forall l, chunk6 n l = UB <-> (List.length l < 6 * n)%nat.
Proof.
  induction n as [|n IH]; intros l; cbn [chunk6].
  - split; [discriminate|lia].
  - destruct (Nat.ltb_spec (List.length l) 6).
    + split; [lia|reflexivity].
    + specialize (IH (skipn 6 l)). rewrite skipn_length in IH. destruct (chunk6 n (skipn 6 l)) eqn:E; cbn [bind].
      * split; [discriminate|]. intro H1. destruct IH as [_ IH]. discriminate IH. lia.
      * exfalso. destruct (chunk6_ok n (skipn 6 l)) as (tab & Ht & _); [|congruence]. rewrite skipn_length. destruct (le_lt_dec (6 * n) (List.length l - 6)); [lia|]. destruct IH as [_ IH]. discriminate IH. lia.
      * split; [|reflexivity]. intros _. destruct IH as [IH _]. specialize (IH eq_refl). lia.
Qed.
(** rows of a flattened array *)
Lemma binding_ok p ts r : eph_v p ts = Ret r -> (bind_eph_v p ts = UB <-> (List.length r < 6 * List.length ts)%nat) /\
  ((6 * List.length ts <= List.length r)%nat -> exists tab, bind_eph_v p ts = Ret tab /\ List.length tab = List.length ts /\
     forall i, (i < List.length ts)%nat -> nth_error tab i = Some (firstn 6 (skipn (6 * i) r))).
Proof.
  intro H. unfold bind_eph_v. rewrite H. cbn [bind]. split; [apply chunk6_ub|]. apply chunk6_ok.
Qed.
Lemma rows_row (f : double -> outcome posvel) : forall ts r, rows f ts = Ret r -> forall i t, nth_error ts i = Some t ->
  exists x y z u v w, f t = Ret ((x, y, z), (u, v, w)) /\ firstn 6 (skipn (6 * i) r) = [x; y; z; u; v; w].
Proof.
  intros ts r. revert r. induction ts as [|t0 ts IH]; intros r Hr i t Hi; [destruct i; discriminate|]. cbn in Hr.
  destruct (f t0) as [[[[x y] z] [[u v] w]]|e|] eqn:Ef; try discriminate. destruct (rows f ts) as [r'|e|] eqn:Er; try discriminate. injection Hr as <-.
  destruct i as [|i].
  - injection Hi as <-. exists x, y, z, u, v, w. split; [exact Ef|reflexivity].
  - destruct (IH r' eq_refl i t Hi) as (x' & y' & z' & u' & v' & w' & Hf & Hrow). exists x', y', z', u', v', w'. split; [exact Hf|].
    rewrite <- Hrow. replace (6 * S i)%nat with (6 + 6 * i)%nat by lia. reflexivity.
Qed.
Lemma binding_default p ts : u_eph_v p = None -> 6 * Z.of_nat (List.length ts) <= max_doubles ->
  match bind_eph_v p ts with
  | Ret tab => table_of (u_eph p) ts tab
  | Throw e => exists t, In t ts /\ u_eph p t = Throw e
  | UB => exists t, In t ts /\ u_eph p t = UB
  end.
Proof.
  intros Hv Hs. unfold bind_eph_v, eph_v. rewrite Hv, default_eph_v_rows by exact Hs.
  destruct (rows (u_eph p) ts) as [r|e|] eqn:Er; cbn [bind].
  - pose proof (rows_length _ _ _ Er) as Hl. destruct (chunk6_ok (List.length ts) r) as (tab & Ht & Hlt & Hn); [lia|]. rewrite Ht. split; [exact Hlt|].
    intros i t Hi. destruct (rows_row _ _ _ Er i t Hi) as (x & y & z & u & v & w & Hf & Hrow). exists x, y, z, u, v, w. split; [exact Hf|]. rewrite <- Hrow. apply Hn. apply nth_error_Some. congruence.
  - revert Er. clear. induction ts as [|t ts IH]; cbn; [discriminate|]. destruct (u_eph p t) as [a|e'|] eqn:E; try discriminate.
    + destruct (rows (u_eph p) ts); try discriminate. intro H. destruct (IH H) as (t' & Hin & Ht'). exists t'. split; [right; exact Hin|exact Ht'].
    + intro H. injection H as ->. exists t. split; [left; reflexivity|exact E].
  - revert Er. clear. induction ts as [|t ts IH]; cbn; [discriminate|]. destruct (u_eph p t) as [a|e'|] eqn:E; try discriminate.
    + destruct (rows (u_eph p) ts); try discriminate. intro H. destruct (IH eq_refl) as (t' & Hin & Ht'). exists t'. split; [right; exact Hin|exact Ht'].
    + intro H. exists t. split; [left; reflexivity|exact E].
Qed.
(** a Python planet without eph_v *)
Lemma binding_python o u ts : o_kind o = Instance -> same_methods o u -> u_eph_v u = None -> 6 * Z.of_nat (List.length ts) <= max_doubles -> exists p, py_planet o = Ret p /\
  match bind_eph_v p ts with
  | Ret tab => table_of (u_eph u) ts tab
  | Throw e => exists t, In t ts /\ u_eph u t = Throw e
  | UB => exists t, In t ts /\ u_eph u t = UB
  end.
Proof.
  intros Hk Hm Hv Hs. exists (wrap o). split; [eapply py_planet_some; eauto|].
  assert (E : bind_eph_v (wrap o) ts = bind_eph_v u ts).
  { unfold bind_eph_v. f_equal. destruct Hm as (He & Hev & _). apply method_callable in Hev. unfold eph_v. cbn. unfold w_eph_v. rewrite Hev, Hv. apply default_eph_v_ext.
    intro t. cbn. unfold w_eph. rewrite He. reflexivity. }
  rewrite E. apply binding_default; assumption.
Qed.
(** eph_v of the right shape when the user's returns six numbers per date *)
Definition short_obj : pyobj := mk_pyobj Instance 1 "short" (Method (fun _ => Ret ((done, dzero, dzero), (dzero, done, dzero))))
  (Method (fun _ => Ret [done; dzero; dzero])) Absent Absent Absent Absent Absent Absent Absent Absent.
Lemma binding_short : exists o p, py_planet o = Ret p /\ eph_v p [dzero] = Ret [done; dzero; dzero] /\ bind_eph_v p [dzero] = UB.
Proof. exists short_obj, (wrap short_obj). repeat split. Qed.
(** an object with eph (position (1, t, 0)) and a name; its [period] is a number, not a method *)
Definition plain_obj : pyobj := mk_pyobj Instance 2 "plain" (Method (fun t => Ret ((done, t, dzero), (dzero, done, dzero))))
  Absent Absent Absent Absent Absent (Method (Ret "my_planet"%string)) Absent NotCallable Absent.
Lemma plain_example : exists p, py_planet plain_obj = Ret p /\
  bind_eph_v p [dzero; done] = Ret [[done; dzero; dzero; dzero; done; dzero]; [done; done; dzero; dzero; done; dzero]] /\
  get_mu_self p = Ret (d_of_Z (-1)) /\ get_name (fun _ => ""%string) p = Ret "my_planet"%string /\ elements (fun _ => ""%string) ic2par f2m par2eq p dzero KEP_F = Throw NotImplemented.
Proof. exists (wrap plain_obj). repeat split. Qed.
End Oracles.

Lemma extract_doc_ok h t : t <> PyClass 0 -> extract_doc h t (extract h t).
Proof.
  intro H. destruct t as [|k|c], h as [k'|o]; cbn; try reflexivity.
  - destruct (k =? k')%nat; reflexivity.
  - assert (Hc : (c =? 0)%nat = false) by (apply Nat.eqb_neq; congruence). rewrite Hc, orb_false_r. destruct (o_class o =? c)%nat; reflexivity.
Qed.
Lemma extract_object : exists h, ~ extract_doc h (PyClass 0) (extract h (PyClass 0)).
Proof. exists (Py short_obj). cbn. discriminate. Qed.
Lemma is_extract h t : (exists e, is_ h t = Throw e /\ extract h t = Throw e) \/ exists r, extract h t = Ret r /\ is_ h t = Ret (match r with None => false | Some _ => true end).
Proof. unfold is_. destruct (extract h t) as [r|e|] eqn:E; cbn; [right; eauto|left; eauto|]. exfalso. destruct t, h; cbn in E; try discriminate; destruct (_ =? _)%nat; discriminate. Qed.
(** what is handed back is what was put in *)
Lemma extract_same h t h' : extract h t = Ret (Some h') -> h' = h.
Proof. destruct t, h; cbn; try discriminate; destruct (_ =? _)%nat; congruence. Qed.
