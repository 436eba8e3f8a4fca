(** * Proofs about the constructor of the gravity assist problem on Python objects *)
From Coq Require Import Reals List String Bool Lra Lia PeanoNat.
From Verif Require Import Outcome MgaModel MgaFitModel PyMgaModel PyMgaSpec.
Import ListNotations.
Open Scope R_scope.

(** ** heaps *)
Lemma put_len {A} (l : A) : forall h a, List.length (put a l h) = List.length h.
Proof. induction h as [|x h IH]; intros [|a]; cbn; [reflexivity..|rewrite IH; reflexivity]. Qed.
Lemma put_other (l : list pv) : forall h a b, a <> b -> get (put a l h) b = get h b.
Proof. unfold get. induction h as [|x h IH]; intros [|a] [|b] N; cbn; try reflexivity; try (exfalso; apply N; reflexivity). apply IH. congruence. Qed.
Lemma put_same (l : list pv) : forall h a, (a < List.length h)%nat -> get (put a l h) a = l.
Proof. unfold get. induction h as [|x h IH]; intros [|a] N; cbn in *; try lia; [reflexivity|apply IH; lia]. Qed.
Lemma put_get : forall (h : heap) a, put a (get h a) h = h.
Proof. unfold get. induction h as [|x h IH]; intros [|a]; cbn; try reflexivity. rewrite IH. reflexivity. Qed.
Lemma put_put (l m : list pv) : forall h a, put a l (put a m h) = put a l h.
Proof. induction h as [|x h IH]; intros [|a]; cbn; try reflexivity. rewrite IH. reflexivity. Qed.
Lemma get_out (h : heap) a : (List.length h <= a)%nat -> get h a = [].
Proof. intros H. apply nth_overflow. exact H. Qed.
Lemma get_put l h a : get (put a l h) a = if (a <? List.length h)%nat then l else [].
Proof. destruct (a <? List.length h)%nat eqn:E; [apply Nat.ltb_lt in E; apply put_same; exact E|apply Nat.ltb_ge in E; apply get_out; rewrite put_len; exact E]. Qed.

(** ** dates *)
Lemma epochs_len : forall l, List.length (snd (epochs l)) = List.length l.
Proof. induction l as [|x l IH]; [reflexivity|]. destruct x; cbn; try reflexivity; destruct (epochs l); cbn in *; lia. Qed.
Lemma epochs_ok : forall l, (forall x, In x l -> dateish x) -> epochs l = (Done tt, map stamp l).
Proof.
  induction l as [|x l IH]; intros H; [reflexivity|]. assert (IH' : epochs l = (Done tt, map stamp l)) by (apply IH; intros y Hy; apply H; right; exact Hy).
  destruct (H x (or_introl eq_refl)) as [d [-> | ->]]; cbn; rewrite IH'; reflexivity.
Qed.
Lemma epochs_done : forall l, fst (epochs l) = Done tt -> forall x, In x l -> dateish x.
Proof.
  induction l as [|y l IH]; intros H x Hx; [destruct Hx|]. destruct y; cbn in H; try discriminate H; destruct (epochs l) as [o r0] eqn:E; cbn in H, IH; subst o; (destruct Hx as [<-|Hx]; [eexists; first [left; reflexivity|right; reflexivity]|apply IH; [reflexivity|exact Hx]]).
Qed.
Lemma epochs_changes : forall l, Forall2 (fun x y => y = x \/ exists r, x = PNum r /\ y = PEpoch r) l (snd (epochs l)).
Proof.
  assert (R0 : forall l, Forall2 (fun x y => y = x \/ exists r, x = PNum r /\ y = PEpoch r) l l) by (induction l; constructor; [left; reflexivity|assumption]).
  induction l as [|x l IH]; [constructor|]. destruct x; cbn; try apply R0; destruct (epochs l) as [o r0] eqn:E; cbn in *; constructor; try assumption; [right; eexists; split; reflexivity|left; reflexivity].
Qed.
Lemma stamp_date : forall l, (forall x, In x l -> dateish x) -> forall x, In x (map stamp l) -> exists d, x = PEpoch d.
Proof. intros l H x Hx. apply in_map_iff in Hx. destruct Hx as [y [<- Hy]]. destruct (H y Hy) as [d [-> | ->]]; exists d; reflexivity. Qed.
Lemma stamp_twice : forall x, stamp (stamp x) = stamp x.
Proof. destruct x; reflexivity. Qed.

(** ** the sequence *)
Lemma mus_planets : forall bs, mus (map PPlanet bs) = Done (map b_muc bs).
Proof. induction bs as [|b bs IH]; [reflexivity|]. cbn. rewrite IH. reflexivity. Qed.
Lemma mus_done : forall l m, mus l = Done m -> exists bs, l = map PPlanet bs /\ m = map b_muc bs.
Proof.
  induction l as [|x l IH]; intros m H; [injection H as <-; exists []; split; reflexivity|]. destruct x; try discriminate H. cbn in H. destruct (mus l) as [m'|] eqn:E; [|discriminate H]. cbn in H. injection H as <-.
  destruct (IH m' eq_refl) as [bs [-> ->]]. exists (b :: bs). split; reflexivity.
Qed.
Lemma seq_done l m : check_seq l = Done m <-> exists b bs, l = map PPlanet (b :: bs) /\ m = b_muc b /\ forall x y, In x (b :: bs) -> In y (b :: bs) -> b_muc x = b_muc y.
Proof.
  unfold check_seq. split.
  - destruct (mus l) as [ms|] eqn:E; cbn; [|discriminate]. destruct (mus_done l ms E) as [[|b bs] [-> ->]]; [discriminate|]. cbn [map].
    destruct (forallb _ _) eqn:F; [|discriminate]. intros H. injection H as <-. exists b, bs. split; [reflexivity|]. split; [reflexivity|].
    rewrite forallb_forall in F. assert (A : forall z, In z (b :: bs) -> b_muc z = b_muc b). { intros z Hz. specialize (F (b_muc z) (in_map b_muc (b :: bs) z Hz)). destruct (Req_EM_T (b_muc z) (b_muc b)); [assumption|discriminate]. }
    intros x y Hx Hy. rewrite (A x Hx), (A y Hy). reflexivity.
  - intros [b [bs [-> [-> A]]]]. rewrite mus_planets. cbn [pbind map]. assert (F : forallb (fun x => if Req_EM_T x (b_muc b) then true else false) (b_muc b :: map b_muc bs) = true).
    { apply forallb_forall. intros z Hz. change (In z (map b_muc (b :: bs))) in Hz. apply in_map_iff in Hz. destruct Hz as [w [<- Hw]]. destruct (Req_EM_T (b_muc w) (b_muc b)) as [|N]; [reflexivity|]. exfalso. apply N. apply A; [exact Hw|left; reflexivity]. }
    rewrite F. reflexivity.
Qed.
Lemma seq_kept h seq t0 m : check_seq (get h seq) = Done m -> fst (check_t0 h t0) = Done tt -> get (snd (check_t0 h t0)) seq = get h seq.
Proof.
  intros S0 H. destruct t0 as [| |[|]| |a|]; try discriminate H; [reflexivity|]. cbn [check_t0] in *. pose proof (epochs_done (get h a)) as ED. destruct (epochs (get h a)) as [o l] eqn:E. cbn [fst snd] in *.
  destruct (Nat.eq_dec a seq) as [->|N]; [|apply put_other; exact N]. exfalso. apply seq_done in S0. destruct S0 as [b [bs [S0 _]]]. rewrite S0 in ED. specialize (ED H (PPlanet b) (or_introl eq_refl)). destruct ED as [d [ED|ED]]; discriminate ED.
Qed.
Lemma t0_done h t0 : fst (check_t0 h t0) = Done tt <-> (t0 = PStr "" \/ exists a, t0 = PRef a /\ forall x, In x (get h a) -> dateish x).
Proof.
  split.
  - destruct t0 as [| |[|]| |a|]; intros H; try discriminate H; [left; reflexivity|]. right. exists a. split; [reflexivity|]. apply epochs_done. cbn in H. destruct (epochs (get h a)); exact H.
  - intros [-> | [a [-> H]]]; [reflexivity|]. cbn. rewrite (epochs_ok _ H). reflexivity.
Qed.
Lemma t0_heap h t0 : fst (check_t0 h t0) = Done tt -> snd (check_t0 h t0) = stamped h t0.
Proof.
  intros H. destruct (proj1 (t0_done h t0) H) as [-> | [a [-> A]]]; [reflexivity|]. cbn. rewrite (epochs_ok _ A). reflexivity.
Qed.

(** ** the times of flight *)
Lemma pge_le x y : pge y x = Done true <-> py_le x y.
Proof.
  split.
  - destruct x, y; cbn; try discriminate; intros H; injection H as H.
    + destruct (Rle_dec r r0); [constructor; assumption|discriminate].
    + destruct (Rle_dec d d0); [constructor; assumption|discriminate].
    + constructor; exact H.
  - intros []; cbn; [destruct (Rle_dec a b); [reflexivity|contradiction]|destruct (Rle_dec a b); [reflexivity|contradiction]|rewrite H; reflexivity].
Qed.
Lemma all_ge_ok h : forall l, forallb (is_pair h) l = true /\ all_ge h l = Done true <-> forall x, In x l -> exists k u v, x = PRef k /\ get h k = [u; v] /\ py_le u v.
Proof.
  induction l as [|x l IH]; [cbn; split; [intros _ ? []|split; reflexivity]|]. split.
  - intros [A B] y Hy. cbn in A. apply andb_true_iff in A. destruct A as [A1 A2]. destruct x as [| | | |k|]; try discriminate A1. cbn in A1, B. destruct (get h k) as [|u [|v [|]]] eqn:G; try discriminate A1.
    destruct (pge v u) as [[|]|] eqn:P; try discriminate B. cbn in B. destruct Hy as [<-|Hy]; [|apply (proj1 IH (conj A2 B)); exact Hy]. exists k, u, v. split; [reflexivity|]. split; [exact G|]. apply pge_le. exact P.
  - intros H. destruct (proj2 IH (fun y Hy => H y (or_intror Hy))) as [A2 B2]. destruct (H x (or_introl eq_refl)) as [k [u [v [-> [G L]]]]]. apply pge_le in L. cbn. rewrite G, A2, L. cbn. split; [reflexivity|exact B2].
Qed.
Lemma tof_ok fs h n enc tof : (0 < n)%nat -> check_tof fs h n enc tof = Done tt <-> good_tof fs h n enc tof.
Proof.
  intros N. unfold check_tof, good_tof. destruct (String.eqb_spec enc "alpha") as [->|NA].
  - split.
    + intros H. left. split; [reflexivity|]. destruct tof as [| | | |a|]; try discriminate H. destruct (get h a) as [|x [|y [|]]] eqn:G; try discriminate H. exists a, x, y. split; [reflexivity|exact G].
    + intros [[_ [a [x [y [-> G]]]]]|[[E _]|[E _]]]; [|discriminate E..]. rewrite G. reflexivity.
  - destruct (String.eqb_spec enc "direct") as [->|ND].
    + split.
      * intros H. right. left. split; [reflexivity|]. destruct tof as [| | | |a|]; try discriminate H. exists a. split; [reflexivity|]. cbv zeta in H. destruct (List.length (get h a) =? n - 1)%nat eqn:L; [|discriminate H]. apply Nat.eqb_eq in L. cbn [negb] in H.
        destruct (forallb (is_pair h) (get h a)) eqn:F; [|discriminate H]. cbn [negb] in H. destruct (all_ge h (get h a)) as [[|]|] eqn:G; try discriminate H. split; [lia|]. apply all_ge_ok. split; assumption.
      * intros [[E _]|[[_ [a [-> [L H]]]]|[E _]]]; [discriminate E| |discriminate E]. apply all_ge_ok in H. destruct H as [F G]. cbv zeta. replace (List.length (get h a) =? n - 1)%nat with true by (symmetry; apply Nat.eqb_eq; lia). rewrite F, G. reflexivity.
    + destruct (String.eqb_spec enc "eta") as [->|NE].
      * split.
        { intros H. right. right. split; [reflexivity|]. destruct tof; try discriminate H; [left; eexists; reflexivity|]. right. exists s. split; [reflexivity|]. destruct (fs s); [reflexivity|discriminate H]. }
        { intros [[E _]|[[E _]|[_ [[r ->]|[s [-> H]]]]]]; [discriminate E..|reflexivity|rewrite H; reflexivity]. }
      * split; [discriminate|]. intros [[E _]|[[E _]|[E _]]]; contradiction.
Qed.
Lemma ins_ok ins e rp : check_ins ins e rp = Done tt <-> (ins = true -> e <> None /\ rp <> None).
Proof.
  split.
  - intros H ->. cbn in H. destruct rp; [|discriminate H]. destruct e; [|discriminate H]. split; discriminate.
  - destruct ins; [|reflexivity]. intros H. destruct (H eq_refl) as [A B]. cbn. destruct rp; [|contradiction]. destruct e; [reflexivity|contradiction].
Qed.

(** ** the constructor *)
Section Ctor.
Variable fs : string -> bool.
Lemma pair_ext {A B} (p : A * B) : p = (fst p, snd p).
Proof. destruct p; reflexivity. Qed.
Lemma unit_done (o : pres unit) u : o = Done u -> o = Done tt.
Proof. destruct u. exact (fun H => H). Qed.
Lemma init_done h seq t0 tof vinf multi enc ins e rp p h' : mga_init fs h seq t0 tof vinf multi enc ins e rp = (Done p, h') <->
  accepts fs h seq t0 tof enc ins e rp /\ h' = stamped h t0 /\
  exists b, nth_error (get h seq) 0 = Some (PPlanet b) /\ p = mk_pmga seq t0 tof (vinf * 1000) multi enc ins e rp (List.length (get h seq) - 1) (b_muc b).
Proof.
  unfold mga_init, accepts. destruct (check_seq (get h seq)) as [m|x] eqn:S0.
  - pose proof (proj1 (seq_done _ _) S0) as [b [bs [EQ [_ AL]]]]. assert (LP : (0 < List.length (get h seq))%nat) by (rewrite EQ; cbn; lia).
    rewrite (pair_ext (check_t0 h t0)). split.
    + destruct (fst (check_t0 h t0)) as [[]|] eqn:T0; [|discriminate]. rewrite (seq_kept _ _ _ _ S0 T0), (t0_heap _ _ T0). cbn [pbind].
      destruct (check_tof fs (stamped h t0) (List.length (get h seq)) enc tof) as [[]|] eqn:TF; [|discriminate]. cbn [pbind]. destruct (check_ins ins e rp) as [[]|] eqn:IN; [|discriminate]. cbn [pbind].
      rewrite EQ. cbn [first_mu map pbind]. intros H. injection H as <- <-. split; [|split; [reflexivity|exists b; split; reflexivity]].
      split; [exists (b :: bs); split; [reflexivity|split; [discriminate|exact AL]]|]. split; [apply t0_done; exact T0|]. split; [|apply ins_ok; exact IN]. change (PPlanet b :: map PPlanet bs) with (map PPlanet (b :: bs)). rewrite <- EQ. apply tof_ok; [exact LP|exact TF].
    + intros [[_ [T0 [TF IN]]] [-> [b' [EB ->]]]]. apply t0_done in T0. rewrite T0, (seq_kept _ _ _ _ S0 T0), (t0_heap _ _ T0). cbn [pbind]. apply tof_ok in TF; [|exact LP]. rewrite TF. cbn [pbind]. apply ins_ok in IN. rewrite IN. cbn [pbind].
      rewrite EQ in *. cbn [map nth_error] in EB. injection EB as <-. reflexivity.
  - split; [discriminate|]. intros [[[[|b bs] [EQ [NE AL]]] _] _]; [exfalso; apply NE; reflexivity|]. assert (Q : check_seq (get h seq) = Done (b_muc b)) by (apply seq_done; exists b, bs; split; [exact EQ|split; [reflexivity|exact AL]]). congruence.
Qed.
Theorem init_accepts h seq t0 tof vinf multi enc ins e rp :
  (exists p h', mga_init fs h seq t0 tof vinf multi enc ins e rp = (Done p, h')) <-> accepts fs h seq t0 tof enc ins e rp.
Proof.
  split.
  - intros [p [h' H]]. apply init_done in H. apply H.
  - intros A. pose proof A as [[[|b bs] [EQ [NE _]]] _]; [exfalso; apply NE; reflexivity|]. eexists. eexists. apply init_done. split; [exact A|]. split; [reflexivity|]. exists b. split; [rewrite EQ; reflexivity|reflexivity].
Qed.
Theorem init_keeps h seq t0 tof vinf multi enc ins e rp p h' : mga_init fs h seq t0 tof vinf multi enc ins e rp = (Done p, h') ->
  h' = stamped h t0 /\ o_seq p = seq /\ o_t0 p = t0 /\ o_tof p = tof /\ o_vinf p = vinf * 1000 /\ o_multi p = multi /\ o_enc p = enc /\ o_ins p = ins /\ o_e p = e /\ o_rp p = rp /\
  S (o_nlegs p) = List.length (get h seq) /\ forall b, In (PPlanet b) (get h seq) -> b_muc b = o_mu p.
Proof.
  intros H. apply init_done in H. destruct H as [[[bs [EQ [NE AL]]] _] [-> [b [EB ->]]]]. cbn. repeat split.
  - rewrite EQ, map_length. destruct bs; [exfalso; apply NE; reflexivity|cbn; lia].
  - intros b' Hb. rewrite EQ in Hb, EB. apply in_map_iff in Hb. destruct Hb as [c [Q Hc]]. injection Q as ->. destruct bs as [|c bs]; [contradiction|]. cbn in EB. injection EB as ->. apply AL; [exact Hc|left; reflexivity].
Qed.
Theorem init_frame h seq t0 tof vinf multi enc ins e rp : let h' := snd (mga_init fs h seq t0 tof vinf multi enc ins e rp) in
  List.length h' = List.length h /\ forall a, (t0 <> PRef a -> get h' a = get h a) /\ Forall2 (fun x y => y = x \/ exists r, x = PNum r /\ y = PEpoch r) (get h a) (get h' a).
Proof.
  assert (R0 : forall l : list pv, Forall2 (fun x y => y = x \/ exists r, x = PNum r /\ y = PEpoch r) l l) by (induction l; constructor; [left; reflexivity|assumption]).
  cbv zeta. unfold mga_init. destruct (check_seq (get h seq)); [|cbn; split; [reflexivity|intros b; split; [reflexivity|apply R0]]]. rewrite (pair_ext (check_t0 h t0)). cbn [snd].
  destruct t0 as [| |[|]| |k|]; cbn [check_t0 snd]; try (split; [reflexivity|intros ?; split; [reflexivity|apply R0]]).
  pose proof (epochs_changes (get h k)) as C. destruct (epochs (get h k)) as [o l] eqn:E. cbn [snd] in *. split; [apply put_len|]. intros b. destruct (Nat.eq_dec k b) as [->|N].
  - split; [intros Q; exfalso; apply Q; reflexivity|]. rewrite get_put. destruct (b <? List.length h)%nat eqn:L; [exact C|]. apply Nat.ltb_ge in L. rewrite (get_out h b L). constructor.
  - rewrite put_other by exact N. split; [reflexivity|apply R0].
Qed.
Lemma stamped_get h t0 a : get (stamped h t0) a = get h a \/ t0 = PRef a /\ get (stamped h t0) a = map stamp (get h a).
Proof.
  destruct t0 as [| | | |k|]; try (left; reflexivity). cbn [stamped]. destruct (Nat.eq_dec k a) as [->|N]; [|left; apply put_other; exact N]. right. split; [reflexivity|]. rewrite get_put. destruct (a <? List.length h)%nat eqn:L; [reflexivity|]. apply Nat.ltb_ge in L. rewrite (get_out h a L). reflexivity.
Qed.
Lemma stamped_twice h t0 : stamped (stamped h t0) t0 = stamped h t0.
Proof.
  destruct t0 as [| | | |a|]; try reflexivity. cbn [stamped]. rewrite put_put, get_put. destruct (a <? List.length h)%nat eqn:L.
  - f_equal. rewrite map_map. apply map_ext. apply stamp_twice.
  - apply Nat.ltb_ge in L. rewrite (get_out h a L). reflexivity.
Qed.
Theorem init_again h seq t0 tof vinf multi enc ins e rp p h' : mga_init fs h seq t0 tof vinf multi enc ins e rp = (Done p, h') -> mga_init fs h' seq t0 tof vinf multi enc ins e rp = (Done p, h').
Proof.
  intros H. apply init_done in H. destruct H as [[[bs [EQ [NE AL]]] [T0 [TF IN]]] [-> [b [EB ->]]]].
  assert (SQ : get (stamped h t0) seq = get h seq). { destruct (stamped_get h t0 seq) as [Q|[-> Q]]; [exact Q|]. rewrite Q, EQ, map_map. reflexivity. }
  apply init_done. rewrite SQ, stamped_twice. split; [|split; [reflexivity|exists b; split; [exact EB|reflexivity]]]. unfold accepts. rewrite SQ, stamped_twice. split; [exists bs; split; [exact EQ|split; [exact NE|exact AL]]|]. split; [|split; [exact TF|exact IN]].
  destruct T0 as [-> | [a [-> A]]]; [left; reflexivity|]. right. exists a. split; [reflexivity|]. intros x Hx. destruct (stamped_get h (PRef a) a) as [Q|[_ Q]]; rewrite Q in Hx; [apply A; exact Hx|]. destruct (stamp_date _ A x Hx) as [d ->]. exists d. right. reflexivity.
Qed.
(** ** exceptions *)
Lemma mus_raise : forall l x, mus l = Raise x -> x = AttributeError /\ exists y, In y l /\ forall b, y <> PPlanet b.
Proof.
  induction l as [|y l IH]; intros x H; [discriminate H|]. destruct y as [| | | | |b]; cbn in H; try (injection H as <-; split; [reflexivity|eexists; split; [left; reflexivity|discriminate]]).
  destruct (mus l) as [m|z] eqn:E; [discriminate H|]. cbn in H. injection H as <-. destruct (IH z eq_refl) as [-> [y [A B]]]. split; [reflexivity|]. exists y. split; [right; exact A|exact B].
Qed.
Lemma ge_raise h : forall l x, forallb (is_pair h) l = true -> all_ge h l = Raise x -> x = TypeError.
Proof.
  induction l as [|y l IH]; intros x F H; [discriminate H|]. cbn in F. apply andb_true_iff in F. destruct F as [F1 F2]. destruct y as [| | | |k|]; try discriminate F1. cbn in F1, H. destruct (get h k) as [|u [|v [|]]]; try discriminate F1.
  destruct (pge v u) as [[|]|z] eqn:P; cbn in H; [apply IH; assumption|discriminate H|]. injection H as <-. destruct v, u; cbn in P; congruence.
Qed.
Lemma tof_raise h n enc tof x : (0 < n)%nat -> check_tof fs h n enc tof = Raise x ->
  match x with TypeError => In enc ["alpha"; "direct"; "eta"]%string /\ ~ good_tof fs h n enc tof | ValueError => ~ In enc ["alpha"; "direct"; "eta"]%string \/ (enc = "eta"%string /\ exists s, tof = PStr s /\ fs s = false) | _ => False end.
Proof.
  intros N H. assert (NG : ~ good_tof fs h n enc tof) by (intros G; apply (tof_ok fs h n enc tof N) in G; congruence). unfold check_tof in H.
  destruct (String.eqb_spec enc "alpha") as [->|NA].
  - assert (x = TypeError) as -> by (destruct tof; try congruence; destruct (List.length (get h a) =? 2)%nat; congruence). split; [left; reflexivity|exact NG].
  - destruct (String.eqb_spec enc "direct") as [->|ND].
    + assert (x = TypeError) as ->; [|split; [right; left; reflexivity|exact NG]]. destruct tof as [| | | |a|]; try congruence. cbv zeta in H. destruct (negb (List.length (get h a) =? n - 1)%nat); [congruence|]. destruct (forallb (is_pair h) (get h a)) eqn:F; [|cbn in H; congruence]. cbn [negb] in H.
      destruct (all_ge h (get h a)) as [[|]|z] eqn:G; cbn in H; try congruence. apply (ge_raise h _ z F) in G. congruence.
    + destruct (String.eqb_spec enc "eta") as [->|NE].
      * destruct tof; try discriminate H; try (injection H as <-; split; [right; right; left; reflexivity|exact NG]). destruct (fs s) eqn:Q; [discriminate H|]. injection H as <-. right. split; [reflexivity|]. exists s. split; [reflexivity|exact Q].
      * injection H as <-. left. intros [Q|[Q|[Q|[]]]]; symmetry in Q; contradiction.
Qed.
Theorem init_raises h seq t0 tof vinf multi enc ins e rp x : fst (mga_init fs h seq t0 tof vinf multi enc ins e rp) = Raise x -> complaint fs h seq t0 tof enc ins e rp x.
Proof.
  unfold mga_init. destruct (check_seq (get h seq)) as [m|z] eqn:S0.
  - pose proof (proj1 (seq_done _ _) S0) as [b [bs [EQ [_ AL]]]]. assert (LP : (0 < List.length (get h seq))%nat) by (rewrite EQ; cbn; lia). rewrite (pair_ext (check_t0 h t0)). cbn [fst].
    destruct (fst (check_t0 h t0)) as [[]|z] eqn:T0.
    + rewrite (seq_kept _ _ _ _ S0 T0), (t0_heap _ _ T0). cbn [pbind]. destruct (check_tof fs (stamped h t0) (List.length (get h seq)) enc tof) as [[]|z] eqn:TF.
      * cbn [pbind]. assert (FM : first_mu (get h seq) = Done (b_muc b)) by (rewrite EQ; reflexivity). rewrite FM. destruct (check_ins ins e rp) as [[]|z] eqn:IN; [discriminate|]. cbn. intros H. injection H as <-.
        unfold check_ins in IN. destruct ins; [|discriminate IN]. destruct rp; [destruct e; [discriminate IN|]|]; injection IN as <-; cbn; right; right; right; (split; [reflexivity|]); [left|right]; reflexivity.
      * cbn. intros H. injection H as <-. apply tof_raise in TF; [|exact LP]. destruct z; cbn; [|right; exact TF|contradiction..]. destruct TF as [TF|TF]; [right; left; exact TF|right; right; left; exact TF].
    + cbn. intros H. injection H as <-. assert (z = TypeError) as ->. { destruct t0 as [| |[|]| |a|]; cbn in T0; try congruence. pose proof (epochs_len (get h a)) as _. assert (Q : forall l y, fst (epochs l) = Raise y -> y = TypeError) by (clear; induction l as [|v l IH]; intros y H; [discriminate H|]; destruct v; cbn in H; try congruence; destruct (epochs l); cbn in *; apply IH; exact H). apply (Q (get h a)). destruct (epochs (get h a)); exact T0. }
      cbn. left. intros G. apply t0_done in G. congruence.
  - cbn. intros H. injection H as <-. unfold check_seq in S0. destruct (mus (get h seq)) as [m|y] eqn:M; cbn in S0.
    + destruct (mus_done _ _ M) as [bs [EQ ->]]. destruct bs as [|b bs]; cbn [map] in S0; [injection S0 as <-; exact EQ|]. change (b_muc b :: map b_muc bs) with (map b_muc (b :: bs)) in S0. destruct (forallb (fun y => if Req_EM_T y (b_muc b) then true else false) (map b_muc (b :: bs))) eqn:F; [discriminate S0|]. injection S0 as <-. cbn. left.
      assert (Q : exists c, In c (b :: bs) /\ b_muc c <> b_muc b). { clear - F. induction (b :: bs) as [|c l IH] in F |- *; [discriminate F|]. cbn in F. destruct (Req_EM_T (b_muc c) (b_muc b)) as [|N]; [|exists c; split; [left; reflexivity|exact N]]. destruct (IH F) as [d [A B]]. exists d. split; [right; exact A|exact B]. }
      destruct Q as [c [A B]]. exists c, b. rewrite EQ. split; [apply in_map; exact A|]. split; [left; reflexivity|exact B].
    + injection S0 as <-. destruct (mus_raise _ _ M) as [-> Q]. exact Q.
Qed.
(** ** bounds *)
Lemma items_ok h i : forall l, (i < 2)%nat -> (forall x, In x l -> exists k u v, x = PRef k /\ get h k = [u; v] /\ py_le u v) -> exists s, items h i l = Done s.
Proof.
  induction l as [|x l IH]; intros Hi H; [exists []; reflexivity|]. destruct (IH Hi (fun y Hy => H y (or_intror Hy))) as [s Hs]. destruct (H x (or_introl eq_refl)) as [k [u [v [-> [G _]]]]]. cbn. rewrite G. destruct i as [|[|i]]; [| |lia]; cbn; rewrite Hs; eexists; reflexivity.
Qed.
Theorem init_bounds h seq t0 tof vinf multi enc ins e rp p h' : mga_init fs h seq t0 tof vinf multi enc ins e rp = (Done p, h') ->
  (exists r, py_bounds h' p = Done r) <-> exists a x y l, t0 = PRef a /\ get h a = x :: y :: l.
Proof.
  intros H. apply init_done in H. destruct H as [[_ [T0 [TF _]]] [-> [b [_ ->]]]]. split.
  - intros [r H]. unfold py_bounds in H. destruct (py_bound _ _ 0) as [lb|]; [|discriminate H]. cbn [pbind] in H. unfold py_bound in H. cbn [o_t0 o_enc o_tof o_nlegs] in H. destruct T0 as [-> | [a [-> _]]]; [discriminate H|]. exists a. cbn [as_list pbind] in H.
    assert (L : List.length (get (stamped h (PRef a)) a) = List.length (get h a)) by (destruct (stamped_get h (PRef a) a) as [Q|[_ Q]]; rewrite Q; [reflexivity|apply map_length]).
    destruct (get h a) as [|x [|y l]]; [| |exists x, y, l; split; reflexivity]; exfalso; destruct (get (stamped h (PRef a)) a) as [|u [|v w]]; try discriminate L; discriminate H.
  - intros [a [x [y [l [-> G]]]]]. destruct T0 as [T0|[a' [Q T0]]]; [discriminate T0|]. injection Q as <-. rewrite G in T0.
    assert (L : (a < List.length h)%nat) by (destruct (Nat.lt_ge_cases a (List.length h)) as [|L]; [assumption|]; rewrite (get_out h a L) in G; discriminate G).
    destruct (T0 x (or_introl eq_refl)) as [dx HX]. destruct (T0 y (or_intror (or_introl eq_refl))) as [dy HY].
    assert (ES : exists l', get (stamped h (PRef a)) a = PEpoch dx :: PEpoch dy :: l'). { cbn [stamped]. rewrite put_same by exact L. rewrite G. exists (map stamp l). destruct HX as [-> | ->], HY as [-> | ->]; reflexivity. }
    destruct ES as [l' ES]. unfold py_bounds, py_bound. cbn [o_t0 o_enc o_tof o_nlegs as_list pbind]. rewrite ES. cbn [mjd nth_error pbind].
    destruct TF as [[-> [k [u [v [-> GK]]]]]|[[-> [k [-> [_ GK]]]]|[-> _]]].
    + cbn [String.eqb Ascii.eqb Bool.eqb as_list pbind]. rewrite GK. cbn. eexists. reflexivity.
    + change (String.eqb "direct" "alpha") with false. change (String.eqb "direct" "direct") with true. cbn [as_list pbind]. destruct (items_ok (stamped h (PRef a)) 0 _ ltac:(lia) GK) as [s0 ->]. destruct (items_ok (stamped h (PRef a)) 1 _ ltac:(lia) GK) as [s1 ->]. eexists. reflexivity.
    + change (String.eqb "eta" "alpha") with false. change (String.eqb "eta" "direct") with false. cbn [pbind]. eexists. reflexivity.
Qed.
End Ctor.
