(** * The constructor on Python objects against the typed model, and what sharing the lists does *)
From Coq Require Import Reals List String Bool Lra Lia PeanoNat.
From Verif Require Import Outcome MgaModel MgaFitModel PyMgaModel PyMgaSpec PyMgaProofs.
Import ListNotations.
Open Scope R_scope.

Lemma nums_items h i : forall ks l, Forall2 (fun k p => get h k = [PNum (fst p); PNum (snd p)]) ks l -> (i < 2)%nat -> items h i (map PRef ks) = Done (map PNum (map (match i with O => fst | _ => snd end) l)).
Proof. intros ks l F Hi. induction F as [|k p ks l E F IH]; [reflexivity|]. cbn. rewrite E, IH. destruct i as [|[|i]]; [reflexivity..|lia]. Qed.
Lemma nums_ge h : forall ks l, Forall2 (fun k p => get h k = [PNum (fst p); PNum (snd p)]) ks l -> forallb (is_pair h) (map PRef ks) = true /\
  all_ge h (map PRef ks) = Done (negb (existsb (fun p => if Rlt_dec (snd p) (fst p) then true else false) l)).
Proof.
  intros ks l F. induction F as [|k p ks l E F [IH1 IH2]]; [split; reflexivity|]. cbn. rewrite E, IH1, IH2. split; [reflexivity|]. cbn. destruct (Rle_dec (fst p) (snd p)), (Rlt_dec (snd p) (fst p)); try lra; reflexivity.
Qed.
Lemma map_rep (x : R) n : map PNum (repeat x n) = repeat (PNum x) n.
Proof. induction n; cbn; [reflexivity|rewrite IHn; reflexivity]. Qed.
Lemma f2_len {A B} {Q : A -> B -> Prop} {l m} : Forall2 Q l m -> List.length l = List.length m.
Proof. intros F. induction F; cbn; [reflexivity|rewrite IHF; reflexivity]. Qed.
Section Main.
Variable fs : string -> bool.
Theorem init_typed h seq a0 d0 d1 x0 x1 tof t bs vinf multi enc ins e rp : get h seq = map PPlanet bs -> get h a0 = [d0; d1] -> date_of d0 x0 -> date_of d1 x1 -> means h a0 enc tof t ->
  match mga_ctor bs (x0, x1) t vinf multi ins e rp with
  | Ret P => exists p h', mga_init fs h seq (PRef a0) tof vinf multi enc ins e rp = (Done p, h') /\ py_bounds h' p = Done (map PNum (fst (get_bounds P)), map PNum (snd (get_bounds P))) /\
      o_nlegs p = n_legs P /\ o_mu p = common_mu P /\ o_vinf p = m_vinf P
  | Throw _ => exists x, fst (mga_init fs h seq (PRef a0) tof vinf multi enc ins e rp) = Raise x
  | UB => False
  end.
Proof.
  intros HS HA D0 D1 ME. assert (LA : (a0 < List.length h)%nat) by (destruct (Nat.lt_ge_cases a0 (List.length h)) as [|L]; [assumption|]; rewrite (get_out h a0 L) in HA; discriminate HA).
  assert (NS : a0 <> seq) by (intros ->; rewrite HS in HA; destruct bs as [|b bs]; [discriminate HA|]; cbn in HA; injection HA as HA _; destruct D0 as [D0|D0]; congruence).
  assert (DT : forall x, In x (get h a0) -> dateish x). { rewrite HA. intros x [<-|[<-|[]]]; [exists x0; exact D0|exists x1; exact D1]. }
  set (h' := stamped h (PRef a0)). assert (EA : get h' a0 = [PEpoch x0; PEpoch x1]). { unfold h'. cbn [stamped]. rewrite put_same by exact LA. rewrite HA. destruct D0 as [-> | ->], D1 as [-> | ->]; reflexivity. }
  assert (EO : forall k, k <> a0 -> get h' k = get h k) by (intros k Hk; unfold h'; cbn [stamped]; apply put_other; congruence).
  assert (T0 : check_t0 h (PRef a0) = (Done tt, h')). { unfold h'. cbn [check_t0 stamped]. rewrite (epochs_ok _ DT). reflexivity. }
  unfold mga_init, mga_ctor. rewrite T0. destruct bs as [|b bs]; [rewrite HS; cbn; eexists; reflexivity|]. rewrite (EO seq (fun Q => NS (eq_sym Q))).
  assert (CS : check_seq (get h seq) = if existsb (fun s => if Req_EM_T (b_muc s) (b_muc b) then false else true) (b :: bs) then Raise ValueError else Done (b_muc b)).
  { rewrite HS. unfold check_seq. rewrite mus_planets. cbn [map pbind]. change (b_muc b :: map b_muc bs) with (map b_muc (b :: bs)).
    replace (forallb (fun x => if Req_EM_T x (b_muc b) then true else false) (map b_muc (b :: bs))) with (negb (existsb (fun s => if Req_EM_T (b_muc s) (b_muc b) then false else true) (b :: bs))); [destruct (existsb _ _); reflexivity|].
    generalize (b :: bs). intros l. induction l as [|c l IH]; [reflexivity|]. cbn. rewrite <- IH. destruct (Req_EM_T (b_muc c) (b_muc b)); reflexivity. }
  rewrite CS. destruct (existsb (fun s => if Req_EM_T (b_muc s) (b_muc b) then false else true) (b :: bs)); [eexists; reflexivity|]. cbn [pbind fst].
  assert (LS : List.length (get h seq) = S (List.length bs)) by (rewrite HS, map_length; reflexivity).
  assert (FM : first_mu (get h seq) = Done (b_muc b)) by (rewrite HS; reflexivity). rewrite FM, LS.
  assert (BD : forall p, o_t0 p = PRef a0 -> o_nlegs p = List.length bs -> o_enc p = enc -> o_tof p = tof -> (match t with TDirect l => List.length l = List.length bs | _ => True end) -> forall P, m_t0 P = (x0, x1) -> m_tofs P = t -> n_legs P = List.length bs ->
      py_bounds h' p = Done (map PNum (fst (get_bounds P)), map PNum (snd (get_bounds P)))).
  { intros p P1 P2 P3 P4 P5 P Q1 Q2 Q3. unfold py_bounds, py_bound, get_bounds. rewrite P1, P2, P3, P4, Q1, Q2, Q3. cbn [as_list pbind]. rewrite EA. cbn [mjd nth_error pbind fst snd].
    destruct t as [lb ub|l|r]; cbn [means] in ME.
    - destruct ME as [-> [a [-> [N G]]]]. cbn [as_list pbind]. rewrite (EO a N), G. cbn. rewrite !map_rep. reflexivity.
    - destruct ME as [-> [a [ks [-> [N [G F]]]]]]. change (String.eqb "direct" "alpha") with false. change (String.eqb "direct" "direct") with true. cbn [as_list pbind]. rewrite (EO a N), G.
      assert (F' : Forall2 (fun k p => get h' k = [PNum (fst p); PNum (snd p)]) ks l) by (clear - F EO; induction F as [|k q ks l [N E] F IH]; constructor; [rewrite EO by exact N; exact E|exact IH]).
      rewrite (nums_items h' 0 ks l F' ltac:(lia)), (nums_items h' 1 ks l F' ltac:(lia)). reflexivity.
    - destruct ME as [-> ->]. cbn. rewrite !map_rep. reflexivity. }
  assert (TF : check_tof fs h' (S (List.length bs)) enc tof = match t with TDirect l => if negb (List.length l =? List.length bs)%nat then Raise TypeError else if existsb (fun p => if Rlt_dec (snd p) (fst p) then true else false) l then Raise TypeError else Done tt | _ => Done tt end).
  { unfold check_tof. destruct t as [lb ub|l|r]; cbn [means] in ME.
    - destruct ME as [-> [a [-> [N G]]]]. change (String.eqb "alpha" "alpha") with true. cbv iota. rewrite (EO a N), G. reflexivity.
    - destruct ME as [-> [a [ks [-> [N [G F]]]]]]. change (String.eqb "direct" "alpha") with false. change (String.eqb "direct" "direct") with true. cbv iota zeta. rewrite (EO a N), G, map_length, (f2_len F). replace (S (List.length bs) - 1)%nat with (List.length bs) by lia. destruct (List.length l =? List.length bs)%nat; [|reflexivity]. cbn [negb].
      assert (F' : Forall2 (fun k p => get h' k = [PNum (fst p); PNum (snd p)]) ks l) by (clear - F EO; induction F as [|k q ks l [N E] F IH]; constructor; [rewrite EO by exact N; exact E|exact IH]).
      destruct (nums_ge h' ks l F') as [-> ->]. cbn [negb pbind]. destruct (existsb _ l); reflexivity.
    - destruct ME as [-> ->]. reflexivity. }
  rewrite TF. cbn [List.length]. replace (S (List.length bs) - 1)%nat with (List.length bs) by lia.
  assert (FIN : forall (I0 : match t with TDirect l => List.length l = List.length bs | _ => True end),
    match bind (if ins then match rp, e with Some rp0, Some e0 => Ret (Some (e0, rp0)) | _, _ => Throw InvalidArgument end else Ret None) (fun i => Ret (mk_mga (b :: bs) (x0, x1) t (vinf * 1000) multi i)) with
    | Ret P => exists p h0, (pbind (check_ins ins e rp) (fun _ => Done (mk_pmga seq (PRef a0) tof (vinf * 1000) multi enc ins e rp (List.length bs) (b_muc b))), h') = (Done p, h0) /\ py_bounds h0 p = Done (map PNum (fst (get_bounds P)), map PNum (snd (get_bounds P))) /\ o_nlegs p = n_legs P /\ o_mu p = common_mu P /\ o_vinf p = m_vinf P
    | Throw _ => exists x, pbind (check_ins ins e rp) (fun _ => Done (mk_pmga seq (PRef a0) tof (vinf * 1000) multi enc ins e rp (List.length bs) (b_muc b))) = Raise x
    | UB => False end).
  { intros I0. assert (G : forall i, exists p h0, (Done (mk_pmga seq (PRef a0) tof (vinf * 1000) multi enc ins e rp (List.length bs) (b_muc b)), h') = (Done p, h0) /\ py_bounds h0 p = Done (map PNum (fst (get_bounds (mk_mga (b :: bs) (x0, x1) t (vinf * 1000) multi i))), map PNum (snd (get_bounds (mk_mga (b :: bs) (x0, x1) t (vinf * 1000) multi i)))) /\
       o_nlegs p = n_legs (mk_mga (b :: bs) (x0, x1) t (vinf * 1000) multi i) /\ o_mu p = common_mu (mk_mga (b :: bs) (x0, x1) t (vinf * 1000) multi i) /\ o_vinf p = m_vinf (mk_mga (b :: bs) (x0, x1) t (vinf * 1000) multi i)).
    { intros i. eexists. eexists. split; [reflexivity|]. split; [|cbn; split; [unfold n_legs; cbn; lia|split; reflexivity]]. apply BD; try reflexivity; [exact I0|unfold n_legs; cbn; lia]. }
    destruct ins; [|cbn; apply G]. destruct rp as [rp|]; [|cbn; eexists; reflexivity]. destruct e as [e|]; [|cbn; eexists; reflexivity]. cbn [bind check_ins pbind]. apply G. }
  destruct t as [lb ub|l|r]; try (cbn [bind pbind]; apply FIN; exact I).
  destruct (List.length l =? List.length bs)%nat eqn:LL; [|cbn; eexists; reflexivity]. cbn [negb]. destruct (existsb _ l); [cbn; eexists; reflexivity|]. cbn [bind pbind]. apply FIN. apply Nat.eqb_eq. exact LL.
Qed.
(** ** examples *)
Definition pb (m : R) : pv := PPlanet (mk_body (fun _ => Throw OutOfRange) m 1 1).
(** a sequence of two planets; launch dates 0 and 1000; one pair of times of flight; the list of pairs *)
Definition h_ex : heap := [[pb 1; pb 1]; [PNum 0; PNum 1000]; [PNum 30; PNum 200]; [PRef 2]].
Definition p_ex : pmga := mk_pmga 0 (PRef 1) (PRef 3) (2 * 1000) false "direct" false None None 1 1.
Lemma h_seq : check_seq [pb 1; pb 1] = Done 1.
Proof. cbn. destruct (Req_EM_T 1 1); [reflexivity|contradiction]. Qed.
Theorem init_example : mga_init fs h_ex 0 (PRef 1) (PRef 3) 2 false "direct" false None None = (Done p_ex, [[pb 1; pb 1]; [PEpoch 0; PEpoch 1000]; [PNum 30; PNum 200]; [PRef 2]]) /\
  py_bounds [[pb 1; pb 1]; [PEpoch 0; PEpoch 1000]; [PNum 30; PNum 200]; [PRef 2]] p_ex = Done ([PNum 0; PNum 30], [PNum 1000; PNum 200]).
Proof.
  split; [|reflexivity]. unfold mga_init. change (get h_ex 0) with [pb 1; pb 1]. rewrite h_seq. cbn. destruct (Rle_dec 30 200); [|lra]. reflexivity.
Qed.
(** rejected for its encoding, the dates are overwritten all the same *)
Theorem init_half : exists h seq t0 tof vinf multi enc ins e rp x h', mga_init fs h seq t0 tof vinf multi enc ins e rp = (Raise x, h') /\ h' <> h.
Proof.
  exists h_ex, 0%nat, (PRef 1), (PRef 3), 2, false, "gamma"%string, false, None, None, ValueError. eexists. split.
  - unfold mga_init. change (get h_ex 0) with [pb 1; pb 1]. rewrite h_seq. cbn. reflexivity.
  - discriminate.
Qed.
(** one list for the launch dates and the times of flight *)
Theorem init_alias : exists h seq a vinf p h' d l ub, (forall x, In x (get h a) -> exists r, x = PNum r) /\ mga_init fs h seq (PRef a) (PRef a) vinf false "alpha" false None None = (Done p, h') /\
  py_bounds h' p = Done (PNum d :: PEpoch d :: l, ub).
Proof.
  exists h_ex, 0%nat, 1%nat, 2. eexists. eexists. exists 0. eexists. eexists. split; [|split].
  - cbn. intros x [<-|[<-|[]]]; eexists; reflexivity.
  - unfold mga_init. change (get h_ex 0) with [pb 1; pb 1]. rewrite h_seq. cbn. reflexivity.
  - cbn. reflexivity.
Qed.
(** one launch date is enough for the constructor *)
Theorem init_short : exists h seq t0 tof vinf enc p h', mga_init fs h seq t0 tof vinf false enc false None None = (Done p, h') /\ py_bounds h' p = Raise IndexError.
Proof.
  exists [[pb 1; pb 1]; [PNum 0]], 0%nat, (PRef 1), (PNum 7), 2, "eta"%string. eexists. eexists. split.
  - unfold mga_init. change (get _ 0) with [pb 1; pb 1] at 1. rewrite h_seq. cbn. reflexivity.
  - reflexivity.
Qed.
(** the launch dates are not compared *)
Theorem init_order : exists h seq t0 tof vinf enc p h' a b l m, mga_init fs h seq t0 tof vinf false enc false None None = (Done p, h') /\ py_bounds h' p = Done (PNum a :: l, PNum b :: m) /\ b < a.
Proof.
  exists [[pb 1; pb 1]; [PNum 1; PNum 0]], 0%nat, (PRef 1), (PNum 7), 2, "eta"%string. eexists. eexists. eexists. eexists. eexists. eexists. split; [|split].
  - unfold mga_init. change (get _ 0) with [pb 1; pb 1] at 1. rewrite h_seq. cbn. reflexivity.
  - cbn. reflexivity.
  - lra.
Qed.
(** two problems made from the same list: an assignment to the list of one changes the bounds of the other *)
Theorem init_shared : exists h seq t0 tof vinf enc p q h1 h2 a b b', mga_init fs h seq t0 tof vinf false enc false None None = (Done p, h1) /\ mga_init fs h1 seq t0 tof (vinf + 1) false enc false None None = (Done q, h2) /\
  o_t0 p = PRef a /\ py_bounds h2 q = Done b /\ py_bounds (put a [PEpoch 5; PEpoch 6] h2) q = Done b' /\ b <> b'.
Proof.
  exists h_ex, 0%nat, (PRef 1), (PNum 7), 2, "eta"%string. eexists. eexists. eexists. eexists. exists 1%nat. eexists. eexists. split; [|split; [|split; [|split; [|split]]]].
  - unfold mga_init. change (get h_ex 0) with [pb 1; pb 1]. rewrite h_seq. cbn. reflexivity.
  - unfold mga_init. change (get _ 0) with [pb 1; pb 1] at 1. rewrite h_seq. cbn. reflexivity.
  - reflexivity.
  - cbn. reflexivity.
  - cbn. reflexivity.
  - intros Q. injection Q as Q _. lra.
Qed.
End Main.
