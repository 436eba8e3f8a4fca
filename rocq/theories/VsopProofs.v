(** * Proofs about vsop2013 *)
From Coq Require Import ZArith List Bool String Lia Reals Lra.
From Flocq Require Import Core.Core IEEE754.BinarySingleNaN.
From Verif Require Import Outcome Float64 Float64Facts JplModel JplSpec JplProofs VsopModel VsopSpec.
Import ListNotations.
Open Scope Z_scope.

Lemma idx_map_spec name k : map_find pl_idx_map (lower name) = Some k <-> exists n, In (n, k) vsop_names /\ str_ci name n.
Proof.
  split.
  - intros H. exists (lower name). split; [|apply str_ci_lower].
    revert H. unfold pl_idx_map, vsop_names. cbn [map_find].
    repeat (match goal with |- context [String.eqb ?x ?n] => destruct (String.eqb_spec x n) as [<-|?] end;
      [intros H; injection H as <-; cbn; tauto|]). discriminate.
  - intros (n & HI & Hc). rewrite (str_lower_ci _ _ Hc).
    cbn in HI. repeat (destruct HI as [HI|HI]; [injection HI as <- <-; reflexivity|]). destruct HI.
Qed.

Lemma thresh_guard th : (negb (is_finite th) || dltb th dzero)%bool = false <-> good_thresh th.
Proof.
  unfold good_thresh. destruct (is_finite th) eqn:F; cbn [negb orb].
  - split; intros H.
    + split; [reflexivity|]. destruct (Rle_or_lt 0 (B2R th)) as [L|L]; [exact L|].
      exfalso. assert (dltb th dzero = true); [|congruence]. apply dltb_R; auto.
    + destruct H as [_ H]. destruct (dltb th dzero) eqn:L; [|reflexivity]. apply dltb_R in L; auto. cbn in L. lra.
  - split; [discriminate|]. intros [H _]. discriminate.
Qed.

Lemma deqb_refl_fin th : is_finite th = true -> deqb th th = true.
Proof. intros F. unfold deqb. rewrite Beqb_correct by assumption. apply Req_bool_true. reflexivity. Qed.
Lemma key_refl k th : is_finite th = true -> key_eqb (k, th) (k, th) = true.
Proof. intros F. unfold key_eqb. cbn [fst snd]. rewrite Z.eqb_refl, deqb_refl_fin by exact F. reflexivity. Qed.

Section V.
Variable fn : Type.
Variable compile : Z -> double -> outcome fn.
Variable eval : fn -> double -> list double.
Variable mus : Z -> double.
(** equal thresholds (this identifies +0 and -0) compile to the same function *)
Hypothesis compile_eq : forall k a b, deqb a b = true -> compile k a = compile k b.

Definition cache_ok (c : list (key * fn)) : Prop := forall k th f, In ((k, th), f) c -> compile k th = Ret f.

Lemma cfind_ok c k th f : cache_ok c -> cfind (k, th) c = Some f -> compile k th = Ret f.
Proof.
  intros H. induction c as [|[[k' th'] f'] c IH]; cbn [cfind]; [discriminate|].
  unfold key_eqb. cbn [fst snd]. destruct (Z.eqb_spec k' k) as [->|]; cbn [andb].
  - destruct (deqb th' th) eqn:E.
    + intros G. injection G as <-. rewrite <- (compile_eq k th' th E). apply (H k th' f'). left. reflexivity.
    + apply IH. intros ? ? ? HI. apply H. right. exact HI.
  - apply IH. intros ? ? ? HI. apply H. right. exact HI.
Qed.

Definition compiles (k : Z) (th : double) : Prop := exists f, compile k th = Ret f.

Lemma ctor_spec c name th : cache_ok c ->
  let '(c', r) := vsop_ctor compile mus c name th in
  cache_ok c' /\ (exists t, c' = (t ++ c)%list) /\
  ((exists n k f, In (n, k) vsop_names /\ str_ci name n /\ good_thresh th /\ compile k th = Ret f /\
      r = Ret (mk_impl f (mus k) (lower name) th)) \/
   ((forall n k, In (n, k) vsop_names -> str_ci name n -> ~ (good_thresh th /\ compiles k th)) /\ forall p, r <> Ret p)).
Proof.
  intros H. unfold vsop_ctor. destruct (negb (is_finite th) || dltb th dzero)%bool eqn:G.
  - split; [exact H|]. split; [exists []; reflexivity|]. right. split; [|discriminate].
    intros n k _ _ [GT _]. apply thresh_guard in GT. congruence.
  - apply thresh_guard in G. cbv zeta. destruct (map_find pl_idx_map (lower name)) as [k|] eqn:M.
    + pose proof (proj1 (idx_map_spec name k) M) as (n & HI & Hc).
      destruct (cfind (k, th) c) as [f|] eqn:CF.
      * split; [exact H|]. split; [exists []; reflexivity|]. left. exists n, k, f. repeat (split; auto). apply (cfind_ok c); assumption.
      * destruct (compile k th) as [f|e|] eqn:C.
        -- split; [|split; [exists [((k, th), f)]; reflexivity|]].
           ++ intros k' th' f' [E|HI']; [injection E as <- <- <-; exact C|apply H; exact HI'].
           ++ left. exists n, k, f. repeat (split; auto).
        -- split; [exact H|]. split; [exists []; reflexivity|]. right. split; [|discriminate].
           intros n' k' HI' Hc' [_ [f' C']].
           assert (k' = k) by (assert (X : map_find pl_idx_map (lower name) = Some k') by (apply idx_map_spec; eauto); congruence).
           subst. congruence.
        -- split; [exact H|]. split; [exists []; reflexivity|]. right. split; [|discriminate].
           intros n' k' HI' Hc' [_ [f' C']].
           assert (k' = k) by (assert (X : map_find pl_idx_map (lower name) = Some k') by (apply idx_map_spec; eauto); congruence).
           subst. congruence.
    + split; [exact H|]. split; [exists []; reflexivity|]. right. split; [|discriminate].
      intros n k HI Hc _. assert (map_find pl_idx_map (lower name) = Some k) by (apply idx_map_spec; eauto). congruence.
Qed.

(** an object with identity (k, th) holds exactly the function compiled for (k, th) *)
Definition matches (w : world fn) (d : ids) : Prop :=
  forall i, match obj w i, d i with
    | None, None => True
    | Some p, Some (k, th) => compile k th = Ret (i_state p) /\ i_mu p = mus k /\ i_thresh p = th
    | _, _ => False
    end.
Definition inv (w : world fn) (d : ids) : Prop := cache_ok (cache w) /\ matches w d.

Lemma step_inv w d o : inv w d -> exists d', evolves compiles d o d' /\ inv (fst (vstep compile eval mus w o)) d'.
Proof.
  intros [HC HM]. destruct o as [i name th|i j|i j|i t]; cbn [vstep].
  - pose proof (ctor_spec (cache w) name th HC) as S. destruct (vsop_ctor compile mus (cache w) name th) as [c r].
    destruct S as (HC' & _ & S). destruct S as [(n & k & f & HI & Hc & Gt & C & ->)|[S NR]].
    + exists (fun j => if Nat.eqb j i then Some (k, th) else d j). split; [eapply ev_new; eauto; exists f; exact C|].
      cbn [fst]. split; [exact HC'|]. intros j. unfold set_obj. cbn [obj]. specialize (HM j).
      destruct (Nat.eqb j i); [cbn; auto|exact HM].
    + exists d. split; [apply ev_reject; exact S|]. destruct r as [p|e|]; [destruct (NR p eq_refl)| |]; (split; [exact HC'|exact HM]).
  - destruct (Nat.eqb_spec i j) as [->|N]; [exists d; split; [constructor|split; assumption]|].
    pose proof (HM j) as Hj. destruct (obj w j) as [p|] eqn:O.
    + destruct (d j) as [[k th]|] eqn:Dj; [|destruct Hj].
      exists (fun x => if Nat.eqb x i then d j else d x). split; [apply ev_copy; congruence|].
      split; [exact HC|]. intros x. unfold set_obj. cbn [fst obj]. specialize (HM x). destruct (Nat.eqb x i); [rewrite Dj; exact Hj|exact HM].
    + destruct (d j) eqn:Dj; [destruct Hj|]. exists d. split; [apply ev_copy_null; assumption|split; assumption].
  - destruct (Nat.eqb_spec i j) as [->|N]; [exists d; split; [constructor|split; assumption]|].
    exists (fun x => if Nat.eqb x j then None else if Nat.eqb x i then d j else d x). split; [apply ev_move; exact N|].
    split; [exact HC|]. intros x. unfold set_obj. cbn [fst obj]. destruct (Nat.eqb x j); [exact I|].
    destruct (Nat.eqb x i); [apply HM|apply HM].
  - exists d. split; [constructor|split; assumption].
Qed.

Lemma run_inv l : forall w d, inv w d -> exists d', evolves_all compiles d l d' /\ inv (vrun compile eval mus w l) d'.
Proof.
  induction l as [|o l IH]; intros w d H; cbn [vrun]; [exists d; split; [constructor|exact H]|].
  destruct (step_inv w d o H) as (d1 & E1 & H1). destruct (IH _ d1 H1) as (d2 & E2 & H2).
  exists d2. split; [econstructor; eauto|exact H2].
Qed.

Lemma AU_same : dAU = d_of_Z 149597870700.
Proof. unfold dAU, d_of_dyadic, d_of_Z. reflexivity. Qed.

Theorem vsop_refines l : exists d, evolves_all compiles (fun _ => None) l d /\
  forall i t, snd (vstep compile eval mus (vrun compile eval mus vinit l) (VEph i t)) =
    match d i with Some (k, th) => fresh_state compile eval k th t | None => UB end.
Proof.
  destruct (run_inv l vinit (fun _ => None)) as (d & E & [_ HM]).
  - split; [intros ? ? ? []|intros i; exact I].
  - exists d. split; [exact E|]. intros i t. cbn [vstep snd]. specialize (HM i).
    destruct (obj _ i) as [p|]; destruct (d i) as [[k th]|]; try destruct HM; [|reflexivity].
    unfold fresh_state. rewrite H. unfold vsop_eph. cbn [map app]. rewrite AU_same. reflexivity.
Qed.

(** the ctor outcome itself, after any history *)
Theorem vsop_ctor_accepts l i name th : 
  (exists n k, In (n, k) vsop_names /\ str_ci name n /\ good_thresh th /\ compiles k th) <->
  snd (vstep compile eval mus (vrun compile eval mus vinit l) (VNew i name th)) = Ret [].
Proof.
  destruct (run_inv l vinit (fun _ => None)) as (d & E & [HC _]).
  - split; [intros ? ? ? []|intros j; exact I].
  - set (w := vrun compile eval mus vinit l) in *. cbn [vstep].
    pose proof (ctor_spec (cache w) name th HC) as S. destruct (vsop_ctor compile mus (cache w) name th) as [c r].
    destruct S as (_ & _ & [(n & k & f & HI & Hc & Gt & C & ->)|[S NR]]).
    + split; [reflexivity|]. intros _. exists n, k. repeat (split; auto). exists f. exact C.
    + split.
      * intros (n & k & HI & Hc & Gt & Cp). destruct (S n k HI Hc (conj Gt Cp)).
      * destruct r as [p|e|]; [destruct (NR p eq_refl)| |]; discriminate.
Qed.
Theorem vsop_ctor_rejects l i name th :
  ~ good_thresh th \/ (forall n k, In (n, k) vsop_names -> ~ str_ci name n) ->
  vstep compile eval mus (vrun compile eval mus vinit l) (VNew i name th) = (vrun compile eval mus vinit l, Throw InvalidArgument).
Proof.
  intros H. set (w := vrun compile eval mus vinit l). cbn [vstep]. unfold vsop_ctor.
  destruct (negb (is_finite th) || dltb th dzero)%bool eqn:G; [destruct w; reflexivity|].
  apply thresh_guard in G. destruct H as [H|H]; [contradiction|]. cbv zeta.
  destruct (map_find pl_idx_map (lower name)) as [k|] eqn:M; [|destruct w; reflexivity].
  apply idx_map_spec in M. destruct M as (n & HI & Hc). destruct (H n k HI Hc).
Qed.

(** one compilation per (planet, threshold): the cache never holds two equal keys *)
Definition keys_distinct (c : list (key * fn)) : Prop :=
  forall i j a b, (i < j)%nat -> nth_error c i = Some a -> nth_error c j = Some b -> key_eqb (fst b) (fst a) = false.
Lemma cfind_none (c : list (key * fn)) k : cfind k c = None -> forall j b, nth_error c j = Some b -> key_eqb (fst b) k = false.
Proof.
  induction c as [|[k' f'] c IH]; intros H [|j] b N; try discriminate; cbn [cfind] in H; destruct (key_eqb k' k) eqn:E; try discriminate.
  - injection N as <-. exact E.
  - exact (IH H j b N).
Qed.
Theorem vsop_built_once l : keys_distinct (cache (vrun compile eval mus vinit l)).
Proof.
  assert (G : forall l w, keys_distinct (cache w) -> keys_distinct (cache (vrun compile eval mus w l))).
  { clear l. induction l as [|o l IH]; intros w H; cbn [vrun]; [exact H|]. apply IH.
    destruct o as [i name th|i j|i j|i t]; cbn [vstep fst].
    - unfold vsop_ctor. destruct (negb _ || _)%bool; [exact H|]. cbv zeta. destruct (map_find _ _) as [k|]; [|exact H].
      destruct (cfind (k, th) (cache w)) as [f|] eqn:CF; [exact H|]. destruct (compile k th) as [f|e|]; [|exact H|exact H].
      cbn [cache set_obj fst]. intros [|a] [|b] x y L Hx Hy; try lia; cbn [nth_error] in Hx, Hy.
      + injection Hx as <-. cbn [fst]. exact (cfind_none _ _ CF b y Hy).
      + apply (H a b x y); [lia|exact Hx|exact Hy].
    - destruct (Nat.eqb i j); [exact H|]. destruct (obj w j); exact H.
    - destruct (Nat.eqb i j); exact H.
    - exact H. }
  apply G. intros [|i] [|j] ? ? ? N; discriminate.
Qed.
End V.
