(** * Property theorems: copies of planets (C59) and the kernel held by a de440s planet (C60).  Only statements.
    [S] is what the attributes of a Python udpla hold, [C] a C++ udpla, [B] the table of answers of a planet's methods, given by [ca] for C++
    udplas and [pa] for Python ones; [nk] is the answer of a de440s whose kernel is not loaded.  Histories are any lists of operations, failing
    ones included.  [b] says whether SPICE counts repeated loads of a file; where it is not fixed the theorem holds for both. *)
From Coq Require Import List Arith.
From Verif Require Import Outcome PyCopyModel PyCopySpec PyCopyProofs.
Import ListNotations.

(** ** C59 *)
(** no planet ever refers to an object that has been destroyed *)
Theorem C59_never_dangles : forall (S C B : Type) (ca : C -> B) (pa : S -> B) (nk : B) b w p, reachable b w -> answer ca pa nk w p <> UB.
Proof. exact @never_dangles. Qed.
Print Assumptions C59_never_dangles.
(** a copy, deep copy or unpickled planet is one more planet, answers what its source answers, and making it changes no other planet *)
Theorem C59_answers : forall (S C B : Type) (ca : C -> B) (pa : S -> B) (nk : B) b p (o : op S C) w w', copies p o -> step b o w = Ret w' ->
  length (plas w') = Datatypes.S (length (plas w)) /\ answer ca pa nk w' (length (plas w)) = answer ca pa nk w p /\
  forall q, (q < length (plas w))%nat -> answer ca pa nk w' q = answer ca pa nk w q.
Proof. exact @copy_answers. Qed.
Print Assumptions C59_answers.
(** every planet can be copied both ways; pickling works exactly for C++ udplas *)
Theorem C59_exist : forall (S C : Type) b p (w : world S C) x, nth_error (plas w) p = Some (Some x) ->
  (exists w', step b (CopyPla p) w = Ret w') /\ (exists w', step b (DeepPla p) w = Ret w') /\
  ((exists w', step b (PicklePla p) w = Ret w') <-> exists c, p_holder x = InCpp c).
Proof. exact @copies_exist. Qed.
Print Assumptions C59_exist.
(** a planet with a C++ udpla answers the same forever, whatever is done to its copies (or to anything else) *)
Theorem C59_cpp : forall (S C B : Type) (ca : C -> B) (pa : S -> B) (nk : B) b (w : world S C) p x c os, nth_error (plas w) p = Some (Some x) -> p_holder x = InCpp c ->
  answer ca pa nk w p = Ret (ca c) /\ (answer ca pa nk (exec b os w) p = Ret (ca c) \/ nth_error (plas (exec b os w)) p = Some None).
Proof. exact @cpp_fixed. Qed.
Print Assumptions C59_cpp.
(** full statement: the same for planets with a Python udpla.  Proved: their answers stay as long as nothing assigns to their udpla,
    through whatever name or planet it was reached; missing: copies that share the udpla, see the refutations *)
Theorem C59_python_partial : forall (S C B : Type) (ca : C -> B) (pa : S -> B) (nk : B) b (w : world S C) p x a s os, reachable b w ->
  nth_error (plas w) p = Some (Some x) -> p_holder x = InPy a -> nth_error (objs w) a = Some (Some (Obj Plain s)) -> never_writes b os w a ->
  answer ca pa nk w p = Ret (pa s) /\ (answer ca pa nk (exec b os w) p = Ret (pa s) \/ nth_error (plas (exec b os w)) p = Some None).
Proof. exact @python_keeps. Qed.
Print Assumptions C59_python_partial.
(** copy.deepcopy of a planet with a Python udpla is not independent: assigning to the udpla extracted from the copy changes the original *)
Theorem C59_deepcopy_refuted : forall (S C B : Type) (ca : C -> B) (pa : S -> B) (nk : B) b s0 s1, pa s0 <> pa s1 ->
  let w := exec b [NewObj Plain s0; NewPla 0; DelVar 0] start in answer ca pa nk w 0 = Ret (pa s0) /\
  exists w', step b (DeepPla 0) w = Ret w' /\ answer ca pa nk w' 0 = Ret (pa s0) /\ answer ca pa nk w' 1 = Ret (pa s0) /\
    let w'' := exec b [Extract 1; Mut 1 s1] w' in
    answer ca pa nk w'' 1 = Ret (pa s1) /\ answer ca pa nk w'' 0 = Ret (pa s1) /\ answer ca pa nk w'' 0 <> answer ca pa nk w' 0.
Proof. exact @deep_shares. Qed.
Print Assumptions C59_deepcopy_refuted.
(** neither does planet(x) take the deep copy of x that its documentation mentions *)
Theorem C59_constructor_refuted : forall (S C B : Type) (ca : C -> B) (pa : S -> B) (nk : B) b s0 s1, pa s0 <> pa s1 ->
  let w := exec b [NewObj Plain s0; NewPla 0] start in let w' := exec b [Mut 0 s1] w in
  answer ca pa nk w 0 = Ret (pa s0) /\ answer ca pa nk w' 0 = Ret (pa s1) /\ answer ca pa nk w' 0 <> answer ca pa nk w 0.
Proof. exact @ctor_shares. Qed.
Print Assumptions C59_constructor_refuted.
(** attributes set on the planet object are lost by every way of copying it *)
Theorem C59_attributes : forall (S C : Type) b p (o : op S C) w w' k x, copies p o -> step b o w = Ret w' -> attr w p k = Ret x ->
  attr w' p k = Ret x /\ attr w' (length (plas w)) k = Throw NotImplemented.
Proof. exact @attrs_lost. Qed.
Print Assumptions C59_attributes.
Example C59_example : let w := exec true [NewCpp 7; SetAttr 0 1 5; NewObj Plain 3; NewPla 0; CopyPla 0; DeepPla 1; PicklePla 1; PicklePla 0; DelPla 1; DelVar 0] (@start nat nat) in
  map (answer S S 0 w) [0; 1; 2; 3; 4; 5] = [Ret 8; Throw OutOfRange; Ret 8; Ret 4; Ret 8; Throw OutOfRange] /\ attr w 0 1 = Ret 5 /\ attr w 2 1 = Throw NotImplemented /\ objs w = [Some (Obj Plain 3)].
Proof. repeat split. Qed.

(** ** C60 *)
(** full statement: in every history a de440s planet answers as long as it exists.  Proved when SPICE counts loads, no udpla is copied and
    the user does not unload the kernel; missing: the two situations refuted below *)
Theorem C60_kernel_partial : forall (S C B : Type) (ca : C -> B) (pa : S -> B) (nk : B) (os : list (op S C)) p x a s, List.Forall tidy os ->
  let w := exec true os start in nth_error (plas w) p = Some (Some x) -> p_holder x = InPy a -> nth_error (objs w) a = Some (Some (Obj De440 s)) ->
  answer ca pa nk w p = Ret (pa s).
Proof. exact @kernel_there. Qed.
Print Assumptions C60_kernel_partial.
(** the kernel is loaded exactly as often as there are de440s alive, so it is released with the last of them *)
Theorem C60_released_partial : forall (S C : Type) (os : list (op S C)), List.Forall tidy os -> List.Forall (fun o => is_load o = false) os ->
  kern (exec true os start) = live_de (exec true os start).
Proof. exact @kernel_released. Qed.
Print Assumptions C60_released_partial.
(** a copied udpla was never constructed, so it loads nothing, but its destructor unloads: the planet made from the original stops working *)
Theorem C60_copy_refuted : forall (S C B : Type) (ca : C -> B) (pa : S -> B) (nk : B) b s,
  let w := exec b [NewObj De440 s; NewPla 0; CopyObj 0] start in
  answer ca pa nk w 0 = Ret (pa s) /\ answer ca pa nk (exec b [DelVar 1] w) 0 = Ret nk.
Proof. exact @copy_unloads. Qed.
Print Assumptions C60_copy_refuted.
(** if SPICE does not count loads, deleting one de440s planet breaks every other one *)
Theorem C60_two_refuted : forall (S C B : Type) (ca : C -> B) (pa : S -> B) (nk : B) s,
  let w := exec false [NewObj De440 s; NewPla 0; NewObj De440 s; NewPla 1] start in
  answer ca pa nk w 0 = Ret (pa s) /\ answer ca pa nk (exec false [DelVar 1; DelPla 1] w) 0 = Ret nk.
Proof. exact @two_unload. Qed.
Print Assumptions C60_two_refuted.
Example C60_example : let w := exec true [NewObj De440 3; NewPla 0; DelVar 0; NewObj De440 4; NewPla 1; DelVar 1; DelPla 0] (@start nat nat) in
  map (answer S S 0 w) [0; 1] = [Throw OutOfRange; Ret 5] /\ kern w = 1 /\ kern (exec true [DelPla 1] w) = 0.
Proof. repeat split. Qed.
