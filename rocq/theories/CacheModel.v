(** * The integrator caches as a concurrent program
    src/ta/stark.cpp 72-132, src/ta/cr3bp.cpp 63-121 and src/udpla/vsop2013.cpp 62-70, 139-173: every cache is a
    std::unordered_map filled on demand under a std::mutex.  Any number of threads call the functions in any order.
    One step of a thread is: lock, look up, build, insert, unlock.  [build] is the construction of the integrator (an
    oracle; None when the constructor throws, the lock_guard then unlocks).  An unordered_map is node based: a returned
    reference is the position of its node, nodes are appended and never removed.
    Cache ids: 0 is the plain cache of a file, 1 the variational one; cache c is protected by mutex c inside the get
    functions; [dim_lock] is the mutex taken by the function returning the size of cache c. *)
From Coq Require Import List Bool Arith.
Import ListNotations.

Section Cache.
Variable K V : Type.
Variable eqk : K -> K -> bool.        (* == on keys *)
Variable build : nat -> K -> option V. (* per cache *)
Variable dim_lock : nat -> nat.

Inductive op := Get (c : nat) (k : K) | Dim (c : nat).
Definition lock_of (o : op) : nat := match o with Get c _ => c | Dim c => dim_lock c end.

Inductive res := Ref (c : nat) (k : K) (i : nat) | Failed (c : nat) (k : K) | Size (c n : nat).
Inductive pc :=
| Idle                                  (* outside the functions *)
| Wait (o : op)                         (* at the lock_guard *)
| Look (o : op)                         (* holds the lock; about to call find / size *)
| Make (c : nat) (k : K)                (* cache miss: about to construct *)
| Ins (c : nat) (k : K) (v : V)         (* about to call insert *)
| Leave (m : nat) (r : res).            (* about to unlock and return *)

Record st := mk_st {
  mtx : nat -> option nat;        (* mutex -> owner *)
  cch : nat -> list (K * V);      (* cache -> nodes *)
  built : nat -> list K;          (* ghost: keys for which a build succeeded, per cache *)
  pcs : nat -> pc;
  out : list (nat * res) }.       (* ghost: what was returned, to whom *)

Definition upd {A} (f : nat -> A) (i : nat) (x : A) : nat -> A := fun j => if Nat.eqb j i then x else f j.

(** unordered_map::find: position of the first node with an equal key *)
Fixpoint find (k : K) (l : list (K * V)) : option nat :=
  match l with
  | [] => None
  | (k', _) :: l' => if eqk k' k then Some 0 else option_map S (find k l')
  end.

Definition init : st := mk_st (fun _ => None) (fun _ => []) (fun _ => []) (fun _ => Idle) [].

Variable allowed : op -> Prop.  (* which calls the program makes *)

Inductive step : st -> st -> Prop :=
| s_call : forall s i o, pcs s i = Idle -> allowed o ->
    step s (mk_st (mtx s) (cch s) (built s) (upd (pcs s) i (Wait o)) (out s))
| s_lock : forall s i o, pcs s i = Wait o -> mtx s (lock_of o) = None ->
    step s (mk_st (upd (mtx s) (lock_of o) (Some i)) (cch s) (built s) (upd (pcs s) i (Look o)) (out s))
| s_hit : forall s i c k n, pcs s i = Look (Get c k) -> find k (cch s c) = Some n ->
    step s (mk_st (mtx s) (cch s) (built s) (upd (pcs s) i (Leave c (Ref c k n))) (out s))
| s_miss : forall s i c k, pcs s i = Look (Get c k) -> find k (cch s c) = None ->
    step s (mk_st (mtx s) (cch s) (built s) (upd (pcs s) i (Make c k)) (out s))
| s_size : forall s i c, pcs s i = Look (Dim c) ->
    step s (mk_st (mtx s) (cch s) (built s) (upd (pcs s) i (Leave (dim_lock c) (Size c (length (cch s c))))) (out s))
| s_built : forall s i c k v, pcs s i = Make c k -> build c k = Some v ->
    step s (mk_st (mtx s) (cch s) (upd (built s) c (built s c ++ [k])) (upd (pcs s) i (Ins c k v)) (out s))
| s_fail : forall s i c k, pcs s i = Make c k -> build c k = None ->
    step s (mk_st (mtx s) (cch s) (built s) (upd (pcs s) i (Leave c (Failed c k))) (out s))
| s_insert : forall s i c k v, pcs s i = Ins c k v ->
    (* unordered_map::insert: keeps an existing node with an equal key *)
    let l := cch s c in
    let l' := match find k l with Some _ => l | None => l ++ [(k, v)] end in
    let n := match find k l with Some n => n | None => length l end in
    step s (mk_st (mtx s) (upd (cch s) c l') (built s) (upd (pcs s) i (Leave c (Ref c k n))) (out s))
| s_unlock : forall s i m r, pcs s i = Leave m r ->
    step s (mk_st (upd (mtx s) m None) (cch s) (built s) (upd (pcs s) i Idle) ((i, r) :: out s)).

Inductive reach : st -> Prop :=
| r_init : reach init
| r_step : forall s s', reach s -> step s s' -> reach s'.

(** the cache access a thread is about to make, and whether it writes *)
Definition access (p : pc) : option (nat * bool) :=
  match p with
  | Look (Get c _) | Look (Dim c) => Some (c, false)
  | Ins c _ _ => Some (c, true)
  | _ => None
  end.
End Cache.
Arguments Get {K}. Arguments Dim {K}. Arguments lock_of {K}. Arguments Ref {K}. Arguments Failed {K}. Arguments Size {K}.
Arguments Idle {K V}. Arguments Wait {K V}. Arguments Look {K V}. Arguments Make {K V}. Arguments Ins {K V}. Arguments Leave {K V}.
Arguments mtx {K V}. Arguments cch {K V}. Arguments built {K V}. Arguments pcs {K V}. Arguments out {K V}. Arguments mk_st {K V}.
Arguments find {K V}. Arguments init {K V}. Arguments step {K V}. Arguments reach {K V}. Arguments access {K V}.

(** stark.cpp 120-132 and cr3bp.cpp 109-121: both size functions of a file lock the mutex of the plain cache *)
Definition code_dim_lock (c : nat) : nat := 0.
