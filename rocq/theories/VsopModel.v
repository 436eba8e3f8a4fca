(** * udpla::vsop2013, src/udpla/vsop2013.cpp 46-217: construction through the global cache of compiled functions
    A program is any sequence of constructions, copies, moves and evaluations on numbered objects.  heyoka's
    expression building and compilation is the oracle [compile] (an llvm_state; jit_lookup of the same state gives the
    same function).  Concurrency of the cache is covered by CacheModel. *)
From Coq Require Import ZArith List Bool String Ascii.
From Flocq Require Import Core.Core IEEE754.BinarySingleNaN.
From Verif Require Import Outcome Float64.
From Verif Require Import JplModel.
Import ListNotations.
Open Scope string_scope.
Open Scope Z_scope.
Open Scope outcome_scope.

(** 48-50 *)
Definition pl_idx_map : list (string * Z) :=
  [("mercury", 1); ("venus", 2); ("earth_moon", 3); ("mars", 4); ("jupiter", 5); ("saturn", 6); ("uranus", 7); ("neptune", 8); ("pluto", 9)].
Fixpoint map_find (m : list (string * Z)) (s : string) : option Z :=
  match m with [] => None | (k, v) :: m' => if String.eqb k s then Some v else map_find m' s end.

Section Vsop.
Variable fn : Type.                             (* heyoka::llvm_state *)
Variable compile : Z -> double -> outcome fn.   (* 149-165 *)
Variable eval : fn -> double -> list double.    (* eval_f: six outputs *)
Variable mus : Z -> double.                     (* get_vsop2013_mus()[i], already converted, 136-138 *)

(** 77-119 *)
Record impl := mk_impl { i_state : fn; i_mu : double; i_name : string; i_thresh : double }.
Definition key := (Z * double)%type.
Record world := mk_world { cache : list (key * fn); obj : nat -> option impl (* m_impl; None is a null pointer *) }.

(** std::pair operator== *)
Definition key_eqb (a b : key) : bool := (fst a =? fst b) && deqb (snd a) (snd b).
Fixpoint cfind (k : key) (l : list (key * fn)) : option fn :=
  match l with [] => None | (k', f) :: l' => if key_eqb k' k then Some f else cfind k l' end.

(** 121-173; the result is the new cache and the impl *)
Definition vsop_ctor (c : list (key * fn)) (name : string) (thresh : double) : list (key * fn) * outcome impl :=
  if negb (is_finite thresh) || dltb thresh dzero then (c, Throw InvalidArgument)
  else
    let n := lower name in
    match map_find pl_idx_map n with
    | None => (c, Throw InvalidArgument)
    | Some i =>
        match cfind (i, thresh) c with
        | None =>
            match compile i thresh with
            | Ret s => (((i, thresh), s) :: c, Ret (mk_impl s (mus i) n thresh))
            | Throw e => (c, Throw e)
            | UB => (c, UB)
            end
        | Some s => (c, Ret (mk_impl s (mus i) n thresh))
        end
    end.

(** 209-217; calling through a null m_impl is undefined *)
Definition dDAY : double := d_of_Z 86400.
Definition vsop_eph (o : option impl) (t : double) : outcome (list double) :=
  match o with
  | None => UB
  | Some p =>
      let out := eval (i_state p) t in
      let g i := nth i out dzero in
      Ret [dmul (g 0%nat) dAU; dmul (g 1%nat) dAU; dmul (g 2%nat) dAU;
           ddiv (dmul (g 3%nat) dAU) dDAY; ddiv (dmul (g 4%nat) dAU) dDAY; ddiv (dmul (g 5%nat) dAU) dDAY]
  end.

Definition set_obj (w : world) (i : nat) (o : option impl) : world :=
  mk_world (cache w) (fun j => if Nat.eqb j i then o else obj w j).

Inductive vop :=
| VNew (i : nat) (name : string) (thresh : double)   (* object i = vsop2013(name, thresh) *)
| VCopy (i j : nat)                                  (* object i = copy of object j, 177, 181-188 *)
| VMove (i j : nat)                                  (* object i = std::move(object j), 175, 179 *)
| VEph (i : nat) (t : double).

(** 175-188: copying a null m_impl dereferences it (undefined), unless it is a self-assignment *)
Definition vstep (w : world) (o : vop) : world * outcome (list double) :=
  match o with
  | VNew i name thresh =>
      let '(c, r) := vsop_ctor (cache w) name thresh in
      match r with
      | Ret p => (set_obj (mk_world c (obj w)) i (Some p), Ret [])
      | Throw e => (mk_world c (obj w), Throw e)
      | UB => (mk_world c (obj w), UB)
      end
  | VCopy i j =>
      if Nat.eqb i j then (w, Ret [])
      else match obj w j with
           | Some p => (set_obj w i (Some p), Ret [])
           | None => (w, UB)
           end
  | VMove i j =>
      if Nat.eqb i j then (w, Ret [])
      else (set_obj (set_obj w i (obj w j)) j None, Ret [])
  | VEph i t => (w, vsop_eph (obj w i) t)
  end.

Fixpoint vrun (w : world) (l : list vop) : world := match l with [] => w | o :: l' => vrun (fst (vstep w o)) l' end.
Definition vinit : world := mk_world [] (fun _ => None).
End Vsop.
Arguments i_state {fn}. Arguments i_mu {fn}. Arguments i_name {fn}. Arguments i_thresh {fn}. Arguments mk_impl {fn}.
Arguments cache {fn}. Arguments obj {fn}. Arguments mk_world {fn}. Arguments cfind {fn}. Arguments set_obj {fn}. Arguments vinit {fn}.
Arguments vsop_ctor {fn}. Arguments vsop_eph {fn}. Arguments vstep {fn}. Arguments vrun {fn}.
