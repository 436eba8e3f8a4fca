(** * What vsop2013 objects should be: the same program without any cache *)
From Coq Require Import ZArith List Bool String Reals.
From Flocq Require Import Core.Core IEEE754.BinarySingleNaN.
From Verif Require Import Outcome Float64 JplSpec VsopModel.
Import ListNotations.
Open Scope string_scope.
Open Scope Z_scope.

Definition vsop_names : list (string * Z) :=
  [("mercury", 1); ("venus", 2); ("earth_moon", 3); ("mars", 4); ("jupiter", 5); ("saturn", 6); ("uranus", 7); ("neptune", 8); ("pluto", 9)].

Definition good_thresh (t : double) : Prop := is_finite t = true /\ (0 <= B2R t)%R.

(** identity of an object: which planet, which threshold *)
Definition ident := (Z * double)%type.
Definition ids := nat -> option ident.

(** how identities evolve, [compiles] telling which pairs can be compiled *)
Inductive evolves (compiles : Z -> double -> Prop) : ids -> vop -> ids -> Prop :=
| ev_new : forall d i name th n k, In (n, k) vsop_names -> str_ci name n -> good_thresh th -> compiles k th ->
    evolves compiles d (VNew i name th) (fun j => if Nat.eqb j i then Some (k, th) else d j)
| ev_reject : forall d i name th, (forall n k, In (n, k) vsop_names -> str_ci name n -> ~ (good_thresh th /\ compiles k th)) ->
    evolves compiles d (VNew i name th) d
| ev_copy : forall d i j, i <> j -> d j <> None -> evolves compiles d (VCopy i j) (fun x => if Nat.eqb x i then d j else d x)
| ev_copy_self : forall d i, evolves compiles d (VCopy i i) d
| ev_copy_null : forall d i j, i <> j -> d j = None -> evolves compiles d (VCopy i j) d
| ev_move : forall d i j, i <> j -> evolves compiles d (VMove i j) (fun x => if Nat.eqb x j then None else if Nat.eqb x i then d j else d x)
| ev_move_self : forall d i, evolves compiles d (VMove i i) d
| ev_eph : forall d i t, evolves compiles d (VEph i t) d.

Inductive evolves_all (compiles : Z -> double -> Prop) : ids -> list vop -> ids -> Prop :=
| ea_nil : forall d, evolves_all compiles d [] d
| ea_cons : forall d o d' l d'', evolves compiles d o d' -> evolves_all compiles d' l d'' -> evolves_all compiles d (o :: l) d''.

(** the state of planet (k, th) straight from the compiled function: astronomical units and days to SI *)
Definition fresh_state {fn} (compile : Z -> double -> outcome fn) (eval : fn -> double -> list double) (k : Z) (th t : double) : outcome (list double) :=
  match compile k th with
  | Ret f => Ret (map (fun i => dmul (nth i (eval f t) dzero) (d_of_Z 149597870700)) [0; 1; 2]%nat ++
           map (fun i => ddiv (dmul (nth i (eval f t) dzero) (d_of_Z 149597870700)) (d_of_Z 86400)) [3; 4; 5]%nat)%list
  | Throw e => Throw e
  | UB => UB
  end.
