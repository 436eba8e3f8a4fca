(** * The Cassini problems of the gym, pykep/trajopt/gym/_cassini_mga.py
    Simplifications: those of MgaFitModel.v and JplRealModel.v. *)
From Coq Require Import Reals List String Bool.
From Verif Require Import Outcome Vec3 MgaModel MgaFitModel JplRealModel.
Import ListNotations.
Open Scope R_scope.
Open Scope outcome_scope.
Open Scope string_scope.

Section Newton.
Variable newton : (R -> R * R) -> R -> R -> R -> option R.
(** pk.planet(pk.udpla.jpl_lp(name)) as the problems use it *)
Definition jr_body (j : jplr) : body := mk_body (jr_eph newton j) (jr_mu j) (jr_self j) (jr_safe j).
Definition jpl_body (name : string) : outcome body := j <- jr_ctor name ;; Ret (jr_body j).
Fixpoint all_bodies (l : list string) : outcome (list body) :=
  match l with [] => Ret [] | n :: r => b <- jpl_body n ;; bs <- all_bodies r ;; Ret (b :: bs) end.
(** 5-10 *)
Definition cassini_names : list string := ["earth"; "venus"; "venus"; "earth"; "jupiter"; "saturn"].
Definition seq_cassini : outcome (list body) := all_bodies cassini_names.
(** the three constructors, 12-22, 37-47, 62-72; multi_objective has its default False *)
Definition cassini_with (tof : tofs) : outcome mga :=
  s <- seq_cassini ;; mga_ctor s (-1000, 0) tof 3 false true (Some (98 / 100)) (Some 108950000).
Definition tofs_direct : tofs := TDirect [(30, 400); (100, 470); (30, 400); (400, 2000); (1000, 6000)].
Definition tofs_alpha : tofs := TAlpha 4000 7000.
Definition tofs_eta : tofs := TEta 7000.
Definition cassini1 : outcome mga := cassini_with tofs_direct.
Definition cassini1_a : outcome mga := cassini_with tofs_alpha.
Definition cassini1_n : outcome mga := cassini_with tofs_eta.
End Newton.

(** ** get_extra_info, 28-32, 53-57, 78-82: a global name is looked up in the module, then in the builtins; [None] is a NameError *)
Definition module_globals : list string := ["_pk"; "_mga"; "_seq_cassini"; "_cassini1_udp"; "_cassini1a_udp"; "_cassini1n_udp"; "cassini1"; "cassini1_a"; "cassini1_n"].
Definition lookup {A} (builtins : string -> option A) (globals : list (string * A)) (n : string) : option A :=
  match find (fun p => String.eqb (fst p) n) globals with Some p => Some (snd p) | None => builtins n end.
(** the text before the names of the planets is a parameter: the three methods differ only in it *)
Definition extra_info {A} (builtins : string -> option A) (globals : list (string * A)) (names : A -> string) (head : string) : option string :=
  match lookup builtins globals "_seq_cassini1" with Some s => Some (head ++ "	Planetary sequence" ++ names s) | None => None end.
