(** * Names and identifiers: vocabulary *)
From Coq Require Import ZArith String List.
From Verif Require Import NaifModel.
Import ListNotations.
Open Scope Z_scope. Open Scope list_scope.

(** [n] is the name of [k] that comes last in [l] *)
Definition last_listed (l : list (Z * string)) (k : Z) (n : string) : Prop := exists a b, l = a ++ (k, n) :: b /\ ~ In k (map fst b).
(** identifiers with a name in the table *)
Definition listed (k : Z) : Prop := exists n, In (k, n) naif_entries.
(** SPICE knows the names of the table, under the identifiers of the table *)
Definition knows (bodn2c : string -> option Z) : Prop := forall id n, In (id, n) naif_entries -> bodn2c n = Some id.
(** the planets (with Pluto) in the order of the numbering scheme of SPICE: the barycentre of number k is k, its main body 100 k + 99, its moons in between *)
Definition nine : list string := ["MERCURY"; "VENUS"; "EARTH"; "MARS"; "JUPITER"; "SATURN"; "URANUS"; "NEPTUNE"; "PLUTO"]%string.
