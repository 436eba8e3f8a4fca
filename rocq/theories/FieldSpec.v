(** * What a numeric field of a date string is worth, independently of the parser (property C07) *)
From Coq Require Import ZArith List Ascii.
Import ListNotations.
Open Scope Z_scope.

(** blank, tab, new line, vertical tab, form feed and carriage return *)
Definition white (c : ascii) : Prop := In c [" "; "009"; "010"; "011"; "012"; "013"]%char.
Definition digit (c : ascii) (d : Z) : Prop :=
  In (c, d) [("0", 0); ("1", 1); ("2", 2); ("3", 3); ("4", 4); ("5", 5); ("6", 6); ("7", 7); ("8", 8); ("9", 9)]%char.
Inductive decimal : list ascii -> Z -> Prop :=
| Dec_one c d : digit c d -> decimal [c] d
| Dec_more s v c d : decimal s v -> digit c d -> decimal (s ++ [c]) (10 * v + d).
Definition stops (s : list ascii) : Prop := match s with [] => True | c :: _ => forall d, ~ digit c d end.
(** white space, perhaps a sign, a number, and anything after it *)
Definition reads (s : list ascii) (v : Z) : Prop :=
  exists ws sg ds rest n, s = (ws ++ sg ++ ds ++ rest)%list /\ Forall white ws /\ decimal ds n /\ stops rest /\
    ((sg = [] \/ sg = ["+"%char]) /\ v = n \/ sg = ["-"%char] /\ v = - n).

(** the fields of a date string: the year in its first four characters, the month in characters 5 and 6, the day in 8 and 9, the
    hour in 11 and 12, the minute in 14 and 15, the second in 17 and 18, the fraction of the second from 20 on; fields past the end
    of the string are worth 1 (day) or 0.  The characters in between are not looked at. *)
Definition field (s : list ascii) (pos width : nat) (v : Z) : Prop := reads (firstn width (skipn pos s)) v.
Definition field_or (s : list ascii) (from pos : nat) (missing v : Z) : Prop :=
  ((from <= List.length s)%nat /\ field s pos 2 v) \/ ((List.length s < from)%nat /\ v = missing).
Definition date_fields (s : list ascii) (y m d h mi sec us : Z) : Prop :=
  In (List.length s) [7; 10; 13; 16; 19; 21; 22; 23; 24; 25; 26]%nat /\
  field s 0 4 y /\ field s 5 2 m /\ field_or s 10 8 1 d /\ field_or s 13 11 0 h /\ field_or s 16 14 0 mi /\ field_or s 19 17 0 sec /\
  (((21 <= List.length s)%nat /\ exists u, reads (skipn 20 s) u /\ us = u * 10 ^ (26 - Z.of_nat (List.length s)))
   \/ ((List.length s < 21)%nat /\ us = 0)).
