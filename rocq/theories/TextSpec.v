(** * Texts of numbers *)
From Coq Require Import ZArith List String Ascii.
From Coq Require Import Reals.
From Verif Require Import Vec3 ElemModel.
Import ListNotations.
(** the characters fmt and iostreams use for a number: digits, sign, point, exponent, inf, nan *)
Definition number_chars : list ascii := list_ascii_of_string "0123456789+-.einfa".
Definition number_text (s : string) : Prop := s <> EmptyString /\ forall c, In c (list_ascii_of_string s) -> In c number_chars.
(** a faithful format: different numbers have different texts (fmt's "{}" is the shortest text that reads back as the same double) *)
Definition faithful {D : Type} (show : D -> string) : Prop := (forall a, number_text (show a)) /\ (forall a b, show a = show b -> a = b).
Definition has_char (c : ascii) (s : string) : Prop := In c (list_ascii_of_string s).
(** [p] is somewhere in [s] *)
Definition has (p s : string) : Prop := exists a b, s = (a ++ p ++ b)%string.
(** the two lines [l1], [l2] of entry [i] of a solved Lambert problem: number of iterations, x and the value [a_of] gives for it, the two velocities *)
Definition triple_text {D : Type} (show : D -> string) (v : D * D * D) : string := let '(a, b, c) := v in ("[" ++ show a ++ ", " ++ show b ++ ", " ++ show c ++ "]")%string.
Definition entry_at {D : Type} (show : D -> string) (show_n : Z -> string) (a_of : D -> D) (v0 v1 : list (D * D * D)) (x : list D) (iters : list Z) (i : nat) (head lab : string) (l1 l2 : string * string) : Prop :=
  exists t y p q, nth_error iters i = Some t /\ nth_error x i = Some y /\ nth_error v0 i = Some p /\ nth_error v1 i = Some q /\
    l1 = (head, show_n t ++ lab ++ show y ++ ", a: " ++ show (a_of y))%string /\ l2 = ("	v1 = "%string, triple_text show p ++ " v2 = " ++ triple_text show q)%string.
Definition degrees (x : R) : R := (x / PI * 180)%R.
Definition coords (show : option R -> string) (v : vec) : string := triple_text show (Some (vx v), Some (vy v), Some (vz v)).
(** the lines common to both kinds of planets *)
Definition element_lines (show : option R -> string) (el : elem) : list (string * string) :=
  [("Eccentricity: ", show (Some (el_e el))); ("Inclination (deg.): ", show (Some (degrees (el_i el)))); ("Big Omega (deg.): ", show (Some (degrees (el_W el))));
   ("Small omega (deg.): ", show (Some (degrees (el_w el)))); ("True anomly (deg.): ", show (Some (degrees (el_f el))))]%string.
