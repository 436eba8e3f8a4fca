(** * Specification for jpl_lp: the published table (units of 1e-8 AU, 1e-8, 1e-8 degrees and the same per century),
    the linear model in real arithmetic, and case-insensitive equality of names *)
From Coq Require Import ZArith List Bool String Ascii Reals.
Import ListNotations.
Open Scope Z_scope.
Open Scope string_scope.

(** name, [a; e; I; L; long.peri.; long.node.], rates per century *)
Definition published : list (string * list Z * list Z) :=
  [("mercury", [38709927; 20563593; 700497902; 25225032350; 7745779628; 4833076593], [37; 1906; -594749; 14947267411175; 16047689; -12534081]);
   ("venus", [72333566; 677672; 339467605; 18197909950; 13160246718; 7667984255], [390; -4107; -78890; 5851781538729; 268329; -27769418]);
   ("earth", [100000261; 1671123; -1531; 10046457166; 10293768193; 0], [562; -4392; -1294668; 3599937244981; 32327364; 0]);
   ("mars", [152371034; 9339410; 184969142; -455343205; -2394362959; 4955953891], [1847; 7882; -813131; 1914030268499; 44441088; -29257343]);
   ("jupiter", [520288700; 4838624; 130439695; 3439644051; 1472847983; 10047390909], [-11607; -13253; -183714; 303474612775; 21252668; 20469106]);
   ("saturn", [953667594; 5386179; 248599187; 4995424423; 9259887831; 11366242448], [-125060; -50991; 193609; 122249362201; -41897216; -28867794]);
   ("uranus", [1918916464; 4725744; 77263783; 31323810451; 17095427630; 7401692503], [-196176; -4397; -242939; 42848202785; 40805281; 4240589]);
   ("neptune", [3006992276; 859048; 177004347; -5512002969; 4496476227; 13178422574], [26291; 5105; 35372; 21845945325; -32241464; -508664])].

Definition known_names : list string := map (fun r => fst (fst r)) published.

(** published linear model at day t since 2000-01-01T00:00 (J2000 is half a day later) *)
Definition published_value (el rate : list Z) (i : nat) (t : R) : R :=
  (IZR (nth i el 0%Z) / 10 ^ 8 + IZR (nth i rate 0%Z) / 10 ^ 8 * ((t - 1 / 2) / 36525))%R.

(** the same letter up to case *)
Definition char_ci (c d : ascii) : Prop :=
  let a := N_of_ascii c in let b := N_of_ascii d in
  a = b \/ (65 <= a <= 90 /\ b = a + 32)%N \/ (65 <= b <= 90 /\ a = b + 32)%N.
Fixpoint str_ci (s t : string) : Prop :=
  match s, t with
  | EmptyString, EmptyString => True
  | String c s', String d t' => char_ci c d /\ str_ci s' t'
  | _, _ => False
  end.
