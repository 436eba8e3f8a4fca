(** * What the constructor of the gravity assist problem should accept and do: vocabulary without its code *)
From Coq Require Import Reals List String Bool.
From Verif Require Import MgaModel MgaFitModel PyMgaModel.
Import ListNotations.
Open Scope R_scope.

(** numbers become dates *)
Definition stamp (x : pv) : pv := match x with PNum r => PEpoch r | _ => x end.
Definition dateish (x : pv) : Prop := exists d, x = PNum d \/ x = PEpoch d.
Definition stamped (h : heap) (t0 : pv) : heap := match t0 with PRef a => put a (map stamp (get h a)) h | _ => h end.
(** the first is not more than the second *)
Inductive py_le : pv -> pv -> Prop :=
| le_num a b : a <= b -> py_le (PNum a) (PNum b)
| le_epoch a b : a <= b -> py_le (PEpoch a) (PEpoch b)
| le_str a b : String.leb a b = true -> py_le (PStr a) (PStr b).
Definition good_tof (float_str : string -> bool) (h : heap) (n : nat) (enc : string) (tof : pv) : Prop :=
  (enc = "alpha"%string /\ exists a x y, tof = PRef a /\ get h a = [x; y]) \/
  (enc = "direct"%string /\ exists a, tof = PRef a /\ S (List.length (get h a)) = n /\ forall x, In x (get h a) -> exists k u v, x = PRef k /\ get h k = [u; v] /\ py_le u v) \/
  (enc = "eta"%string /\ ((exists r, tof = PNum r) \/ exists s, tof = PStr s /\ float_str s = true)).
(** the times of flight are looked at after the launch dates have been stamped *)
Definition accepts (float_str : string -> bool) (h : heap) (seq : nat) (t0 tof : pv) (enc : string) (ins : bool) (e rp : option R) : Prop :=
  (exists bs, get h seq = map PPlanet bs /\ bs <> [] /\ forall b b', In b bs -> In b' bs -> b_muc b = b_muc b') /\
  (t0 = PStr "" \/ exists a, t0 = PRef a /\ forall x, In x (get h a) -> dateish x) /\
  good_tof float_str (stamped h t0) (List.length (get h seq)) enc tof /\
  (ins = true -> e <> None /\ rp <> None).
(** arguments as the documentation wants them, and what they mean *)
Definition date_of (x : pv) (d : R) : Prop := x = PNum d \/ x = PEpoch d.
Definition means (h : heap) (a0 : nat) (enc : string) (tof : pv) (t : tofs) : Prop :=
  match t with
  | TAlpha lb ub => enc = "alpha"%string /\ exists a, tof = PRef a /\ a <> a0 /\ get h a = [PNum lb; PNum ub]
  | TDirect l => enc = "direct"%string /\ exists a ks, tof = PRef a /\ a <> a0 /\ get h a = map PRef ks /\ Forall2 (fun k p => k <> a0 /\ get h k = [PNum (fst p); PNum (snd p)]) ks l
  | TEta r => enc = "eta"%string /\ tof = PNum r
  end.
(** what is wrong with the arguments, by the exception that says so *)
Definition complaint (float_str : string -> bool) (h : heap) (seq : nat) (t0 tof : pv) (enc : string) (ins : bool) (e rp : option R) (x : pexn) : Prop :=
  match x with
  | AttributeError => exists y, In y (get h seq) /\ forall b, y <> PPlanet b
  | IndexError => get h seq = []
  | ValueError => (exists b b', In (PPlanet b) (get h seq) /\ In (PPlanet b') (get h seq) /\ b_muc b <> b_muc b') \/ ~ In enc ["alpha"; "direct"; "eta"]%string \/
      (enc = "eta"%string /\ exists s, tof = PStr s /\ float_str s = false) \/ (ins = true /\ (e = None \/ rp = None))
  | TypeError => ~ (t0 = PStr "" \/ exists a, t0 = PRef a /\ forall y, In y (get h a) -> dateish y) \/
      (In enc ["alpha"; "direct"; "eta"]%string /\ ~ good_tof float_str (stamped h t0) (List.length (get h seq)) enc tof)
  end.
