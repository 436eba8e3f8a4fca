(** * The constructor of the multiple gravity assist problem with the Python objects it is given (pykep/trajopt/_mga.py 43-187)
    MgaFitModel has the typed part.  Here an argument is a Python value, lists are objects in a heap, and the lists the constructor overwrites or keeps
    are shared with the caller.  Simplifications: floats are real numbers (no NaN); an epoch is its modified julian date of 2000 in days, without rounding to
    microseconds; lists do not compare with each other with >=; [vinf] is a number, [multi_objective], [orbit_insertion] are booleans, [e_target], [rp_target] numbers or None.
    A value with no constructor below (a tuple, a numpy array) is not modelled. *)
From Coq Require Import Reals List String Bool.
From Verif Require Import MgaModel MgaFitModel.
Import ListNotations.
Open Scope R_scope.

Inductive pexn := ValueError | TypeError | IndexError | AttributeError.
Inductive pres (A : Type) := Done (a : A) | Raise (e : pexn).
Arguments Done {A} a.
Arguments Raise {A} e.
Definition pbind {A B} (m : pres A) (f : A -> pres B) : pres B := match m with Done a => f a | Raise e => Raise e end.
Declare Scope py_scope.
Notation "x <-! m ;; f" := (pbind m (fun x => f)) (at level 61, m at next level, right associativity) : py_scope.
Open Scope py_scope.

(** a number, an epoch, a string, None, a list (its address), a planet *)
Inductive pv := PNum (r : R) | PEpoch (d : R) | PStr (s : string) | PNone | PRef (a : nat) | PPlanet (b : body).
Definition heap := list (list pv).
Definition get (h : heap) (a : nat) : list pv := nth a h [].
Fixpoint put {A} (a : nat) (l : A) (h : list A) : list A := match h, a with [], _ => [] | _ :: r, O => l :: r | x :: r, S k => x :: put k l r end.

(** r.get_mu_central_body() of every element (88) *)
Fixpoint mus (l : list pv) : pres (list R) :=
  match l with [] => Done [] | PPlanet b :: r => m <-! mus r ;; Done (b_muc b :: m) | _ :: _ => Raise AttributeError end.
(** 88-93 *)
Definition check_seq (l : list pv) : pres R :=
  m <-! mus l ;; match m with [] => Raise IndexError | m0 :: _ => if forallb (fun x => if Req_EM_T x m0 then true else false) m then Done m0 else Raise ValueError end.
(** 95-98: the entries are overwritten one after the other; pykep.epoch(x, MJD2000) takes a number, anything else is a TypeError (core.cpp 131-147).
    The second component is the list as it is left *)
Fixpoint epochs (l : list pv) : pres unit * list pv :=
  match l with
  | [] => (Done tt, [])
  | PEpoch d :: r => let (o, r') := epochs r in (o, PEpoch d :: r')
  | PNum x :: r => let (o, r') := epochs r in (o, PEpoch x :: r')
  | _ => (Raise TypeError, l)
  end.
(** len(t0) of something that is not a list or a string is a TypeError *)
Definition check_t0 (h : heap) (t0 : pv) : pres unit * heap :=
  match t0 with
  | PRef a => let (o, l) := epochs (get h a) in (o, put a l h)
  | PStr EmptyString => (Done tt, h)
  | _ => (Raise TypeError, h)
  end.
(** elem[1] >= elem[0] *)
Definition pge (x y : pv) : pres bool :=
  match x, y with
  | PNum a, PNum b => Done (if Rle_dec b a then true else false)
  | PEpoch a, PEpoch b => Done (if Rle_dec b a then true else false)
  | PStr a, PStr b => Done (String.leb b a)
  | _, _ => Raise TypeError
  end.
Definition is_pair (h : heap) (x : pv) : bool := match x with PRef a => match get h a with [_; _] => true | _ => false end | _ => false end.
(** all(elem[1] >= elem[0] for elem in tof), which stops at the first False *)
Fixpoint all_ge (h : heap) (l : list pv) : pres bool :=
  match l with
  | [] => Done true
  | PRef a :: r => match get h a with x :: y :: _ => b <-! pge y x ;; if b then all_ge h r else Done false | _ => Raise IndexError end
  | _ :: _ => Raise TypeError
  end.
Section Oracle.
(** whether float() accepts a string *)
Variable float_str : string -> bool.
(** 101-138 *)
Definition check_tof (h : heap) (n : nat) (enc : string) (tof : pv) : pres unit :=
  if String.eqb enc "alpha" then match tof with PRef a => if (List.length (get h a) =? 2)%nat then Done tt else Raise TypeError | _ => Raise TypeError end
  else if String.eqb enc "direct" then
    match tof with
    | PRef a => let l := get h a in
        if negb (List.length l =? n - 1)%nat then Raise TypeError else if negb (forallb (is_pair h) l) then Raise TypeError else
        b <-! all_ge h l ;; if b then Done tt else Raise TypeError
    | _ => Raise TypeError
    end
  else if String.eqb enc "eta" then match tof with PNum _ => Done tt | PStr s => if float_str s then Done tt else Raise ValueError | _ => Raise TypeError end
  else Raise ValueError.
(** seq[0].get_mu_central_body() (165) *)
Definition first_mu (l : list pv) : pres R := match l with [] => Raise IndexError | PPlanet b :: _ => Done (b_muc b) | _ :: _ => Raise AttributeError end.
(** 142-150 *)
Definition check_ins (ins : bool) (e rp : option R) : pres unit :=
  if ins then match rp with None => Raise ValueError | Some _ => match e with None => Raise ValueError | Some _ => Done tt end end else Done tt.
(** 152-165: the lists are kept, not copied *)
Record pmga := mk_pmga { o_seq : nat; o_t0 : pv; o_tof : pv; o_vinf : R; o_multi : bool; o_enc : string; o_ins : bool; o_e : option R; o_rp : option R; o_nlegs : nat; o_mu : R }.
Definition mga_init (h : heap) (seq : nat) (t0 tof : pv) (vinf : R) (multi : bool) (enc : string) (ins : bool) (e rp : option R) : pres pmga * heap :=
  match check_seq (get h seq) with
  | Raise x => (Raise x, h)
  | Done _ => let (o, h') := check_t0 h t0 in
      (_ <-! o ;; _ <-! check_tof h' (List.length (get h' seq)) enc tof ;; _ <-! check_ins ins e rp ;; m <-! first_mu (get h' seq) ;;
       Done (mk_pmga seq t0 tof (vinf * 1000) multi enc ins e rp (List.length (get h' seq) - 1) m), h')
  end.
End Oracle.

(** ** get_bounds (170-187); the two vectors hold what the lists hold *)
Definition mjd (l : list pv) (i : nat) : pres pv := match nth_error l i with None => Raise IndexError | Some (PEpoch d) => Done (PNum d) | Some _ => Raise AttributeError end.
Definition item (l : list pv) (i : nat) : pres pv := match nth_error l i with None => Raise IndexError | Some x => Done x end.
Fixpoint items (h : heap) (i : nat) (l : list pv) : pres (list pv) :=
  match l with
  | [] => Done []
  | PRef a :: r => x <-! item (get h a) i ;; s <-! items h i r ;; Done (x :: s)
  | _ :: _ => Raise TypeError
  end.
Definition as_list (h : heap) (x : pv) : pres (list pv) := match x with PRef a => Done (get h a) | PStr EmptyString => Done [] | _ => Raise TypeError end.
Definition py_bound (h : heap) (p : pmga) (i : nat) : pres (list pv) :=
  let w := PNum (match i with O => 1 / 1000 | _ => 1 - 1 / 1000 end) in
  t0 <-! as_list h (o_t0 p) ;; d <-! mjd t0 i ;;
  if String.eqb (o_enc p) "alpha" then l <-! as_list h (o_tof p) ;; x <-! item l i ;; Done ([d; x] ++ repeat w (o_nlegs p))
  else if String.eqb (o_enc p) "direct" then l <-! as_list h (o_tof p) ;; s <-! items h i l ;; Done (d :: s)
  else Done (d :: repeat w (o_nlegs p)).
Definition py_bounds (h : heap) (p : pmga) : pres (list pv * list pv) := lb <-! py_bound h p 0 ;; ub <-! py_bound h p 1 ;; Done (lb, ub).
