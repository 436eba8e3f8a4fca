(** * Time-of-flight encodings of the MGA problem (pykep/trajopt/_mga.py)
    Simplification: floats are real numbers.  Division by zero and logarithms of non-positive numbers, which numpy turns
    into nan/inf, are excluded by hypotheses of the theorems. *)
From Coq Require Import Reals List.
From Verif Require Import Outcome.
Import ListNotations.
Open Scope R_scope.

(** python's sum: from the left, starting at 0 *)
Definition py_sum (l : list R) : R := fold_left Rplus l 0.

(** alpha2direct, 207-219: T = log(x[2:]); T / sum(T) * x[1]; x[0] inserted in front.  A missing x[1] or x[0] is an
    IndexError ([OutOfRange]). *)
Definition alpha2direct (x : list R) : outcome (list R) :=
  match x with
  | x0 :: x1 :: al => let T := map ln al in Ret (x0 :: map (fun t => t / py_sum T * x1) T)
  | _ => Throw OutOfRange
  end.
(** direct2alpha, 222-234 *)
Definition direct2alpha (x : list R) : outcome (list R) :=
  match x with
  | x0 :: d => let T := py_sum d in Ret (x0 :: T :: map (fun t => exp (t / - T)) d)
  | [] => Throw OutOfRange
  end.

(** T[0] = dt * x[1]; for i in range(1, len(T)): T[i] = (dt - sum(T[:i])) * x[i + 1] *)
Fixpoint eta_loop (dt : R) (T es : list R) : list R :=
  match es with [] => T | e :: r => eta_loop dt (T ++ [(dt - py_sum T) * e]) r end.
(** the encoding chosen at construction; 'eta' carries the total time (self.tof) *)
Inductive encoding := Alpha | Direct | Eta (tof : R).

(** eta2direct, 236-259: T has len(x) - 1 entries, so T[0] = ... needs at least two entries of x *)
Definition eta2direct (enc : encoding) (x : list R) : outcome (list R) :=
  match enc with
  | Eta dt => match x with x0 :: e1 :: es => Ret (x0 :: eta_loop dt [dt * e1] es) | _ => Throw OutOfRange end
  | _ => Throw InvalidArgument
  end.
(** retval[i] = x[i] / (self.tof - sum(x[1:i])); [seen] is x[1:i] *)
Fixpoint eta_inv_loop (dt : R) (seen ds : list R) : list R :=
  match ds with [] => [] | d :: r => d / (dt - py_sum seen) :: eta_inv_loop dt (seen ++ [d]) r end.
(** direct2eta, 261-281 *)
Definition direct2eta (enc : encoding) (x : list R) : outcome (list R) :=
  match enc with
  | Eta dt => match x with x0 :: d1 :: ds => Ret (x0 :: d1 / dt :: eta_inv_loop dt [d1] ds) | _ => Throw OutOfRange end
  | _ => Throw InvalidArgument
  end.

(** _decode_tofs, 189-204.  [n_legs] = len(seq) - 1.  With 'eta' the list T has n_legs entries whatever the length of x:
    a missing x[i + 1] is an IndexError and surplus entries are ignored. *)
Definition decode_tofs (enc : encoding) (n_legs : nat) (x : list R) : outcome (list R) :=
  match enc with
  | Alpha => match x with _ :: x1 :: al => let T := map ln al in Ret (map (fun t => t / py_sum T * x1) T) | _ => Throw OutOfRange end
  | Direct => Ret (tl x)
  | Eta dt => match n_legs, x with
      | S m, _ :: e1 :: es => if (length es <? m)%nat then Throw OutOfRange else Ret (eta_loop dt [dt * e1] (firstn m es))
      | _, _ => Throw OutOfRange
      end
  end.
