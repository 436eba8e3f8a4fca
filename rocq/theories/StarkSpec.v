(** * What propagating the Stark problem means: a function of the parameters and arguments only *)
From Coq Require Import ZArith List Bool.
From Flocq Require Import Core.Core IEEE754.BinarySingleNaN.
From Verif Require Import Outcome Float64 LegModel HfModel HfSpec StarkModel.
Import ListNotations.
Open Scope Z_scope.

Definition stark_flow (integ : double -> list double -> list double -> double -> double -> bool * list double * double)
    (mu veff tol : double) (x u : list double) (t : double) : outcome (list double) :=
  if deqb (nth 6 x dzero) dzero then Throw DomainError
  else let '(ok, y, _) := integ tol (mu :: veff :: u) x dzero t in if ok then Ret y else Throw DomainError.

(** the augmented state: 7 numbers, then for each of them its 10 derivatives (7 initial state, 3 thrust) *)
Definition stark_flow_var (integv : double -> list double -> list double -> double -> double -> bool * list double * double)
    (ic : list double) (mu veff tol : double) (x u : list double) (t : double) : outcome (list double) :=
  if deqb (nth 6 x dzero) dzero then Throw DomainError
  else let '(ok, y, _) := integv tol (mu :: veff :: u) (x ++ ic) dzero t in if ok then Ret y else Throw DomainError.

(** the values of mu and veff a caller expects after a history *)
Definition cur_mu (ops : list sk_op) (mu : double) : double := fold_left (fun m o => match o with SMu v => v | _ => m end) ops mu.
Definition cur_veff (ops : list sk_op) (veff : double) : double := fold_left (fun m o => match o with SVeff v => v | _ => m end) ops veff.

(** C++ array types *)
Definition sk_typed (o : sk_op) : Prop :=
  match o with SGo x u _ | SGoVar x u _ => length x = 7%nat /\ length u = 3%nat | _ => True end.

(** what propagate_var must return for an augmented final state: the first seven numbers, and the two Jacobians row-major *)
Definition var_result (o : outcome (list double)) (r : outcome (list double * (list double * list double))) : Prop :=
  match o with
  | Ret st => length st = 77%nat /\ exists dxdx dxdu, r = Ret (firstn 7 st, (dxdx, dxdu)) /\ length dxdx = 49%nat /\ length dxdu = 21%nat /\
      (forall i j, (i < 7)%nat -> (j < 7)%nat -> nth (7 * i + j) dxdx dzero = nth (7 + 10 * i + j) st dzero) /\
      (forall i j, (i < 7)%nat -> (j < 3)%nat -> nth (3 * i + j) dxdu dzero = nth (7 + 10 * i + 7 + j) st dzero)
  | Throw e => r = Throw e
  | UB => False
  end.

