(** * What a state history is *)
From Coq Require Import ZArith List.
From Flocq Require Import Core.Core IEEE754.BinarySingleNaN.
From Verif Require Import Outcome Float64 LegModel HfModel HfSpec HistModel.
Import ListNotations.
Open Scope Z_scope.

(** Fly segments, each with a thrust and its own sampling times, from a state; collect the samples of each. *)
Fixpoint fly_grid (ig : double -> list double -> list double -> double -> list double -> bool * list double * list double * double)
    (tol : double) (p : list double) (segs : list (list double * list double)) (x : list double) : option (list (list double)) :=
  match segs with
  | [] => Some []
  | (u, gr) :: rest =>
      let '(ok, out, x', _) := ig tol (p ++ u) x (hd dzero gr) gr in
      if ok then match fly_grid ig tol p rest x' with Some os => Some (out :: os) | None => None end else None
  end.

(** the sampling times of segment [i]: g points of the leg's time grid, sharing end points with the neighbours *)
Definition seg_times (tg : list double) (g i : Z) : list double := firstn (Z.to_nat g) (skipn (Z.to_nat (i * (g - 1))) tg).

Definition fwd_hist_segs (T : double) (th tg : list double) (g : Z) (nf : nat) : list (list double * list double) :=
  map (fun i => (seg_thrust T th (Z.of_nat i), seg_times tg g (Z.of_nat i))) (seq 0 nf).
Definition bck_hist_segs (T : double) (th tg : list double) (g n : Z) (nb : nat) : list (list double * list double) :=
  map (fun i => (seg_thrust T th (n - 1 - Z.of_nat i), rev (seg_times tg g (n - 1 - Z.of_nat i)))) (seq 0 nb).

(** one record per segment, in segment order: forward segments then backward segments *)
Definition history_spec ig (rvms th rvmf tg : list double) (T isp mu tol : double) (n nf g : Z) : outcome (list (list double)) :=
  let p := [mu; dmul isp dG0] in
  match fly_grid ig tol p (fwd_hist_segs T th tg g (Z.to_nat nf)) rvms,
        fly_grid ig tol p (bck_hist_segs T th tg g n (Z.to_nat (n - nf))) rvmf with
  | Some a, Some b => Ret (a ++ rev b)
  | _, _ => Throw DomainError
  end.

(** the oracle keeps the dimension of the state and returns 7 numbers per sampling time *)
Definition grid_dim (ig : double -> list double -> list double -> double -> list double -> bool * list double * list double * double) : Prop :=
  forall tol p x t gr, length (snd (fst (ig tol p x t gr))) = length x
                     /\ length (snd (fst (fst (ig tol p x t gr)))) = (length gr * 7)%nat.
