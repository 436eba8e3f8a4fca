(** * What a valid Sims-Flanagan leg is (specification, independent of the setters) *)
From Coq Require Import ZArith Reals List.
From Flocq Require Import Core.Core IEEE754.BinarySingleNaN.
From Verif Require Import Float64 LegModel.
Open Scope Z_scope.

(** a double that is a real number of [0,1] *)
Definition unit_double (c : double) : Prop := is_finite c = true /\ (0 <= B2R c <= 1)%R.
(** not below zero; NaN is not excluded *)
Definition not_negative (x : double) : Prop := is_nan x = true \/ x = dinf \/ (is_finite x = true /\ (0 <= B2R x)%R).

(** binary64 rounding of nseg*cut *)
Definition round_product (n : Z) (c : double) : R := round radix2 (SpecFloat.fexp 53 1024) ZnearestE (IZR n * B2R c).

Record valid_leg (l : sfleg) : Prop := {
  v_nseg : 1 <= sf_n l < 2 ^ 32;
  v_len : Z.of_nat (length (sf_thr l)) = 3 * sf_n l;
  v_fwd : 0 <= sf_nf l <= sf_n l;
  v_bck : sf_nb l = sf_n l - sf_nf l;
  v_split : sf_nf l = Ztrunc (round_product (sf_n l) (sf_cut l));
  v_cut : unit_double (sf_cut l);
  v_tof : not_negative (sf_tof l);
  v_T : not_negative (sf_T l);
  v_isp : not_negative (sf_isp l);
  v_mu : not_negative (sf_mu l) }.

(** Arguments a caller can pass: vectors shorter than 2^32, iterators into the vector; [set] is excluded. *)
Definition op_ok (o : sf_op) : Prop :=
  match o with
  | OpThr v => Z.of_nat (length v) < 2 ^ 32
  | OpThrIt src i j => 0 <= i /\ j <= Z.of_nat (length src) < 2 ^ 32
  | OpSet _ _ _ _ _ _ _ _ _ _ => False
  | _ => True
  end.
Definition op_no_nan_cut (o : sf_op) : Prop := match o with OpCut v => is_nan v = false | _ => True end.
