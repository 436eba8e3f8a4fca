(** * What each setter of the two legs should do to the leg's data (specification)
    The data of a leg is what its getters return; no update function of the model is used. *)
From Coq Require Import ZArith Reals List.
From Flocq Require Import Core.Core IEEE754.BinarySingleNaN.
From Verif Require Import Outcome Float64 LegModel LegSpec HfModel.
Import ListNotations.
Open Scope Z_scope.

(** ** sims_flanagan *)
Record leg_data := Leg { d_rvs : list double; d_ms : double; d_thr : list double; d_rvf : list double; d_mf : double;
  d_tof : double; d_T : double; d_isp : double; d_mu : double; d_cut : double }.
Definition data_of (l : sfleg) : leg_data :=
  Leg (sf_rvs l) (sf_ms l) (sf_thr l) (sf_rvf l) (sf_mf l) (sf_tof l) (sf_T l) (sf_isp l) (sf_mu l) (sf_cut l).
Definition wanted (o : sf_op) (d : leg_data) : leg_data :=
  match d with Leg rvs ms thr rvf mf tof T isp mu cut =>
  match o with
  | OpTof v => Leg rvs ms thr rvf mf v T isp mu cut
  | OpRvs v => Leg v ms thr rvf mf tof T isp mu cut
  | OpMs v => Leg rvs v thr rvf mf tof T isp mu cut
  | OpThr v => Leg rvs ms v rvf mf tof T isp mu cut
  | OpThrIt src i j => Leg rvs ms (firstn (Z.to_nat (j - i)) (skipn (Z.to_nat i) src)) rvf mf tof T isp mu cut
  | OpRvf v => Leg rvs ms thr v mf tof T isp mu cut
  | OpMf v => Leg rvs ms thr rvf v tof T isp mu cut
  | OpT v => Leg rvs ms thr rvf mf tof v isp mu cut
  | OpIsp v => Leg rvs ms thr rvf mf tof T v mu cut
  | OpMu v => Leg rvs ms thr rvf mf tof T isp v cut
  | OpCut v => Leg rvs ms thr rvf mf tof T isp mu v
  | OpSet rvs' ms' thr' rvf' mf' tof' T' isp' mu' cut' => Leg rvs' ms' thr' rvf' mf' tof' T' isp' mu' cut'
  end end.
(** a number (or minus infinity) below zero; a number (or infinity) above one *)
Definition below_zero (x : double) : Prop := x = dninf \/ (is_finite x = true /\ (B2R x < 0)%R).
Definition above_one (x : double) : Prop := x = dinf \/ (is_finite x = true /\ (1 < B2R x)%R).
Definition bad_throttles (n : Z) : Prop := n <= 0 \/ n mod 3 <> 0.
(** the arguments to be refused; [set] is left out (C27_set_refuted) *)
Definition refused (o : sf_op) : Prop :=
  match o with
  | OpTof v | OpT v | OpIsp v | OpMu v => below_zero v
  | OpCut v => below_zero v \/ above_one v
  | OpThr v => bad_throttles (Z.of_nat (length v))
  | OpThrIt _ i j => bad_throttles (j - i)
  | OpRvs _ | OpMs _ | OpRvf _ | OpMf _ => False
  | OpSet _ _ _ _ _ _ _ _ _ _ => False
  end.

(** ** sims_flanagan_hf: states are arrays of position, velocity and mass *)
Record hf_data := Hf { h_d_rvms : list double; h_d_thr : list double; h_d_rvmf : list double;
  h_d_tof : double; h_d_T : double; h_d_isp : double; h_d_mu : double; h_d_cut : double; h_d_tol : double }.
Definition hf_data_of (l : hfleg) : hf_data :=
  Hf (hf_rvms l) (hf_thr l) (hf_rvmf l) (hf_tof l) (hf_T l) (hf_isp l) (hf_mu l) (hf_cut l) (hf_tol l).
Definition hf_wanted (o : hf_op) (d : hf_data) : hf_data :=
  match d with Hf rvms thr rvmf tof T isp mu cut tol =>
  match o with
  | HTof v => Hf rvms thr rvmf v T isp mu cut tol
  | HRvs rv => Hf (rv ++ [nth 6 rvms dzero]) thr rvmf tof T isp mu cut tol
  | HMs m => Hf (firstn 6 rvms ++ [m]) thr rvmf tof T isp mu cut tol
  | HThr v => Hf rvms v rvmf tof T isp mu cut tol
  | HThrIt src i j => Hf rvms (firstn (Z.to_nat (j - i)) (skipn (Z.to_nat i) src)) rvmf tof T isp mu cut tol
  | HRvf rv => Hf rvms thr (rv ++ [nth 6 rvmf dzero]) tof T isp mu cut tol
  | HMf m => Hf rvms thr (firstn 6 rvmf ++ [m]) tof T isp mu cut tol
  | HT v => Hf rvms thr rvmf tof v isp mu cut tol
  | HIsp v => Hf rvms thr rvmf tof T v mu cut tol
  | HMu v => Hf rvms thr rvmf tof T isp v cut tol
  | HCut v => Hf rvms thr rvmf tof T isp mu v tol
  | HTol v => Hf rvms thr rvmf tof T isp mu cut v
  | HRvms v => Hf v thr rvmf tof T isp mu cut tol
  | HRvmf v => Hf rvms thr v tof T isp mu cut tol
  | HSet rvms' thr' rvmf' tof' T' isp' mu' cut' tol' => Hf rvms' thr' rvmf' tof' T' isp' mu' cut' tol'
  | HSetShort rvms' thr' rvmf' tof' => Hf rvms' thr' rvmf' tof' T isp mu cut tol
  end end.
Definition hf_refused (o : hf_op) : Prop :=
  match o with
  | HTof v | HT v | HIsp v | HMu v => below_zero v
  | HCut v => below_zero v \/ above_one v
  | HTol v => below_zero v \/ (is_finite v = true /\ B2R v = 0%R) \/ above_one v
  | HThr v => bad_throttles (Z.of_nat (length v))
  | HThrIt _ i j => bad_throttles (j - i)
  | HSet _ thr _ tof T isp mu cut tol => bad_throttles (Z.of_nat (length thr)) \/ below_zero tof \/ below_zero T \/ below_zero isp \/ below_zero mu \/
      (below_zero cut \/ above_one cut) \/ (below_zero tol \/ (is_finite tol = true /\ B2R tol = 0%R) \/ above_one tol)
  | HSetShort _ thr _ tof => bad_throttles (Z.of_nat (length thr)) \/ below_zero tof
  | HRvs _ | HMs _ | HRvf _ | HMf _ | HRvms _ | HRvmf _ => False
  end.
(** [set] converts the cut before checking it: a NaN or an out-of-range cut is undefined behaviour, so here it has to be a number of [0,1] *)
Definition cut_convertible (o : hf_op) : Prop := match o with HSet _ _ _ _ _ _ _ cut _ => unit_double cut | HCut c => is_nan c = false | _ => True end.
