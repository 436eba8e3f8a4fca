(** * The type-erased planet: include/kep3/planet.hpp 37-215, src/planet.cpp 28-91
    A user class (udpla) is the record of the methods the concepts at planet.hpp 37-75 detect; the optional ones are
    options.  A method may throw.  ic2par, f2m and par2eq are oracles here (their formulas are modelled elsewhere). *)
From Coq Require Import ZArith List Bool String.
From Flocq Require Import Core.Core IEEE754.BinarySingleNaN.
From Verif Require Import Outcome Float64 EpochModel.
From Verif Require JplModel.
Import ListNotations.
Open Scope Z_scope.
Open Scope outcome_scope.

Notation etype := JplModel.etype.
Notation KEP_M := JplModel.KEP_M. Notation KEP_F := JplModel.KEP_F. Notation MEQ := JplModel.MEQ.
Notation MEQ_R := JplModel.MEQ_R. Notation POSVEL := JplModel.POSVEL.

Definition vec3 : Type := (double * double * double)%type.
Definition posvel : Type := (vec3 * vec3)%type.

Record udpla := mk_udpla {
  u_eph : double -> outcome posvel;
  u_eph_v : option (list double -> outcome (list double));
  u_mu : option (outcome double); u_mu_self : option (outcome double);
  u_radius : option (outcome double); u_safe_radius : option (outcome double);
  u_name : option (outcome string); u_extra : option (outcome string);
  u_period : option (double -> outcome double);
  u_elements : option (double -> etype -> outcome (list double)) }.

Section Planet.
Variable demangled : udpla -> string.  (* boost::core::demangle(typeid(T).name()) *)
Variable ic2par : posvel -> double -> list double.
Variable f2m : double -> double -> double.
Variable par2eq : list double -> bool -> list double.
Variable two_pi : double.  (* kep3::pi * 2. *)

Definition dminus1 : double := d_of_Z (-1).

(** KEP3_UDPLA_IMPLEMENT_GET, planet.hpp 112-120, 153-158 *)
Definition get_or {A} (m : option (outcome A)) (def : A) : outcome A := match m with Some v => v | None => Ret def end.
Definition get_mu_central_body (p : udpla) := get_or (u_mu p) dminus1.
Definition get_mu_self (p : udpla) := get_or (u_mu_self p) dminus1.
Definition get_radius (p : udpla) := get_or (u_radius p) dminus1.
Definition get_safe_radius (p : udpla) := get_or (u_safe_radius p) dminus1.
Definition get_name (p : udpla) := get_or (u_name p) (demangled p).
Definition get_extra_info (p : udpla) := get_or (u_extra p) EmptyString.

(** 160-163 *)
Definition eph (p : udpla) (t : double) : outcome posvel := u_eph p t.

(** v[i] and v[i] = x: undefined outside the vector *)
Definition vget (v : list double) (i : Z) : outcome double :=
  if i <? 0 then UB else match nth_error v (Z.to_nat i) with Some x => Ret x | None => UB end.
Fixpoint set_nth (v : list double) (i : nat) (x : double) : list double :=
  match v, i with [], _ => [] | _ :: v', O => x :: v' | y :: v', S i' => y :: set_nth v' i' x end.
Definition vset (v : list double) (i : Z) (x : double) : outcome (list double) :=
  if (i <? 0) || (Z.of_nat (List.length v) <=? i) then UB else Ret (set_nth v (Z.to_nat i) x).

(** default_eph_vectorization, 129-147.  resize throws when 6*size exceeds what a vector<double> can hold (the class of
    the exception, from safe_numerics or std::length_error, is not distinguished). *)
Fixpoint eph_loop (p : udpla) (ts : list double) (fuel : nat) (i : Z) (ret : list double) : outcome (list double) :=
  match fuel with
  | O => Ret ret
  | S fuel' =>
      t <- vget ts i ;;
      values <- eph p t ;;
      let '((a, b, c), (d, e, f)) := values in
      r0 <- vset ret (6 * i) a ;;
      r1 <- vset r0 (6 * i + 1) b ;;
      r2 <- vset r1 (6 * i + 2) c ;;
      r3 <- vset r2 (6 * i + 3) d ;;
      r4 <- vset r3 (6 * i + 4) e ;;
      r5 <- vset r4 (6 * i + 5) f ;;
      eph_loop p ts fuel' (i + 1) r5
  end.
Definition max_doubles : Z := 2 ^ 60 - 1.
Definition default_eph_v (p : udpla) (ts : list double) : outcome (list double) :=
  let size := Z.of_nat (List.length ts) in
  if max_doubles <? 6 * size then Throw RuntimeError
  else eph_loop p ts (List.length ts) 0 (repeat dzero (Z.to_nat (6 * size))).
(** 165-172 *)
Definition eph_v (p : udpla) (ts : list double) : outcome (list double) :=
  match u_eph_v p with Some g => g ts | None => default_eph_v p ts end.

(** src/planet.cpp 28-40 *)
Definition period_from_energy (r v : vec3) (mu : double) : double :=
  let '(r0, r1, r2) := r in let '(v0, v1, v2) := v in
  let R := dsqrt (dadd (dadd (dmul r0 r0) (dmul r1 r1)) (dmul r2 r2)) in
  let vsq := dadd (dadd (dmul v0 v0) (dmul v1 v1)) (dmul v2 v2) in
  let en := dsub (ddiv vsq (d_of_Z 2)) (ddiv mu R) in
  if dgtb en dzero then dnan
  else
    let a := ddiv (ddiv (Bopp mu) (d_of_Z 2)) en in
    dmul two_pi (dsqrt (ddiv (dmul (dmul a a) a) mu)).

(** 42-67 *)
Definition elements_from_posvel (pv : posvel) (mu : double) (t : etype) : outcome (list double) :=
  let par := ic2par pv mu in
  match t with
  | KEP_F => Ret par
  | KEP_M =>
      if dltb (nth 0 par dzero) done then Throw LogicError
      else Ret (firstn 5 par ++ [f2m (nth 5 par dzero) (nth 1 par dzero)])
  | MEQ => Ret (par2eq par false)
  | MEQ_R => Ret (par2eq par true)
  | POSVEL => Throw LogicError
  end.

(** planet.hpp 175-194 *)
Definition period (p : udpla) (t : double) : outcome double :=
  match u_period p with
  | Some g => g t
  | None =>
      match u_mu p with
      | Some _ =>
          pv <- eph p t ;;
          mu <- get_mu_central_body p ;;
          Ret (period_from_energy (fst pv) (snd pv) mu)
      | None => _ <- get_name p ;; Throw NotImplemented
      end
  end.
(** 197-215 *)
Definition elements (p : udpla) (t : double) (et : etype) : outcome (list double) :=
  match u_elements p with
  | Some g => g t et
  | None =>
      match u_mu p with
      | Some _ =>
          pv <- eph p t ;;
          mu <- get_mu_central_body p ;;
          elements_from_posvel pv mu et
      | None => _ <- get_name p ;; Throw NotImplemented
      end
  end.

(** src/planet.cpp 78-91: the overloads taking an epoch *)
Definition eph_epoch (p : udpla) (ep : epoch) : outcome posvel := t <- mjd2000 ep ;; eph p t.
Definition elements_epoch (p : udpla) (ep : epoch) (et : etype) : outcome (list double) := t <- mjd2000 ep ;; elements p t et.
Definition period_epoch (p : udpla) (ep : epoch) : outcome double := t <- mjd2000 ep ;; period p t.
End Planet.

(** src/planet.cpp 69-74 *)
Definition null_udpla : udpla :=
  mk_udpla (fun _ => Ret ((done, dzero, dzero), (dzero, done, dzero))) None None None None None None None None None.
