(** * Lambert's problem
    src/lambert_problem.cpp 39-294.
    The model is written over an arbitrary arithmetic: a type of numbers with the operations the code uses, none of which is
    constrained; LambertReal.v gives the real numbers with NaN, and binary64 is another instance.  Theorems about every
    arithmetic hold whatever the rounding and the mathematical library do.
    Simplification: xt::linalg::norm is one operation of the arithmetic; xt::linalg::cross is the usual formula. *)
From Coq Require Import ZArith List Bool.
From Verif Require Import Outcome.
Import ListNotations.
Open Scope Z_scope. Open Scope outcome_scope.

Record arith (F : Type) := mk_arith {
  f_add : F -> F -> F; f_sub : F -> F -> F; f_mul : F -> F -> F; f_div : F -> F -> F;
  f_opp : F -> F; f_abs : F -> F; f_sqrt : F -> F; f_pow : F -> F -> F; f_log : F -> F;
  f_sin : F -> F; f_asin : F -> F; f_acos : F -> F; f_sinh : F -> F; f_asinh : F -> F; f_acosh : F -> F;
  f_norm : F * F * F -> F;
  f_lt : F -> F -> bool; f_le : F -> F -> bool; f_eq : F -> F -> bool;
  f_pi : F;                     (* kep3::pi *)
  f_lit : Z -> positive -> F;   (* literals, as fractions; integers converted to double have denominator 1 *)
  f_u32 : F -> outcome Z        (* static_cast<unsigned>: undefined when the truncated value does not fit *)
}.
Arguments f_add {F}. Arguments f_sub {F}. Arguments f_mul {F}. Arguments f_div {F}. Arguments f_opp {F}. Arguments f_abs {F}.
Arguments f_sqrt {F}. Arguments f_pow {F}. Arguments f_log {F}. Arguments f_sin {F}. Arguments f_asin {F}. Arguments f_acos {F}.
Arguments f_sinh {F}. Arguments f_asinh {F}. Arguments f_acosh {F}. Arguments f_norm {F}. Arguments f_lt {F}. Arguments f_le {F}.
Arguments f_eq {F}. Arguments f_pi {F}. Arguments f_lit {F}. Arguments f_u32 {F}.

Definition u32 : Z := 2 ^ 32.
(** std::vector::operator[]: out of range is undefined *)
Definition upd {A} (l : list A) (i : Z) (a : A) : outcome (list A) :=
  if (0 <=? i) && (i <? Z.of_nat (length l)) then Ret (firstn (Z.to_nat i) l ++ a :: skipn (S (Z.to_nat i)) l) else UB.
(** at most [p] steps, stopping at the first answer *)
Fixpoint steps {S A} (p : positive) (step : S -> S + A) (s : S) : S + A :=
  match p with
  | xH => step s
  | xO q => match steps q step s with inl s' => steps q step s' | inr a => inr a end
  | xI q => match steps q step s with inl s' => match steps q step s' with inl s2 => step s2 | inr a => inr a end | inr a => inr a end
  end.

(** the members that the getters return, and s, c, lambda *)
Record lambert_t (F : Type) := mk_lambert {
  l_v0 : list (F * F * F); l_v1 : list (F * F * F); l_x : list F; l_iters : list Z; l_nmax : Z; l_s : F; l_c : F; l_lambda : F }.
Arguments mk_lambert {F}. Arguments l_v0 {F}. Arguments l_v1 {F}. Arguments l_x {F}. Arguments l_iters {F}. Arguments l_nmax {F}. Arguments l_s {F}. Arguments l_c {F}. Arguments l_lambda {F}.

Section Arith.
Context {F : Type} (O : arith F).
Local Notation "x + y" := (f_add O x y). Local Notation "x - y" := (f_sub O x y). Local Notation "x * y" := (f_mul O x y). Local Notation "x / y" := (f_div O x y).
Local Notation "- x" := (f_opp O x).
Local Notation "x <? y" := (f_lt O x y). Local Notation "x <=? y" := (f_le O x y).
Definition nat_ (n : Z) : F := f_lit O n 1.
Definition vec3 : Type := F * F * F.
Definition v3sub (a b : vec3) : vec3 := match a, b with (a1, a2, a3), (b1, b2, b3) => (a1 - b1, a2 - b2, a3 - b3) end.
Definition v3div (a : vec3) (k : F) : vec3 := match a with (a1, a2, a3) => (a1 / k, a2 / k, a3 / k) end.
Definition v3opp (a : vec3) : vec3 := match a with (a1, a2, a3) => (- a1, - a2, - a3) end.
Definition v3cross (a b : vec3) : vec3 := match a, b with (a1, a2, a3), (b1, b2, b3) => (a2 * b3 - a3 * b2, a3 * b1 - a1 * b3, a1 * b2 - a2 * b1) end.
(** vr * ir[j] + vt * it[j] *)
Definition v3lin (a : F) (u : vec3) (b : F) (w : vec3) : vec3 := match u, w with (u1, u2, u3), (w1, w2, w3) => (a * u1 + b * w1, a * u2 + b * w2, a * u3 + b * w3) end.
Definition v3zero : vec3 := (nat_ 0, nat_ 0, nat_ 0).
Definition v3z (a : vec3) : F := match a with (_, _, z) => z end.

(** 277-294.  [j] is an int: its overflow is undefined *)
Definition hyper_step (z tol : F) (st : F * F * F * Z) : (F * F * F * Z) + F :=
  let '(Sj, Cj, err, j) := st in
  if tol <? err then
    let Cj1 := Cj * (nat_ 3 + nat_ j) * (nat_ 1 + nat_ j) / (f_lit O 5 2 + nat_ j) * z / nat_ (j + 1)%Z in
    inl (Sj + Cj1, Cj1, f_abs O Cj1, (j + 1)%Z)
  else inr Sj.
Definition hypergeometricF (z tol : F) : outcome F :=
  match steps 2147483648 (hyper_step z tol) (nat_ 1, nat_ 1, nat_ 1, 0%Z) with inr r => Ret r | inl _ => UB end.

Section Lambda.
Variable lambda : F.   (* m_lambda *)
(** 206-217 *)
Definition dTdx (x T : F) : F * F * F :=
  let l2 := lambda * lambda in
  let l3 := l2 * lambda in
  let umx2 := nat_ 1 - x * x in
  let y := f_sqrt O (nat_ 1 - l2 * umx2) in
  let y2 := y * y in
  let y3 := y2 * y in
  let DT := nat_ 1 / umx2 * (nat_ 3 * T * x - nat_ 2 + nat_ 2 * l3 * x / y) in
  let DDT := nat_ 1 / umx2 * (nat_ 3 * T + nat_ 5 * x * DT + nat_ 2 * (nat_ 1 - l2) * l3 / y3) in
  let DDDT := nat_ 1 / umx2 * (nat_ 7 * x * DDT + nat_ 8 * DT - nat_ 6 * (nat_ 1 - l2) * l2 * l3 * x / y3 / y2) in
  (DT, DDT, DDDT).
(** 219-239 *)
Definition x2tof2 (x : F) (N : Z) : F :=
  let a := nat_ 1 / (nat_ 1 - x * x) in
  if nat_ 0 <? a then
    let alfa := nat_ 2 * f_acos O x in
    let beta := nat_ 2 * f_asin O (f_sqrt O (lambda * lambda / a)) in
    let beta := if lambda <? nat_ 0 then - beta else beta in
    a * f_sqrt O a * ((alfa - f_sin O alfa) - (beta - f_sin O beta) + nat_ 2 * f_pi O * nat_ N) / nat_ 2
  else
    let alfa := nat_ 2 * f_acosh O x in
    let beta := nat_ 2 * f_asinh O (f_sqrt O (- lambda * lambda / a)) in
    let beta := if lambda <? nat_ 0 then - beta else beta in
    (- a) * f_sqrt O (- a) * ((beta - f_sinh O beta) - (alfa - f_sinh O alfa)) / nat_ 2.
(** 241-275 *)
Definition x2tof (x : F) (N : Z) : outcome F :=
  let battin := f_lit O 1 100 in
  let lagrange := f_lit O 1 5 in
  let dist := f_abs O (x - nat_ 1) in
  if (dist <? lagrange) && (battin <? dist) then Ret (x2tof2 x N) else
  let K := lambda * lambda in
  let E := x * x - nat_ 1 in
  let rho := f_abs O E in
  let z := f_sqrt O (nat_ 1 + K * E) in
  if dist <? battin then
    let eta := z - lambda * x in
    let S1 := f_lit O 1 2 * (nat_ 1 - lambda - x * eta) in
    Q <- hypergeometricF S1 (f_lit O 1 100000000000) ;;
    let Q := nat_ 4 / nat_ 3 * Q in
    Ret ((eta * eta * eta * Q + nat_ 4 * lambda * eta) / nat_ 2 + nat_ N * f_pi O / f_pow O rho (f_lit O 3 2))
  else
    let y := f_sqrt O rho in
    let g := x * z - lambda * E in
    let d := if E <? nat_ 0 then nat_ N * f_pi O + f_acos O g else f_log O (y * (z - lambda * x) + g) in
    Ret ((x - lambda * z - d / y) / E).
(** 185-204: [n] is the number of iterations still allowed, [it] the number done *)
Fixpoint house (n : nat) (T eps : F) (N : Z) (err x0 : F) (it : Z) : outcome (F * Z) :=
  match n with
  | 0%nat => Ret (x0, it)
  | S n' =>
      if eps <? err then
        tof <- x2tof x0 N ;;
        let '(DT, DDT, DDDT) := dTdx x0 tof in
        let delta := tof - T in
        let DT2 := DT * DT in
        let xnew := x0 - delta * (DT2 - delta * DDT / nat_ 2) / (DT * (DT2 - delta * DDT) + DDDT * delta * delta / nat_ 6) in
        house n' T eps N (f_abs O (x0 - xnew)) xnew (it + 1)%Z
      else Ret (x0, it)
  end.
Definition householder (T x0 : F) (N : Z) (eps : F) (iter_max : nat) : outcome (F * Z) := house iter_max T eps N (nat_ 1) x0 0%Z.
(** 106-125: [T_min] and the number of times the loop came round; [n] is a bound on the number of rounds that is never reached *)
Fixpoint halley (n : nat) (Nmax : Z) (it : Z) (x_old x_new T_min : F) : outcome (F * Z) :=
  match n with
  | 0%nat => UB
  | S n' =>
      let '(DT, DDT, DDDT) := dTdx x_old T_min in
      let x_new := if f_eq O DT (nat_ 0) then x_new else x_old - DT * DDT / (DDT * DDT - DT * DDDT / nat_ 2) in
      let err := f_abs O (x_old - x_new) in
      if (err <? f_lit O 1 10000000000000) || Z.ltb 12 it then Ret (T_min, it) else
      T_min <- x2tof x_new Nmax ;;
      halley n' Nmax (it + 1)%Z x_new x_new T_min
  end.
(** 153-162: [n] turns of the loop from [i] on *)
Fixpoint multi (n : nat) (T : F) (i : Z) (xs : list F) (its : list Z) : outcome (list F * list Z) :=
  match n with
  | 0%nat => Ret (xs, its)
  | S n' =>
      let tmp := f_pow O ((nat_ i * f_pi O + f_pi O) / (nat_ 8 * T)) (nat_ 2 / nat_ 3) in
      h <- householder T ((tmp - nat_ 1) / (tmp + nat_ 1)) i (f_lit O 1 100000000) 15 ;;
      xs <- upd xs (2 * i - 1)%Z (fst h) ;;
      its <- upd its (2 * i - 1)%Z (snd h) ;;
      let tmp := f_pow O (nat_ 8 * T / (nat_ i * f_pi O)) (nat_ 2 / nat_ 3) in
      h <- householder T ((tmp - nat_ 1) / (tmp + nat_ 1)) i (f_lit O 1 100000000) 15 ;;
      xs <- upd xs (2 * i)%Z (fst h) ;;
      its <- upd its (2 * i)%Z (snd h) ;;
      multi n' T (i + 1)%Z xs its
  end.
(** 97-131: the number of revolutions kept; [q] is static_cast<unsigned>(T / pi) *)
Definition count (T lambda2 : F) (q multi_revs : Z) : outcome Z :=
  let Nmax := Z.min multi_revs q in
  if Z.ltb 0 Nmax then
    let T00 := f_acos O lambda + lambda * f_sqrt O (nat_ 1 - lambda2) in
    let T0 := T00 + nat_ Nmax * f_pi O in
    Nmax <- (if T <? T0 then h <- halley 14 Nmax 0 (nat_ 0) (nat_ 0) T0 ;; (if T <? fst h then Ret ((Nmax - 1) mod u32)%Z else Ret Nmax) else Ret Nmax) ;;
    Ret (Z.min multi_revs Nmax)
  else Ret Nmax.
(** 142-148 *)
Definition guess0 (T lambda2 : F) : F :=
  let lambda3 := lambda * lambda2 in
  let T00 := f_acos O lambda + lambda * f_sqrt O (nat_ 1 - lambda2) in
  let T1 := nat_ 2 / nat_ 3 * (nat_ 1 - lambda3) in
  if T00 <=? T then (- (T - T00)) / (T - T00 + nat_ 4)
  else if T <=? T1 then T1 * (T1 - T) / (nat_ 2 / nat_ 5 * (nat_ 1 - lambda2 * lambda3) * T) + nat_ 1
  else f_pow O (T / T00) (f_lit O 6243314768165359 9007199254740992 / f_log O (T1 / T00)) - nat_ 1.
End Lambda.

(** 39-183.  The four vectors have 2 Nmax + 1 entries (134-137); the loop bound of the multi-revolution part is computed in
    unsigned arithmetic (153).  0.69314718055994529 is the double 6243314768165359 / 2^53. *)
Definition lambert (r0 r1 : vec3) (tof mu : F) (cw : bool) (multi_revs : Z) : outcome (lambert_t F) :=
  if tof <=? nat_ 0 then Throw DomainError else
  if mu <=? nat_ 0 then Throw DomainError else
  let c := f_norm O (v3sub r1 r0) in
  let Rs := f_norm O r0 in
  let Rf := f_norm O r1 in
  let s := (c + Rs + Rf) / nat_ 2 in
  let irs := v3div r0 Rs in
  let irf := v3div r1 Rf in
  let ih := v3cross irs irf in
  let ih := v3div ih (f_norm O ih) in
  if f_eq O (v3z ih) (nat_ 0) then Throw DomainError else
  let lambda2 := nat_ 1 - c / s in
  let lambda := f_sqrt O lambda2 in
  let its := v3cross ih irs in
  let itf := v3cross ih irf in
  let its := v3div its (f_norm O its) in
  let itf := v3div itf (f_norm O itf) in
  let '(lambda, its, itf) := if v3z ih <? nat_ 0 then (- lambda, v3opp its, v3opp itf) else (lambda, its, itf) in
  let '(lambda, its, itf) := if cw then (- lambda, v3opp its, v3opp itf) else (lambda, its, itf) in
  let T := f_sqrt O (nat_ 2 * mu / s / s / s) * tof in
  q <- f_u32 O (T / f_pi O) ;;
  Nmax <- count lambda T lambda2 q multi_revs ;;
  let size := Z.to_nat (Nmax * 2 + 1) in
  h <- householder lambda T (guess0 lambda T lambda2) 0 (f_lit O 1 100000) 15 ;;
  xs <- upd (repeat (nat_ 0) size) 0 (fst h) ;;
  iters <- upd (repeat 0 size) 0 (snd h) ;;
  m <- multi lambda (Z.to_nat ((Nmax + 1) mod u32 - 1)) T 1 xs iters ;;
  let gamma := f_sqrt O (mu * s / nat_ 2) in
  let rho := (Rs - Rf) / c in
  let sigma := f_sqrt O (nat_ 1 - rho * rho) in
  let vel (x : F) : vec3 * vec3 :=
    let y := f_sqrt O (nat_ 1 - lambda2 + lambda2 * x * x) in
    let vrs := gamma * ((lambda * y - x) - rho * (lambda * y + x)) / Rs in
    let vrf := (- gamma) * ((lambda * y - x) + rho * (lambda * y + x)) / Rf in
    let vt := gamma * sigma * (y + lambda * x) in
    (v3lin vrs irs (vt / Rs) its, v3lin vrf irf (vt / Rf) itf) in
  Ret (mk_lambert (map (fun x => fst (vel x)) (fst m)) (map (fun x => snd (vel x)) (fst m)) (fst m) (snd m) Nmax s c lambda).
End Arith.
