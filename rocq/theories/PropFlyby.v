(** * Property theorems: fly-by functions (C21).  Only statements.  Real-number model; [Some] says that no NaN or infinity appeared.
    [angle], [turn] and [reachable] are defined in FlybySpec.v without the code. *)
From Coq Require Import Reals.
From Verif Require Import Vec3 FlybyModel FlybySpec FlybyProofs.
Open Scope R_scope.

(** ** C21 *)
(** same planetocentric speed, turned by the angle [t] with sin(t/2) = 1/e; [beta] fixes the plane of the turn *)
Theorem C21_vout : forall v_in v_pla rp beta mu, 0 < mu -> 0 <= rp -> cross (vsub v_in v_pla) v_pla <> vzero ->
  exists v_out t, fb_vout v_in v_pla rp beta mu = Some v_out /\ norm (vsub v_out v_pla) = norm (vsub v_in v_pla) /\
    turn mu rp (norm (vsub v_in v_pla)) t /\ angle (vsub v_in v_pla) (vsub v_out v_pla) t /\
    dot (vsub v_out v_pla) (cross (vsub v_in v_pla) v_pla) = norm (vsub v_in v_pla) * norm (cross (vsub v_in v_pla) v_pla) * sin t * cos beta /\
    dot (vsub v_out v_pla) (cross (vsub v_in v_pla) (cross (vsub v_in v_pla) v_pla)) =
      norm (vsub v_in v_pla) * norm (vsub v_in v_pla) * norm (cross (vsub v_in v_pla) v_pla) * sin t * sin beta.
Proof. exact vout_ok. Qed.
Print Assumptions C21_vout.
(** it fails to give a number exactly when the incoming relative velocity is zero or parallel to the planet's *)
Theorem C21_vout_undefined : forall v_in v_pla rp beta mu, 0 < mu -> 0 <= rp ->
  (fb_vout v_in v_pla rp beta mu = None <-> cross (vsub v_in v_pla) v_pla = vzero).
Proof. exact vout_undefined. Qed.
Print Assumptions C21_vout_undefined.
Theorem C21_vout_con : forall v_in v_pla rp beta mu safe, 0 < mu -> 0 <= rp -> 0 <= safe -> cross (vsub v_in v_pla) v_pla <> vzero ->
  exists v_out d, fb_vout v_in v_pla rp beta mu = Some v_out /\ fb_con (vsub v_in v_pla) (vsub v_out v_pla) mu safe = Some (0, d) /\ (d <= 0 <-> safe <= rp).
Proof. exact vout_con. Qed.
Print Assumptions C21_vout_con.
Theorem C21_dv_zero : forall v_in v_out mu safe, v_in <> vzero -> v_out <> vzero -> 0 < mu -> 0 <= safe ->
  exists dv, fb_dv v_in v_out mu safe = Some dv /\ 0 <= dv /\ (dv = 0 <-> exists d, fb_con v_in v_out mu safe = Some (0, d) /\ d <= 0).
Proof. exact dv_zero_iff. Qed.
Print Assumptions C21_dv_zero.
(** fb_dv is the least burn that turns some reachable unpowered outgoing velocity into the wanted one *)
Theorem C21_dv_least : forall v_in v_out mu safe, v_in <> vzero -> v_out <> vzero -> 0 < mu -> 0 <= safe ->
  exists dv, fb_dv v_in v_out mu safe = Some dv /\ (forall u, reachable mu safe v_in u -> dv <= norm (vsub v_out u)) /\
    exists u, reachable mu safe v_in u /\ norm (vsub v_out u) = dv.
Proof. exact dv_least. Qed.
Print Assumptions C21_dv_least.
(** relative speed 1, pericentre 1, mu 1: eccentricity 2, so the velocity turns by 60 degrees *)
Example C21_vout_example : fb_vout (V 1 1 0) (V 0 1 0) 1 0 1 = Some (V (1 / 2) 1 (sqrt 3 / 2)).
Proof. exact vout_example. Qed.
Example C21_dv_example : fb_dv (V 1 0 0) (V 3 0 0) 1 1 = Some 2.
Proof. exact dv_example. Qed.
