(** * A picture of the solar system: vocabulary.  The table of orbits is that of JplSpec.v. *)
From Coq Require Import Reals List String ZArith.
From Verif Require Import Vec3 TwoBodySpec JplSpec JplRealSpec SolarModel.
Import ListNotations.
Open Scope R_scope.

(** [pts] are 60 points of the two-body orbit through [st], in astronomical units, one every [T] / 59 seconds *)
Definition traces (st : state) (T : R) (pts : list vec) : Prop :=
  List.length pts = 60%nat /\ exists t0, forall i, (i < 60)%nat -> exists s', flow_at mu_sun st (t0 + INR i * T / 59) s' /\ nth_error pts i = Some (vscal (/ au) (fst s')).
(** the picture of planet number [i] (1 is Mercury): its orbit and a dot of the given size where it is on day [when] *)
Definition shows (when : R) (i : nat) (size : R) (pic : list item) : Prop :=
  exists n el rate st T pts colour label, nth_error published (i - 1) = Some (n, el, rate) /\ str_ci label n /\
    on_published_orbit el rate when st /\ elliptic mu_sun st /\
    pic = [Line pts colour; Dot (vscal (/ au) (fst st)) size colour label] /\ traces st T pts /\
    period mu_sun st <= T <= 101 / 100 * period mu_sun st /\
    ((i < 7)%nat -> T = period mu_sun st /\ nth_error pts 59 = nth_error pts 0).
Definition colour_of (it : item) : string := match it with Dot _ _ c _ => c | Line _ c => c end.
Definition is_line (it : item) : bool := match it with Dot _ _ _ _ => false | Line _ _ => true end.
(** the planets asked for, Neptune left out *)
Definition selected (bodies : list Z) : list nat := filter (fun i => if in_dec Z.eq_dec (Z.of_nat i) bodies then true else false) (seq 1 7).
