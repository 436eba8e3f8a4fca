(** * C68: names of NAIF identifiers (pykep.utils.naifid2name).  Model: NaifModel.v.  Vocabulary: NaifSpec.v. *)
From Coq Require Import ZArith String List.
From Verif Require Import NaifModel NaifSpec NaifProofs.
Import ListNotations.
Open Scope Z_scope.

(** A listed identifier gets the last of its names, any other one "Not Found", which is nobody's name. *)
Theorem C68_known : forall id, listed id -> last_listed naif_entries id (naifid2name id).
Proof. exact name_known. Qed.
Print Assumptions C68_known.
Theorem C68_unknown : forall id, naifid2name id = "Not Found"%string <-> ~ listed id.
Proof. exact name_unknown. Qed.
Print Assumptions C68_unknown.
(** The name identifies the body. *)
Theorem C68_injective : forall id id', listed id -> naifid2name id = naifid2name id' -> id = id'.
Proof. exact name_injective. Qed.
Print Assumptions C68_injective.
(** With a SPICE that knows the names of the table, name2naifid undoes naifid2name. *)
Theorem C68_round_trip : forall bodn2c id, knows bodn2c -> listed id -> name2naifid bodn2c (naifid2name id) = Some id.
Proof. exact id_round_trip. Qed.
Print Assumptions C68_round_trip.
(** The numbering scheme of SPICE: barycentres, planets; nothing else but moons is listed from 1 to 999. *)
Theorem C68_scheme : (forall k n, nth_error nine k = Some n ->
    naifid2name (Z.of_nat k + 1) = (n ++ " BARYCENTER")%string /\ naifid2name (100 * (Z.of_nat k + 1) + 99) = n) /\
  forall id, 0 < id < 1000 -> listed id -> id <= 10 \/ 1 <= id / 100 <= 9 /\ (1 <= id mod 100 <= 53 \/ id mod 100 = 99).
Proof. exact name_scheme. Qed.
Print Assumptions C68_scheme.
(** False: that naifid2name undoes name2naifid, and that every listed name is returned for some identifier. *)
Theorem C68_shadowed_refuted : exists bodn2c id n, knows bodn2c /\ In (id, n) naif_entries /\ (forall id', naifid2name id' <> n) /\ name2naifid bodn2c n = Some id /\ naifid2name id <> n.
Proof. exact name_shadowed. Qed.
Print Assumptions C68_shadowed_refuted.
Example C68_example : naifid2name 399 = "EARTH"%string /\ naifid2name (-198) = "NISAR"%string /\ naifid2name 12345 = "Not Found"%string /\ exists bodn2c, knows bodn2c.
Proof. split; [vm_compute; reflexivity|]. split; [vm_compute; reflexivity|]. split; [vm_compute; reflexivity|exact knows_exists]. Qed.
Print Assumptions C68_example.
Example C68_spacecraft : map naifid2name [-82; -61; -31; -32; -98; -226; -236; -159; -28] =
  ["CASSINI"; "JUNO"; "VOYAGER 1"; "VOYAGER 2"; "NEW HORIZONS"; "ROSETTA"; "MESSENGER"; "EUROPA CLIPPER"; "JUICE"]%string.
Proof. vm_compute. reflexivity. Qed.
