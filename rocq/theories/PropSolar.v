(** * C67: the picture of the solar system (pykep.plot.add_solar_system).  Model: SolarModel.v.  Vocabulary: SolarSpec.v. *)
From Coq Require Import Reals List String ZArith.
From Verif Require Import Outcome Vec3 TwoBodySpec KepSpec JplSpec JplRealSpec SolarModel SolarSpec SolarProofs.
Import ListNotations.
Open Scope R_scope.

(** The Sun, then for every planet asked for (Neptune excepted) one closed orbit and one dot at the position of that date, with its own size and colour. *)
Theorem C67_picture : forall newton builtins globals, newton_ok newton -> forall bodies when s, -73048 < when < 18263 -> ~ In 8%Z bodies -> (0 < List.length s)%nat ->
  (forall i, In i (selected bodies) -> (i < List.length s)%nat) ->
  exists pics, add_solar_system newton builtins globals bodies when s = Ret (Dot vzero (nth 0 s 0) "y" "Sun" :: List.concat pics) /\
    Forall2 (fun i pic => shows when i (nth i s 0) pic) (selected bodies) pics /\
    NoDup ("y"%string :: map colour_of (filter (fun it => negb (is_line it)) (List.concat pics))).
Proof. exact solar_picture. Qed.
Print Assumptions C67_picture.
(** Outside the years 1800-2050 there is no picture with a planet. *)
Theorem C67_outside : forall newton builtins globals bodies when s, when <= -73048 \/ 18263 <= when -> (0 < List.length s)%nat -> (exists i, In i bodies /\ (1 <= i <= 8)%Z) ->
  add_solar_system newton builtins globals bodies when s = Throw DomainError.
Proof. exact solar_outside. Qed.
Print Assumptions C67_outside.
(** False: that Neptune can be drawn.  Its block uses the undefined name "ep"; the NameError is [RuntimeError] here. *)
Theorem C67_neptune_refuted : forall newton builtins globals, newton_ok newton -> forall bodies when s, map fst globals = plot_globals -> builtins "ep"%string = None ->
  -73048 < when < 18263 -> In 8%Z bodies -> (0 < List.length s)%nat -> (forall i, In i (selected bodies) -> (i < List.length s)%nat) ->
  add_solar_system newton builtins globals bodies when s = Throw RuntimeError.
Proof. exact solar_neptune. Qed.
Print Assumptions C67_neptune_refuted.
(** Whatever the solver, the date and the sizes. *)
Theorem C67_neptune_never_refuted : forall newton builtins globals bodies when s out, map fst globals = plot_globals -> builtins "ep"%string = None -> In 8%Z bodies ->
  add_solar_system newton builtins globals bodies when s <> Ret out.
Proof. exact solar_neptune_never. Qed.
Print Assumptions C67_neptune_never_refuted.
(** False: that the nine sizes are those of the Sun and the eight planets.  The ninth is never used. *)
Theorem C67_sizes_refuted : forall newton builtins globals bodies when s s', firstn 8 s = firstn 8 s' ->
  add_solar_system newton builtins globals bodies when s = add_solar_system newton builtins globals bodies when s'.
Proof. exact solar_sizes. Qed.
Print Assumptions C67_sizes_refuted.
(** the defaults: thirteen items, the Earth the fourth dot, of size 3 *)
Example C67_example : forall newton builtins globals, newton_ok newton -> exists out, add_solar_system newton builtins globals default_bodies 0 default_sizes = Ret out /\ List.length out = 13%nat /\
  (exists pts c, nth_error out 5 = Some (Line pts c) /\ List.length pts = 60%nat) /\ exists r c label, nth_error out 6 = Some (Dot r 3 c label) /\ str_ci label "earth".
Proof. exact default_picture. Qed.
Print Assumptions C67_example.
Example C67_example_globals : exists (builtins : string -> option R) (globals : list (string * R)), map fst globals = plot_globals /\ builtins "ep"%string = None.
Proof. exists (fun _ => None), (map (fun n => (n, 0)) plot_globals). split; reflexivity. Qed.
