(** * A solution of the thrust-free Stark equations: the unit circle *)
From Coq Require Import Reals Lra.
From Coquelicot Require Import Coquelicot.
From Verif Require Import RealLib Vec3 TwoBodySpec DynModel DynSpec DynProofs TwoBodyProofs StmMain.
Open Scope R_scope.
Lemma stark_circle : solves7 (stark_dyn 1 1 vzero) off_centre m_infty p_infty (fun t => (circle t, 1)).
Proof.
  intros t _ _. destruct (circle_solves t I I) as [N [D1 D2]]. assert (O : off_centre (circle t, 1)) by (split; [exact N|cbn; lra]).
  split; [exact O|]. rewrite (stark_field 1 1 vzero _ O) by lra. unfold thrust_field. cbn [fst snd]. split; [split; cbn [fst snd]; [exact D1|]|].
  - eapply vder_eq; [exact D2|]. apply vec_eq; unfold vadd, vscal, vzero; cbn [vx vy vz]; ring.
  - eapply der_to; [apply (der_const 1)|]. replace (norm vzero) with 0 by (symmetry; apply norm_zero_iff; reflexivity). field.
Qed.
