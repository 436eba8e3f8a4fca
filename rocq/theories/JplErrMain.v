(** * Proofs: jpl_lp::eph is accurate inside its window *)
From Coq Require Import ZArith Reals List String Lra Lia.
From Flocq Require Import Core.Core IEEE754.BinarySingleNaN.
From Verif Require Import Outcome Float64 FloatBounds JplProofs JplModel JplSpec JplErrSpec JplErrProofs JplElemProofs.
From Verif Require PlanetPeriodProofs.
Import ListNotations.
Open Scope R_scope.

Lemma box_p2 x : p2 35 <= x <= p2 67 -> PlanetPeriodProofs.box 70 x.
Proof. intros [H1 H2]. unfold PlanetPeriodProofs.box. cbn in H1, H2. split; lra. Qed.
Lemma MU_eq : B2R MU_SUN = 132712440041279422464.
Proof. unfold MU_SUN. match goal with |- context [D ?m ?e] => destruct (dyadic_val m e ltac:(lia) ltac:(lia)) as [F V] end. rewrite V. cbn. lra. Qed.
Theorem jpl_eph_accurate dcos dsin : accurate dcos cos -> accurate dsin sin -> forall s j t, jpl_ctor s = Ret j -> in_window t ->
  exists n el rate, In (n, el, rate) published /\ str_ci s n /\
  exists a e i W w M, elem_spec el rate (B2R t) a e i W w M /\
    forall m2f f, m2f M e = Ret f -> is_finite f = true ->
    exists x y z vx vy vz, jpl_eph m2f dcos dsin j t = Ret [x; y; z; vx; vy; vz] /\
      Forall2 (within (radius (B2R a) (B2R e) (B2R f) / 2 ^ 46)) [x; y; z] (orbit_position (B2R a) (B2R e) (B2R i) (B2R W) (B2R w) (B2R f)) /\
      Forall2 (within (speed 132712440041279422464 (B2R a) (B2R e) / 2 ^ 46)) [vx; vy; vz] (orbit_velocity 132712440041279422464 (B2R a) (B2R e) (B2R i) (B2R W) (B2R w) (B2R f)).
Proof.
  intros Hc Hs s j t C W.
  destruct (elements_in_window s j t C W) as (n & el & rate & H1 & H2 & a & e & i & Om & w & M & H3 & H4 & H5 & [H7 H8] & H6).
  destruct (ctor_inv _ _ C) as (_ & _ & _ & _ & _ & _ & Emu & _). pose proof H3 as H3'.
  destruct H3' as ((Fa & _) & (Fe & _) & (Fi & _) & (FW & _) & (Fw & _) & (FM & _)).
  exists n, el, rate. split; [exact H1|]. split; [exact H2|]. exists a, e, i, Om, w, M. split; [exact H3|].
  intros m2f f E Ff. unfold jpl_eph. rewrite H6, E. cbn [bind]. rewrite Emu. destruct MU_val as [Fmu Vmu]. rewrite <- MU_eq.
  apply par2ic_accurate; auto; try (apply box_p2; cbn in *; lra). lra.
Qed.

Lemma accurate_exists : exists dcos dsin, accurate dcos cos /\ accurate dsin sin.
Proof.
  assert (K : forall G, (forall x, -1 <= G x <= 1) -> accurate (fun x => D (Zfloor (G (B2R x) * 2 ^ 53)) (-53)) G).
  { intros G HG x _. cbv beta. pose proof (HG (B2R x)) as Hx. set (c := G (B2R x)) in *. clearbody c. set (z := c * 2 ^ 53) in *. pose proof (Zfloor_lb z) as L. pose proof (Zfloor_ub z) as Ub.
    assert (Bz : (- 2 ^ 53 <= Zfloor z <= 2 ^ 53)%Z).
    { split; [apply Zfloor_lub; unfold z; simpl IZR; lra|]. apply le_IZR. eapply Rle_trans; [exact L|]. unfold z. simpl IZR. lra. }
    destruct (dyadic_val (Zfloor z) (-53) ltac:(lia) ltac:(lia)) as [F Vv]. split; [exact F|]. rewrite Vv. set (m := Zfloor z) in *. clearbody m.
    change (bpow radix2 (-53)) with (/ IZR (2 ^ 53)). simpl (2 ^ 53)%Z. unfold z in *. apply Rabs_le. split; lra. }
  eexists _, _. split; [apply (K cos); intro x; pose proof (COS_bound x); lra|apply (K sin); intro x; pose proof (SIN_bound x); lra].
Qed.
