(** * The fitness of a multiple gravity assist problem between regular positions always has an outcome *)
From Coq Require Import ZArith Reals List Bool Lra Lia.
From Verif Require Import Outcome PartialReal Vec3 TwoBodyModel TwoBodySpec KplaModel LambertModel LambertReal LambertSpec LambertVec LambertMain LambertCoincident FlybyModel MgaModel MgaSpec MgaFitModel MgaFitSpec MgaFitProofs.
Import ListNotations.
Open Scope R_scope.

Lemma all_eph_ret : forall (bs : list body) (ep : list R) (pl : nat -> state), length ep = length bs ->
  (forall i, (i < length bs)%nat -> b_eph (nth i bs b0) (nth i ep 0) = Ret (Some (pl i))) ->
  all_eph bs ep = Ret (map (fun i => Some (pl i)) (seq 0 (length bs))).
Proof.
  induction bs as [|b bs IH]; intros ep pl L H; [reflexivity|]. destruct ep as [|t ep]; [discriminate|]. cbn [all_eph]. pose proof (H 0%nat ltac:(cbn; lia)) as H0. cbn [nth] in H0. rewrite H0. cbn [bind].
  rewrite (IH ep (fun i => pl (S i))); [|cbn [length] in L; lia|intros i Hi; apply (H (S i)); cbn [length]; lia]. cbn [bind length seq map]. f_equal. f_equal. rewrite <- seq_shift, map_map. reflexivity.
Qed.
Lemma all_lambert_total mu : 0 < mu -> forall T (pl : nat -> state), (forall i, (i < length T)%nat -> leg_ok mu (fst (pl i)) (fst (pl (S i))) (nth i T 0)) ->
  let r := all_lambert mu (map (fun i => Some (pl i)) (seq 0 (S (length T)))) T in
  ((exists i, (i < length T)%nat /\ vertical (fst (pl i)) (fst (pl (S i)))) /\ r = Throw DomainError) \/
  ((forall i, (i < length T)%nat -> ~ vertical (fst (pl i)) (fst (pl (S i)))) /\ exists lps, r = Ret lps /\ length lps = length T).
Proof.
  intros Hm T. induction T as [|t T IH]; intros pl H r.
  - right. split; [cbn; lia|]. exists []. split; reflexivity.
  - destruct (H 0%nat ltac:(cbn; lia)) as [A [B [P TB]]]. cbn [nth] in P, TB.
    specialize (IH (fun i => pl (S i))). cbn beta in IH. unfold r. clear r.
    assert (ER : map (fun i => Some (pl i)) (seq 0 (S (length (t :: T)))) = Some (pl 0%nat) :: map (fun i => Some (pl (S i))) (seq 0 (S (length T)))) by (cbn [length seq map]; rewrite <- seq_shift, map_map; reflexivity).
    rewrite ER. clear ER. set (rest := map (fun i => Some (pl (S i))) (seq 0 (S (length T)))) in *.
    assert (EU : exists q, rest = Some (pl 1%nat) :: q) by (unfold rest; cbn [seq map]; eexists; reflexivity). destruct EU as [q EQ].
    assert (E : all_lambert mu (Some (pl 0%nat) :: rest) (t :: T) =
      bind (lambert_r (fst (pl 0%nat)) (fst (pl 1%nat)) (t * 86400) mu false 0) (fun L => match l_v0 L, l_v1 L with
          | v0 :: _, v1 :: _ => bind (all_lambert mu rest T) (fun r => Ret (mk_lleg (optv (pos3 (Some (pl 0%nat)))) (optv v0) (optv v1) :: r)) | _, _ => Throw OutOfRange end)) by (rewrite EQ; reflexivity).
    rewrite E. clear E EQ.
    destruct (lambert_total (fst (pl 0%nat)) (fst (pl 1%nat)) (t * 86400) mu false 0 A B ltac:(lra) Hm ltac:(unfold u32; lia) TB) as [[Z [C ->]]|[NV [L [-> [N0 N1]]]]]; cbn [bind].
    + left. split; [exists 0%nat; split; [cbn; lia|split; assumption]|reflexivity].
    + destruct (l_v0 L) as [|v0 l0]; [congruence|]. destruct (l_v1 L) as [|v1 l1]; [congruence|].
      destruct IH as [[[i [Hi V1]] ->]|[NVs [lps [-> LL]]]]; [intros i Hi; apply (H (S i)); cbn [length]; lia| |]; cbn [bind].
      * left. split; [exists (S i); split; [cbn [length]; lia|exact V1]|reflexivity].
      * right. split; [|eexists; split; [reflexivity|cbn [length]; lia]]. intros [|i] Hi; [|apply NVs; cbn [length] in Hi; lia]. intros [Z C]. destruct NV; contradiction.
Qed.
(** the only exception is that of a Lambert leg in a vertical plane *)
Theorem fitness_total P x t0 T pl : (2 <= length (m_seq P))%nat -> 0 < common_mu P -> durations (enc_of (m_tofs P)) x t0 T -> length T = n_legs P ->
  (forall i, (i <= n_legs P)%nat -> b_eph (nth i (m_seq P) b0) (date t0 T i) = Ret (Some (pl i))) ->
  (forall i, (i < n_legs P)%nat -> leg_ok (common_mu P) (fst (pl i)) (fst (pl (S i))) (nth i T 0)) ->
  ((exists i, (i < n_legs P)%nat /\ vertical (fst (pl i)) (fst (pl (S i)))) /\ fitness P x = Throw DomainError) \/
  ((forall i, (i < n_legs P)%nat -> ~ vertical (fst (pl i)) (fst (pl (S i)))) /\ exists l, fitness P x = Ret l).
Proof.
  intros L2 Hm D LT HE HL. assert (NP : (0 < n_legs P)%nat) by (unfold n_legs; lia). assert (NS : length (m_seq P) = S (n_legs P)) by (unfold n_legs; lia).
  destruct (decode_durations _ _ _ _ _ NP D LT) as [DT [[r Ex] [NT ET]]].
  assert (AE : all_eph (m_seq P) (cumsum 0 (t0 :: T)) = Ret (map (fun i => Some (pl i)) (seq 0 (S (length T))))).
  { rewrite LT, <- NS. apply all_eph_ret; [rewrite cumsum_len; cbn [length]; lia|]. intros i Hi. rewrite ep_nth by lia. apply HE. lia. }
  rewrite <- LT in *. unfold fitness, compute_dvs. rewrite <- LT, DT, NT. cbn [bind].
  assert (EX : match x with [] => Throw OutOfRange | a :: _ => Ret a end = Ret t0) by (rewrite Ex; reflexivity). rewrite EX. cbn [bind]. rewrite AE. cbn [bind].
  destruct (all_lambert_total (common_mu P) Hm T pl HL) as [[EV ->]|[NV [lps [-> LL]]]]; cbn [bind]; [left; split; [exact EV|reflexivity]|]. right. split; [exact NV|].
  destruct lps as [|l0 lps]; [cbn [length] in LL; lia|]. cbn [bind]. cbv zeta. rewrite ET. cbn [bind]. eexists. reflexivity.
Qed.
