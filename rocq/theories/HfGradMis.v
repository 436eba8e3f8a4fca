(** * compute_mismatch_constraints measures the flown leg *)
From Coq Require Import Reals Lra Lia List ZArith Bool.
From Coquelicot Require Import Coquelicot.
From Verif Require Import Outcome RealLib Vec3 TwoBodySpec DynSpec DynModel DynProofs SfModel SfSpec HfGradModel HfGradSpec HfGradFlow HfGradAlg HfGradAll HfGradMain.
From Verif Require HfGradChain.
Import ListNotations.
Open Scope R_scope.

Section Mis.
Variable tas : list R -> R -> R -> list R -> option (list R).
Variable l : hg.
Hypothesis Hl : proper_hf l.
Let n : nat := Z.to_nat (g_nseg l).
Let nf : nat := Z.to_nat (g_fwd l).
Let nb : nat := Z.to_nat (g_bck l).
Let veff : R := g_isp l * G0.
Let h : R := g_tof l / INR n.
Lemma pn : g_nseg l = Z.of_nat n /\ g_fwd l = Z.of_nat nf /\ g_bck l = Z.of_nat nb /\ (nf + nb = n)%nat /\ (0 < n)%nat /\ (3 * Z.of_nat n + 1 < 2 ^ 32)%Z /\
  length (g_thr l) = (3 * n)%nat /\ g_thrusts l = map (fun x => x * g_T l) (g_thr l) /\ length (g_rvms l) = 7%nat /\ length (g_rvmf l) = 7%nat.
Proof. exact (proper_nat l Hl). Qed.
Definition end_of (d : R) (us : list vec) (x : list R) (o : outcome (list R)) : Prop :=
  match o with
  | Ret x' => length x' = 7%nat /\ (tas_exact tas -> legs (flight (g_mu l) veff d) us (col_of x) (col_of x'))
  | Throw e => e = DomainError | UB => False end.
Lemma one_flight j t t1 x s' : length x = 7%nat -> tas (g_pmu l :: g_pveff l :: thrust3 l j) t t1 x = Some s' -> tas_exact tas -> flight (g_mu l) veff (t1 - t) (thrust_of l j) (col_of x) (col_of s').
Proof.
  intros Lx E HT. pose proof Hl as [_ [_ [_ [_ [_ [_ [P1 [P2 _]]]]]]]]. rewrite P1, P2, thrust3_vec in E.
  destruct (HT _ _ _ _ _ _ _ _ _ E Lx) as [_ [q [A [Q0 Q1]]]]. replace (V (vx (thrust_of l j)) (vy (thrust_of l j)) (vz (thrust_of l j))) with (thrust_of l j) in A by (destruct (thrust_of l j); reflexivity).
  exists q. split; [apply arc_stark; [apply (veff_nz l Hl)|exact A]|]. auto.
Qed.
Hypothesis HS : tas_sized tas.
Lemma hfwd_ok : forall k i t x, (i + k = nf)%nat -> t = INR i * h -> length x = 7%nat -> end_of h (map (thrust_of l) (seq i k)) x (hfwd tas l k (Z.of_nat i) t x).
Proof.
  destruct pn as [En [Ef [Eb [Hn [Hp [Hb [Lt [Et [Ls Lf]]]]]]]]].
  induction k as [|k IH]; intros i t x Hk Ht Lx; [split; [exact Lx|]; intros _; reflexivity|].
  cbn [hfwd]. replace (u32 (Z.of_nat i * 3)) with (Z.of_nat (3 * i)) by (rewrite u32_id; lia). rewrite (u32_id (Z.of_nat i + 1)) by lia. replace (u32 (3 * (Z.of_nat i + 1))) with (Z.of_nat (3 * i + 3)) by (rewrite u32_id; lia).
  rewrite (cut_thrust l n nf nb) by (assumption || lia). cbn [bind]. unfold run. match goal with |- context [tas ?a ?b ?c ?d] => destruct (tas a b c d) as [s'|] eqn:E end; cbn [bind]; [|reflexivity].
  replace (Z.of_nat i + 1)%Z with (Z.of_nat (S i)) in * by lia.
  assert (T1 : IZR (Z.of_nat (S i)) * (g_tof l / IZR (g_nseg l)) = INR (S i) * h) by (rewrite En, <- !INR_IZR_INZ; reflexivity). rewrite T1 in E |- *.
  assert (L' := HS _ _ _ _ _ _ _ _ _ E Lx). assert (Q := IH (S i) _ s' ltac:(lia) eq_refl L').
  unfold end_of in *. destruct (hfwd tas l k (Z.of_nat (S i)) (INR (S i) * h) s') as [x'|e|]; [|exact Q|exact Q]. destruct Q as [Q1 Q2]. split; [exact Q1|]. intros HT. cbn [seq map legs]. exists (col_of s'). split; [|apply Q2; exact HT].
  assert (F := one_flight i _ _ _ _ Lx E HT). replace (INR (S i) * h - t) with h in F by (rewrite Ht, S_INR; ring). exact F.
Qed.
Lemma hbck_ok : forall k i t x, (i + k = nb)%nat -> t = g_tof l - INR i * h -> length x = 7%nat -> end_of (- h) (map (fun j => thrust_of l (n - 1 - j)) (seq i k)) x (hbck tas l k (Z.of_nat i) t x).
Proof.
  destruct pn as [En [Ef [Eb [Hn [Hp [Hb [Lt [Et [Ls Lf]]]]]]]]].
  induction k as [|k IH]; intros i t x Hk Ht Lx; [split; [exact Lx|]; intros _; reflexivity|].
  cbn [hbck]. rewrite (u32_id (Z.of_nat i + 1)) by lia. rewrite En. replace (u32 (Z.of_nat n - (Z.of_nat i + 1))) with (Z.of_nat (n - 1 - i)) by (rewrite u32_id; lia).
  replace (u32 (Z.of_nat (n - 1 - i) * 3)) with (Z.of_nat (3 * (n - 1 - i))) by (rewrite u32_id; lia). rewrite (u32_id (Z.of_nat n - Z.of_nat i)) by lia. replace (u32 ((Z.of_nat n - Z.of_nat i) * 3)) with (Z.of_nat (3 * (n - 1 - i) + 3)) by (rewrite u32_id; lia).
  rewrite (cut_thrust l n nf nb) by (assumption || lia). cbn [bind]. unfold run. match goal with |- context [tas ?a ?b ?c ?d] => destruct (tas a b c d) as [s'|] eqn:E end; cbn [bind]; [|reflexivity].
  replace (Z.of_nat i + 1)%Z with (Z.of_nat (S i)) in * by lia.
  assert (T1 : IZR (Z.of_nat (S i)) * (g_tof l / IZR (Z.of_nat n)) = INR (S i) * h) by (rewrite <- !INR_IZR_INZ; reflexivity). rewrite T1 in E |- *.
  assert (L' := HS _ _ _ _ _ _ _ _ _ E Lx). assert (Q := IH (S i) _ s' ltac:(lia) eq_refl L').
  unfold end_of in *. destruct (hbck tas l k (Z.of_nat (S i)) (g_tof l - INR (S i) * h) s') as [x'|e|]; [|exact Q|exact Q]. destruct Q as [Q1 Q2]. split; [exact Q1|]. intros HT. cbn [seq map legs]. exists (col_of s'). split; [|apply Q2; exact HT].
  assert (F := one_flight (n - 1 - i) _ _ _ _ Lx E HT). replace (g_tof l - INR (S i) * h - t) with (- h) in F by (rewrite Ht, S_INR; ring). exact F.
Qed.
Lemma mismatch_hf_safe : match compute_mismatch_hf tas l with Ret y => length y = 7%nat | Throw e => e = DomainError | UB => False end.
Proof.
  destruct pn as [En [Ef [Eb [Hn [Hp [Hb [Lt [Et [Ls Lf]]]]]]]]]. unfold compute_mismatch_hf. rewrite Ef, Eb, !Nat2Z.id.
  assert (Q := hfwd_ok nf 0 0 (g_rvms l) ltac:(lia) ltac:(cbn; ring) Ls). change (Z.of_nat 0) with 0%Z in Q. unfold end_of in Q. destruct (hfwd tas l nf 0 0 (g_rvms l)) as [f|e|]; [|exact Q|exact Q]. cbn [bind].
  assert (P := hbck_ok nb 0 (g_tof l) (g_rvmf l) ltac:(lia) ltac:(cbn; ring) Lf). change (Z.of_nat 0) with 0%Z in P. unfold end_of in P. destruct (hbck tas l nb 0 (g_tof l) (g_rvmf l)) as [b|e|]; [|exact P|exact P]. reflexivity.
Qed.
Lemma mismatch_hf_flown y : tas_exact tas -> compute_mismatch_hf tas l = Ret y -> flown (g_mu l) veff (g_T l) n nf (col_of (g_rvms l)) (g_thr l) (col_of (g_rvmf l)) (g_tof l) (col_of y).
Proof.
  intros HT. destruct pn as [En [Ef [Eb [Hn [Hp [Hb [Lt [Et [Ls Lf]]]]]]]]]. unfold compute_mismatch_hf. rewrite Ef, Eb, !Nat2Z.id.
  assert (Q := hfwd_ok nf 0 0 (g_rvms l) ltac:(lia) ltac:(cbn; ring) Ls). change (Z.of_nat 0) with 0%Z in Q. unfold end_of in Q. destruct (hfwd tas l nf 0 0 (g_rvms l)) as [f|e|]; [|discriminate|discriminate]. cbn [bind].
  assert (P := hbck_ok nb 0 (g_tof l) (g_rvmf l) ltac:(lia) ltac:(cbn; ring) Lf). change (Z.of_nat 0) with 0%Z in P. unfold end_of in P. destruct (hbck tas l nb 0 (g_tof l) (g_rvmf l)) as [b|e|]; [|discriminate|discriminate]. cbn [bind].
  intros E. assert (E' : y = sub7l f b) by congruence. subst y. exists (col_of f), (col_of b).
  split; [rewrite (us_firstn (g_T l) n nf ltac:(lia)); apply Q; exact HT|]. split; [rewrite (us_skipn (g_T l) n nf ltac:(lia)); replace (n - nf)%nat with nb by lia; apply P; exact HT|]. reflexivity.
Qed.
End Mis.

Lemma tas_exact_sized tas : tas_exact tas -> tas_sized tas.
Proof. intros H a b c d e t t1 s s' E L. exact (proj1 (H a b c d e t t1 s s' E L)). Qed.

(** the mismatches that the code computes along a curve of legs *)
Lemma computed_derivative tas tas_var (L : R -> hg) (y : R -> list R) A B G (dxs : col7) (dth : list R) (dxf : col7) (dtof : R) :
  tas_exact tas -> tas_var_exact tas_var -> (forall e, proper_hf (L e) /\ same_leg (L 0) (L e)) -> thrusting (L 0) ->
  compute_mc_grad tas_var (L 0) = Ret (A, B, G) -> (exists eps, 0 < eps /\ forall e, Rabs e < eps -> compute_mismatch_hf tas (L e) = Ret (y e)) ->
  derive7 (fun e => col_of (g_rvms (L e))) 0 dxs -> derive_list (fun e => g_thr (L e)) 0 dth -> derive7 (fun e => col_of (g_rvmf (L e))) 0 dxf -> is_derive (fun e => g_tof (L e)) 0 dtof ->
  derive7 (fun e => col_of (y e)) 0 (plus7 (apply7 7 A (list7 dxs)) (plus7 (apply7 7 B (list7 dxf)) (apply7 (3 * Z.to_nat (g_nseg (L 0)) + 1) G (map (Rmult (g_T (L 0))) dth ++ [dtof])))).
Proof.
  intros HT HV HL N Eg [eps [Ep Ey]] D1 D2 D3 D4. destruct (HL 0) as [P0 _].
  destruct (mc_grad_jacobian tas_var (L 0) P0 A B G HV N Eg) as [_ [_ [_ J]]].
  apply (J (fun e => col_of (g_rvms (L e))) (fun e => g_thr (L e)) (fun e => col_of (g_rvmf (L e))) (fun e => g_tof (L e)) (fun e => col_of (y e)) dxs dth dxf dtof eq_refl eq_refl eq_refl eq_refl D1 D2 D3 D4).
  exists eps. split; [exact Ep|]. intros e Ee. destruct (HL e) as [Pe [S1 [S2 [S3 [S4 [S5 S6]]]]]].
  assert (F := mismatch_hf_flown tas (L e) Pe (tas_exact_sized tas HT) (y e) HT (Ey e Ee)). rewrite S1, S2, S3, S4, S5 in F. exact F.
Qed.
