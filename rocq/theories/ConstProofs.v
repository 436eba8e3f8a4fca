(** * Proofs about the constants (C52) *)
From Coq Require Import Reals Machin Ratan QArith Qreals Lra Lia ZArith List String Bool.
From Flocq Require Import Core.Core IEEE754.BinarySingleNaN.
From Verif Require Import Float64 ConstModel ConstSpec.
Import ListNotations.
Open Scope R_scope.

(** ** pi to 19 digits, by Machin's series in Coq's library *)
Definition term (n : nat) : Q := let k := Z.of_nat (2 * n + 1) in
  Qred ((if Nat.even n then 1 else (-1)) * (2 * (1 # (Z.to_pos (3 ^ k * k))) + (1 # (Z.to_pos (7 ^ k * k)))))%Q.
Fixpoint qsum (n : nat) : Q := match n with O => term 0 | S k => Qred (qsum k + term n)%Q end.
Lemma term_ok n : tg_alt PI_2_3_7_tg n = Q2R (term n).
Proof.
  unfold term. rewrite (Qeq_eqR _ _ (Qred_correct _)). rewrite Q2R_mult, Q2R_plus, Q2R_mult.
  unfold tg_alt, PI_2_3_7_tg, Ratan_seq. rewrite Nat.add_1_r.
  assert (Hs : (-1) ^ n = Q2R (if Nat.even n then 1%Q else (-1)%Q)).
  { destruct (Nat.even n) eqn:E.
    - apply Nat.even_spec in E. destruct E as [m ->]. rewrite pow_1_even. unfold Q2R; cbn; lra.
    - assert (O : Nat.odd n = true) by (unfold Nat.odd; rewrite E; reflexivity). apply Nat.odd_spec in O. destruct O as [m ->]. rewrite Nat.add_1_r, pow_1_odd. unfold Q2R; cbn; lra. }
  rewrite Hs. f_equal.
  assert (H : forall b, (0 < b)%Z -> Q2R (1 # Z.to_pos (b ^ Z.of_nat (S (2 * n)) * Z.of_nat (S (2 * n)))) = (/ IZR b) ^ S (2 * n) / INR (S (2 * n))).
  { intros b Hb. unfold Q2R. cbn [Qnum Qden]. rewrite Z2Pos.id by (apply Z.mul_pos_pos; [apply Z.pow_pos_nonneg; lia|lia]).
    rewrite mult_IZR, <- pow_IZR, <- INR_IZR_INZ, pow_inv. field. split; [apply pow_nonzero, not_0_IZR; lia|apply not_0_INR; lia]. }
  replace (/3) with (/ IZR 3) by (cbn; lra). rewrite (H 3%Z), (H 7%Z) by lia. unfold Q2R at 1. cbn [Qnum Qden]. lra.
Qed.
Lemma sum_ok n : sum_f_R0 (tg_alt PI_2_3_7_tg) n = Q2R (qsum n).
Proof.
  induction n as [|n IH]; cbn [sum_f_R0 qsum]; [apply term_ok|]. rewrite (Qeq_eqR _ _ (Qred_correct _)), Q2R_plus, IH, term_ok. reflexivity.
Qed.
Lemma PI_close : Rabs (PI - 884279719003555 / 281474976710656) <= 123 / 1000000000000000000.
Proof.
  destruct (PI_2_3_7_ineq 10) as [L U]. rewrite sum_ok in L, U.
  match type of L with Q2R ?q <= _ => let v := eval vm_compute in q in replace q with v in L by (vm_compute; reflexivity) end.
  match type of U with _ <= Q2R ?q => let v := eval vm_compute in q in replace q with v in U by (vm_compute; reflexivity) end.
  unfold Q2R in L, U. cbn [Qnum Qden] in L, U. apply Rabs_le. lra.
Qed.

(** the value of a double given by its digits *)
Definition qval (x : double) : Q := match x with
  | B754_finite s m e _ => (if s then -1 else 1) * (if (0 <=? e)%Z then (Z.pos m * 2 ^ e)%Z # 1 else (Z.pos m # Z.to_pos (2 ^ (- e)))) | _ => 0 end.
Lemma qval_ok (x : double) : B2R x = Q2R (qval x).
Proof.
  destruct x as [s|s| |s m e H]; cbn [B2R qval]; try (unfold Q2R; cbn; lra).
  rewrite Q2R_mult. unfold F2R. cbn [Fnum Fexp].
  assert (E : IZR (cond_Zopp s (Z.pos m)) = Q2R (if s then -1 else 1) * IZR (Z.pos m)).
  { destruct s; cbn [cond_Zopp]; [rewrite opp_IZR|]; unfold Q2R; cbn [Qnum Qden]; cbn; lra. }
  rewrite E, Rmult_assoc. f_equal. destruct (Z.leb_spec 0 e) as [L|L].
  - unfold Q2R. cbn [Qnum Qden]. rewrite mult_IZR, (IZR_Zpower radix2) by exact L. cbn. lra.
  - unfold Q2R. cbn [Qnum Qden]. rewrite Z2Pos.id by (apply Z.pow_pos_nonneg; lia). f_equal.
    replace e with (- (- e))%Z at 1 by lia. rewrite bpow_opp. f_equal. change 2%Z with (radix_val radix2). rewrite IZR_Zpower by lia. reflexivity.
Qed.
Ltac digits x := rewrite (qval_ok x); let v := eval vm_compute in (qval x) in replace (qval x) with v by (vm_compute; reflexivity); unfold Q2R; cbn [Qnum Qden].
Ltac digits_in x H := rewrite (qval_ok x) in H; let v := eval vm_compute in (qval x) in replace (qval x) with v in H by (vm_compute; reflexivity); unfold Q2R in H; cbn [Qnum Qden] in H.

Lemma near_dec k x me : is_finite x = true -> (let d := (qval x - inject_Z (fst me) * (if (0 <=? snd me)%Z then (10 ^ snd me)%Z # 1 else 1 # Z.to_pos (10 ^ (- snd me))))%Q in
   let b := (inject_Z k * inject_Z (fst me) * (if (0 <=? snd me)%Z then (10 ^ snd me)%Z # 1 else 1 # Z.to_pos (10 ^ (- snd me))) * (1 # 2 ^ 53))%Q in
   Qle_bool d b && Qle_bool (- d) b = true) -> (0 <= fst me)%Z -> near (IZR k) x (decimal me).
Proof.
  intros Hf H Hm. split; [exact Hf|]. cbv zeta in H. apply andb_prop in H. destruct H as [H1 H2]. apply Qle_bool_iff, Qle_Rle in H1, H2.
  assert (E : Q2R (if (0 <=? snd me)%Z then (10 ^ snd me)%Z # 1 else 1 # Z.to_pos (10 ^ - snd me)) = powerRZ 10 (snd me)).
  { destruct (Z.leb_spec 0 (snd me)) as [L|L]; unfold Q2R; cbn [Qnum Qden].
    - rewrite <- (Z2Nat.id (snd me)) by exact L. rewrite <- pow_powerRZ, <- pow_IZR. rewrite Rinv_1, Rmult_1_r. reflexivity.
    - rewrite Z2Pos.id by (apply Z.pow_pos_nonneg; lia). set (n := Z.to_nat (- snd me)). replace (snd me) with (- Z.of_nat n)%Z by (unfold n; lia).
      rewrite Z.opp_involutive, powerRZ_neg', <- pow_powerRZ, <- pow_IZR, Rmult_1_l. reflexivity. }
  rewrite Q2R_opp in H2. rewrite Q2R_minus, !Q2R_mult, E in H1, H2. rewrite <- qval_ok in H1, H2.
  assert (I : forall z, Q2R (inject_Z z) = IZR z) by (intro z; unfold Q2R, inject_Z; cbn; lra). rewrite !I in H1, H2.
  assert (B : Q2R (1 # 2 ^ 53) = / 2 ^ 53). { unfold Q2R. cbn [Qnum Qden]. replace (2 ^ 53) with 9007199254740992 by (cbn; lra). cbn. lra. } rewrite B in H1, H2.
  assert (P : 0 <= IZR (fst me) * powerRZ 10 (snd me)). { apply Rmult_le_pos; [apply IZR_le, Hm|]. left. apply powerRZ_lt. lra. }
  unfold decimal. rewrite (Rabs_pos_eq _ P). unfold Rdiv. apply Rabs_le. split; lra.
Qed.

Definition bad : list string := ["DEG2RAD"; "MU_MOON"; "EARTH_VELOCITY"]%string.
Lemma documented_ok n me : In (n, me) documented -> ~ In n bad -> exists x, pykep_attr n = Some x /\ near 1 x (decimal me).
Proof.
  intros H B. cbn [documented In] in H.
  repeat match type of H with _ \/ _ => destruct H as [H|H] end; try contradiction; apply pair_equal_spec in H; destruct H as [<- <-]; try (exfalso; apply B; cbn; tauto);
    (eexists; split; [reflexivity|]; apply (near_dec 1); [vm_compute; reflexivity|vm_compute; reflexivity|cbn; lia]).
Qed.
Lemma not_near_deg : forall x, pykep_attr "DEG2RAD" = Some x -> 57 < B2R x.
Proof. intros x H. injection H as <-. digits c_RAD2DEG. lra. Qed.
Lemma documented_bad : exists n me, In (n, me) documented /\ forall x, pykep_attr n = Some x -> ~ near 1 x (decimal me).
Proof.
  exists "DEG2RAD"%string, (17453292519943295, -18)%Z. split; [cbn; tauto|]. intros x H [_ N]. pose proof (not_near_deg x H) as D.
  assert (E : decimal (17453292519943295, -18)%Z = 17453292519943295 / 1000000000000000000). { unfold decimal. cbn [fst snd]. change (-18)%Z with (- Z.of_nat 18)%Z. rewrite powerRZ_neg'. rewrite <- pow_powerRZ. cbn. lra. }
  rewrite E in N. rewrite (Rabs_pos_eq (17453292519943295 / 1000000000000000000)) in N by lra. apply Rabs_le_inv in N. replace (2 ^ 53) with 9007199254740992 in N by (cbn; lra). lra.
Qed.
Lemma documented_missing : exists me, In ("MU_MOON"%string, me) documented /\ pykep_attr "MU_MOON" = None.
Proof. exists (4902800118, 3)%Z. split; [cbn; tauto|reflexivity]. Qed.
Lemma documented_velocity : exists me x, In ("EARTH_VELOCITY"%string, me) documented /\ pykep_attr "EARTH_VELOCITY" = Some x /\ ~ near 100000 x (decimal me).
Proof.
  exists (29784691831696804, -12)%Z, c_EARTH_VELOCITY. split; [cbn; tauto|]. split; [reflexivity|]. intros [_ N].
  assert (E : decimal (29784691831696804, -12)%Z = 29784691831696804 / 1000000000000). { unfold decimal. cbn [fst snd]. change (-12)%Z with (- Z.of_nat 12)%Z. rewrite powerRZ_neg'. rewrite <- pow_powerRZ. cbn. lra. }
  rewrite E in N. rewrite (Rabs_pos_eq (29784691831696804 / 1000000000000)) in N by lra. digits_in c_EARTH_VELOCITY N. apply Rabs_le_inv in N. replace (2 ^ 53) with 9007199254740992 in N by (cbn; lra). lra.
Qed.

(** ** the C++ constants *)
Lemma pi_near : near 1 c_pi PI /\ near 1 c_half_pi (PI / 2).
Proof.
  pose proof PI_close as P. apply Rabs_le_inv in P. pose proof PI2_3_2 as P3. unfold near. split; (split; [vm_compute; reflexivity|]).
  - rewrite (Rabs_pos_eq PI) by lra. digits c_pi. replace (2 ^ 53) with 9007199254740992 by (cbn; lra). apply Rabs_le. lra.
  - rewrite (Rabs_pos_eq (PI / 2)) by lra. digits c_half_pi. replace (2 ^ 53) with 9007199254740992 by (cbn; lra). apply Rabs_le. lra.
Qed.
Lemma deg_near : near 2 c_DEG2RAD (PI / 180) /\ near 2 c_RAD2DEG (180 / PI).
Proof.
  pose proof PI_close as P. apply Rabs_le_inv in P. pose proof PI2_3_2 as P3. unfold near. split; (split; [vm_compute; reflexivity|]).
  - rewrite (Rabs_pos_eq (PI / 180)) by lra. digits c_DEG2RAD. replace (2 ^ 53) with 9007199254740992 by (cbn; lra). apply Rabs_le. lra.
  - assert (Q : 0 < 180 / PI) by (apply Rdiv_lt_0_compat; lra). rewrite (Rabs_pos_eq (180 / PI)) by lra.
    set (y := 180 / PI) in *. assert (Y : y * PI = 180) by (unfold y; field; lra).
    digits c_RAD2DEG. replace (2 ^ 53) with 9007199254740992 by (cbn; lra).
    set (a := 884279719003555 / 281474976710656) in *.
    assert (L : 180 / (a + 123 / 1000000000000000000) <= y). { apply Rmult_le_reg_r with (a + 123 / 1000000000000000000); [unfold a; lra|]. unfold Rdiv at 1. rewrite Rmult_assoc, Rinv_l by (unfold a; lra). rewrite Rmult_1_r, <- Y. apply Rmult_le_compat_l; lra. }
    assert (U : y <= 180 / (a - 123 / 1000000000000000000)). { apply Rmult_le_reg_r with (a - 123 / 1000000000000000000); [unfold a; lra|]. unfold Rdiv at 2. rewrite Rmult_assoc, Rinv_l by (unfold a; lra). rewrite Rmult_1_r, <- Y. apply Rmult_le_compat_l; lra. }
    unfold a in L, U. apply Rabs_le. lra.
Qed.
Lemma units_near : B2R c_DAY2SEC = 86400 /\ near 1 c_SEC2DAY (1 / 86400) /\ near 1 c_DAY2YEAR (1 / (365 + 1 / 4)) /\ near 1 c_G0 (980665 / 100000).
Proof.
  split; [digits c_DAY2SEC; lra|]. unfold near. split; [|split]; (split; [vm_compute; reflexivity|]); rewrite (Rabs_pos_eq (_ / _)) by lra; replace (2 ^ 53) with 9007199254740992 by (cbn; lra).
  - digits c_SEC2DAY. apply Rabs_le. lra.
  - digits c_DAY2YEAR. apply Rabs_le. lra.
  - digits c_G0. apply Rabs_le. lra.
Qed.
Lemma physics_near : near 1 c_CR3BP_EARTH_MOON (B2R c_MU_MOON / (B2R c_MU_EARTH + B2R c_MU_MOON)) /\
  near 2 c_EARTH_VELOCITY (sqrt (B2R c_MU_SUN / B2R c_AU)).
Proof.
  digits c_MU_MOON. digits c_MU_EARTH. digits c_MU_SUN. digits c_AU. split; (split; [vm_compute; reflexivity|]); replace (2 ^ 53) with 9007199254740992 by (cbn; lra).
  - match goal with |- _ <= 1 * Rabs ?q / _ => rewrite (Rabs_pos_eq q) by lra end. digits c_CR3BP_EARTH_MOON. apply Rabs_le. lra.
  - rewrite (Rabs_pos_eq (sqrt _)) by apply sqrt_pos. set (q := _ / _). digits c_EARTH_VELOCITY. match goal with |- Rabs (?v - _) <= _ => set (w := v) end.
    assert (L : w * (1 - 1 / 9007199254740992) <= sqrt q). { rewrite <- (sqrt_Rsqr (w * (1 - 1 / 9007199254740992))) by (unfold w; lra). apply sqrt_le_1_alt. unfold Rsqr, w, q. lra. }
    assert (U : sqrt q <= w * (1 + 1 / 9007199254740992)). { rewrite <- (sqrt_Rsqr (w * (1 + 1 / 9007199254740992))) by (unfold w; lra). apply sqrt_le_1_alt. unfold Rsqr, w, q. lra. }
    unfold w in *. apply Rabs_le. lra.
Qed.
(** constants.hpp 44: "(M_moon + M_Earth) / M_Earth" *)
Lemma cr3bp_comment : ~ near 10000000000 c_CR3BP_EARTH_MOON ((B2R c_MU_MOON + B2R c_MU_EARTH) / B2R c_MU_EARTH).
Proof.
  intros [_ N]. digits_in c_MU_MOON N. digits_in c_MU_EARTH N. digits_in c_CR3BP_EARTH_MOON N. match type of N with _ <= _ * Rabs ?q / _ => rewrite (Rabs_pos_eq q) in N by lra end.
  replace (2 ^ 53) with 9007199254740992 in N by (cbn; lra). apply Rabs_le_inv in N. lra.
Qed.
Lemma const_example : In ("RAD2DEG"%string, (5729577951308232, -14)%Z) documented /\ pykep_attr "RAD2DEG" = Some c_RAD2DEG /\ pykep_attr "DEG2RAD" = Some c_RAD2DEG /\ pykep_attr "AU" = Some c_AU.
Proof. split; [cbn; tauto|]. split; [reflexivity|]. split; reflexivity. Qed.
