(** * std::stoi as modelled reads exactly the fields of FieldSpec.v *)
From Coq Require Import ZArith List Ascii Bool Lia ZifyBool.
From Verif Require Import Outcome EpochModel FieldSpec.
Import ListNotations.
Open Scope Z_scope.

Lemma white_iff c : is_space c = true <-> white c.
Proof.
  split.
  - destruct c as [[] [] [] [] [] [] [] []]; intro H; try (vm_compute in H; discriminate H); unfold white; cbn [In]; auto 8.
  - unfold white. cbn [In]. intros [<- | [<- | [<- | [<- | [<- | [<- | []]]]]]]; reflexivity.
Qed.
Lemma digit_iff c d : digit c d <-> is_digit c = true /\ d = code c - 48.
Proof.
  split.
  - unfold digit. cbn [In]. intros H. repeat (destruct H as [H|H]; [injection H as <- <-; split; reflexivity|]). contradiction.
  - intros [H ->]. destruct c as [[] [] [] [] [] [] [] []]; try (vm_compute in H; discriminate H); unfold digit; cbn [In];
    match goal with |- context [code ?c - 48] => let v := eval vm_compute in (code c - 48) in change (code c - 48) with v end; auto 12.
Qed.
Definition val (acc : Z) (s : str) : Z := fold_left (fun a c => 10 * a + (code c - 48)) s acc.
Lemma decimal_iff s n : decimal s n <-> s <> [] /\ Forall (fun c => is_digit c = true) s /\ n = val 0 s.
Proof.
  split.
  - induction 1 as [c d H|s v c d H (N & F & ->) Hd].
    + apply digit_iff in H. destruct H as [H ->]. split; [discriminate|]. split; [constructor; auto|]. unfold val. cbn [fold_left]. lia.
    + apply digit_iff in Hd. destruct Hd as [Hd ->]. split; [intro E; apply app_eq_nil in E; destruct E; discriminate|].
      split; [apply Forall_app; auto|]. unfold val. rewrite fold_left_app. reflexivity.
  - revert n. induction s as [|c s IH] using rev_ind; intros n (N & F & ->); [congruence|].
    apply Forall_app in F. destruct F as [F Fc]. pose proof (Forall_inv Fc) as Hc. unfold val. rewrite fold_left_app. cbn [fold_left].
    destruct s as [|x s'].
    + cbn [app fold_left]. replace (10 * 0 + (code c - 48)) with (code c - 48) by lia. constructor. apply digit_iff. auto.
    + apply Dec_more; [apply IH; split; [discriminate|auto]|apply digit_iff; auto].
Qed.
Lemma stops_iff s : stops s <-> match s with [] => True | c :: _ => is_digit c = false end.
Proof.
  destruct s as [|c s]; cbn; [tauto|]. split.
  - intro H. destruct (is_digit c) eqn:E; [|reflexivity]. destruct (H (code c - 48)). apply digit_iff. auto.
  - intros H d Hd. apply digit_iff in Hd. destruct Hd as [Hd _]. congruence.
Qed.
Lemma digits_run ds : forall seen acc rest, Forall (fun c => is_digit c = true) ds -> (seen = true \/ ds <> []) -> stops rest ->
  digits seen acc (ds ++ rest) = Some (val acc ds).
Proof.
  induction ds as [|c ds IH]; intros seen acc rest F N St.
  - destruct N as [-> |N]; [|congruence]. apply stops_iff in St. cbn [app val fold_left]. unfold val. cbn [fold_left].
    destruct rest as [|c r]; cbn [digits]; [reflexivity|]. rewrite St. reflexivity.
  - pose proof (Forall_inv F) as Hc. apply Forall_inv_tail in F. cbn [app digits]. cbv beta in Hc. rewrite Hc.
    rewrite IH; auto.
Qed.
Lemma digits_split s : forall seen acc v, digits seen acc s = Some v ->
  exists ds rest, s = ds ++ rest /\ Forall (fun c => is_digit c = true) ds /\ (seen = true \/ ds <> []) /\ stops rest /\ v = val acc ds.
Proof.
  induction s as [|c s IH]; intros seen acc v H; cbn [digits] in H.
  - destruct seen; [|discriminate]. injection H as <-. exists [], []. repeat split; auto; cbn; auto.
  - destruct (is_digit c) eqn:E.
    + apply IH in H. destruct H as (ds & rest & -> & F & _ & St & ->). exists (c :: ds), rest.
      split; [reflexivity|]. split; [constructor; auto|]. split; [right; discriminate|]. split; [exact St|reflexivity].
    + destruct seen; [|discriminate]. injection H as <-. exists [], (c :: s). split; [reflexivity|]. split; [constructor|].
      split; [auto|]. split; [apply stops_iff; exact E|reflexivity].
Qed.
Lemma skip_run ws r : Forall white ws -> match r with [] => True | c :: _ => is_space c = false end -> skip_space (ws ++ r) = r.
Proof.
  intros F H. induction ws as [|c ws IH].
  - cbn [app]. destruct r as [|c r]; cbn [skip_space]; [reflexivity|]. rewrite H. reflexivity.
  - pose proof (Forall_inv F) as Hc. apply Forall_inv_tail in F. apply white_iff in Hc. cbn [app skip_space]. rewrite Hc. exact (IH F).
Qed.
Lemma skip_split s : exists ws, s = ws ++ skip_space s /\ Forall white ws.
Proof.
  induction s as [|c s (ws & E & F)]; [exists []; auto|]. cbn [skip_space]. destruct (is_space c) eqn:H.
  - exists (c :: ws). split; [cbn [app]; rewrite <- E; reflexivity|]. constructor; [apply white_iff; exact H|exact F].
  - exists []. auto.
Qed.
Lemma code_inj c k : code c = code k -> c = k.
Proof. unfold code. intro H. apply N2Z.inj in H. rewrite <- (ascii_N_embedding c), <- (ascii_N_embedding k), H. reflexivity. Qed.
Definition in32 v : outcome Z := if (- 2 ^ 31 <=? v) && (v <=? 2 ^ 31 - 1) then Ret v else Throw OutOfRange.
Lemma stoi_reads s v : reads s v -> stoi s = in32 v.
Proof.
  intros (ws & sg & ds & rest & n & -> & Hw & Hd & St & Hs). apply decimal_iff in Hd. destruct Hd as (N & F & ->).
  unfold stoi. cbv zeta. destruct ds as [|c ds]; [congruence|]. pose proof (Forall_inv F) as Hc. cbv beta in Hc.
  assert (Run : digits false 0 ((c :: ds) ++ rest) = Some (val 0 (c :: ds))) by (apply digits_run; auto).
  rewrite skip_run; [|exact Hw|].
  2: { destruct Hs as [[[-> | ->] _]|[-> _]]; cbn [app]; [|reflexivity|reflexivity]. unfold is_digit, is_space in *. lia. }
  destruct Hs as [[[-> | ->] ->]|[-> ->]]; cbn [app].
  - replace (code c =? 45) with false by (unfold is_digit in Hc; lia). replace (code c =? 43) with false by (unfold is_digit in Hc; lia).
    change (c :: ds ++ rest) with ((c :: ds) ++ rest). rewrite Run. reflexivity.
  - change (code "+" =? 45) with false. change (code "+" =? 43) with true. cbn iota.
    change (c :: ds ++ rest) with ((c :: ds) ++ rest). rewrite Run. reflexivity.
  - change (code "-" =? 45) with true. cbn iota. change (c :: ds ++ rest) with ((c :: ds) ++ rest). rewrite Run. reflexivity.
Qed.
Lemma stoi_cases s : stoi s = Throw InvalidArgument \/ exists v, reads s v.
Proof.
  unfold stoi. cbv zeta. destruct (skip_split s) as (ws & E & Hw).
  assert (K : forall sg r, skip_space s = sg ++ r -> (sg = [] \/ sg = ["+"%char] \/ sg = ["-"%char]) -> digits false 0 r = None \/ exists v, reads s v).
  { intros sg r Er Hs. destruct (digits false 0 r) as [n|] eqn:D; [right|auto]. apply digits_split in D.
    destruct D as (ds & rest & -> & F & [H|N] & St & ->); [discriminate|]. rewrite Er in E.
    destruct Hs as [-> | [-> | ->]]; eexists; (eexists ws, _, ds, rest, _; split; [exact E|]; split; [exact Hw|]; split; [apply decimal_iff; auto|]; split; [exact St|]).
    - left. split; [left; reflexivity|reflexivity].
    - left. split; [right; reflexivity|reflexivity].
    - right. split; reflexivity. }
  destruct (skip_space s) as [|c r] eqn:Es.
  - left. reflexivity.
  - destruct (code c =? 45) eqn:E1; [|destruct (code c =? 43) eqn:E2].
    + assert (c = "-"%char) as -> by (apply code_inj; change (code "-") with 45; lia).
      destruct (K ["-"%char] r eq_refl ltac:(auto)) as [-> |H]; auto.
    + assert (c = "+"%char) as -> by (apply code_inj; change (code "+") with 43; lia).
      destruct (K ["+"%char] r eq_refl ltac:(auto)) as [-> |H]; auto.
    + destruct (K [] (c :: r) eq_refl ltac:(auto)) as [-> |H]; auto.
Qed.
Lemma stoi_ret s v : stoi s = Ret v <-> reads s v /\ - 2 ^ 31 <= v <= 2 ^ 31 - 1.
Proof.
  split.
  - intro H. destruct (stoi_cases s) as [E|[w R]]; [congruence|]. rewrite (stoi_reads _ _ R) in H. unfold in32 in H.
    destruct ((- 2 ^ 31 <=? w) && (w <=? 2 ^ 31 - 1)) eqn:B; [|discriminate]. injection H as <-. split; [exact R|lia].
  - intros [R B]. rewrite (stoi_reads _ _ R). unfold in32. replace ((- 2 ^ 31 <=? v) && (v <=? 2 ^ 31 - 1)) with true by lia. reflexivity.
Qed.
Lemma stoi_field s : (forall v, stoi s = Ret v <-> reads s v /\ - 2 ^ 31 <= v <= 2 ^ 31 - 1) /\ (stoi s = Throw InvalidArgument \/ exists v, reads s v).
Proof. split; [exact (stoi_ret s)|exact (stoi_cases s)]. Qed.
Lemma reads_case : reads ["013"; "-"; "0"; "7"; "x"; "5"]%char (-7).
Proof. apply (stoi_ret ["013"; "-"; "0"; "7"; "x"; "5"]%char (-7)). vm_compute. reflexivity. Qed.
