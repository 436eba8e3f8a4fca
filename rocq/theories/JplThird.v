(** * Kepler's third law in the table of JplSpec.v: the rates of the mean longitudes fit the semi-major axes *)
From Coq Require Import ZArith Reals List String Lra.
From Verif Require Import JplSpec JplRealSpec PiBounds.
Import ListNotations.
Open Scope R_scope.

Lemma pi2_bounds : 98695 / 10000 <= PI * PI <= 98697 / 10000.
Proof. pose proof pi_bounds as P. assert (3141592 / 1000000 <= PI <= 3141593 / 1000000) by lra. split; nra. Qed.
Theorem third_law n el rate : In (n, el, rate) published ->
  let a := published_value el rate 0 (1 / 2) * au in let w := deg (IZR (nth 3 rate 0%Z) / 10 ^ 8) / (36525 * 86400) in
  Rabs (w ^ 2 * a ^ 3 - mu_sun) <= 13 / 10000 * mu_sun.
Proof.
  intros H. cbv zeta. pose proof pi2_bounds as B. unfold published_value, deg, au, mu_sun.
  match goal with |- context [?x + ?y * ((1 / 2 - 1 / 2) / 36525)] => replace (x + y * ((1 / 2 - 1 / 2) / 36525)) with x by lra end.
  cbn [published In] in H. repeat (destruct H as [H|H]; [injection H as <- <- <-; cbn [nth]; apply Rabs_le; 
    match goal with |- context [(IZR ?u / 10 ^ 8 * PI / 180 / (36525 * 86400)) ^ 2] => replace ((IZR u / 10 ^ 8 * PI / 180 / (36525 * 86400)) ^ 2) with ((IZR u / 10 ^ 8 / 180 / (36525 * 86400)) ^ 2 * (PI * PI)) by lra end;
    generalize dependent (PI * PI); intros q B; simpl pow; split; lra|]). destruct H.
Qed.
