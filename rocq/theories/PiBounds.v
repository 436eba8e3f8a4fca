(** * Twenty digits of pi (from the standard library's Machin-like series) *)
From Coq Require Import Reals Lra.
Open Scope R_scope.

Lemma pi_bounds : 31415926535897932384 / 10 ^ 19 <= PI <= 31415926535897932385 / 10 ^ 19.
Proof.
  pose proof (PI_2_3_7_ineq 17) as H.
  unfold tg_alt, PI_2_3_7_tg, Ratan_seq in H.
  cbn -[Rinv Rdiv pow IZR INR] in H.
  rewrite !INR_IZR_INZ in H. cbn -[pow Rdiv Rinv] in H.
  split; lra.
Qed.
