(** * Property theorem C07, which strings the epoch accepts.  Only statements; proofs are in FieldDateProofs.v *)
From Coq Require Import ZArith List Ascii String.
From Verif Require Import Outcome EpochModel EpochSpec FieldSpec FieldProofs FieldDateProofs.
Import ListNotations.
Open Scope Z_scope.

(** a string is accepted exactly when its fields are numbers with the month in 1..12 and the day in 1..31, and the instant is theirs *)
Theorem C07_accepted : forall s e, epoch_of_string s = Ret e <->
  exists y m d h mi sec us, date_fields s y m d h mi sec us /\ 1 <= m <= 12 /\ 1 <= d <= 31 /\ m_tp e = instant y m d h mi sec 0 us.
Proof. exact string_accepted. Qed.
Print Assumptions C07_accepted.

(** a field is a number when it has digits after white space and perhaps a sign *)
Theorem C07_field : forall s, (forall v, stoi s = Ret v <-> reads s v /\ - 2 ^ 31 <= v <= 2 ^ 31 - 1) /\
  (stoi s = Throw InvalidArgument \/ exists v, reads s v).
Proof. exact stoi_field. Qed.
Print Assumptions C07_field.

Example C07_field_case : reads ["013"; "-"; "0"; "7"; "x"; "5"]%char (-7).
Proof. exact reads_case. Qed.
Example C07_accepted_case : epoch_of_string (list_ascii_of_string "2000?01?01?-1") = Ret (mk_epoch (instant 1999 12 31 23 0 0 0 0)).
Proof. vm_compute. reflexivity. Qed.
