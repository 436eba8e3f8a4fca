(** * Control flow of the Lambert solver: theorems for every arithmetic *)
From Coq Require Import ZArith List Bool Lia.
From Verif Require Import Outcome LambertModel.
Import ListNotations.
Open Scope Z_scope.

Lemma upd_inv {A} (l : list A) i a l' : upd l i a = Ret l' -> 0 <= i < Z.of_nat (length l) /\ l' = firstn (Z.to_nat i) l ++ a :: skipn (S (Z.to_nat i)) l.
Proof.
  unfold upd. destruct (_ && _)%bool eqn:E; [|discriminate]. intros H. apply andb_true_iff in E. destruct E as [E1 E2]. apply Z.leb_le in E1. apply Z.ltb_lt in E2.
  split; [lia|congruence].
Qed.
Lemma upd_len {A} (l : list A) i a l' : upd l i a = Ret l' -> length l' = length l.
Proof.
  intros H. destruct (upd_inv _ _ _ _ H) as [E1 ->].
  rewrite app_length, firstn_length. change (length (a :: skipn (S (Z.to_nat i)) l)) with (S (length (skipn (S (Z.to_nat i)) l))). rewrite skipn_length. lia.
Qed.
Lemma upd_ok {A} (l : list A) i a : 0 <= i < Z.of_nat (length l) -> exists l', upd l i a = Ret l'.
Proof. intros [H1 H2]. unfold upd. apply Z.leb_le in H1. apply Z.ltb_lt in H2. rewrite H1, H2. eexists. reflexivity. Qed.
Lemma upd_same {A} (l : list A) i a l' d : upd l i a = Ret l' -> nth (Z.to_nat i) l' d = a.
Proof.
  intros H. destruct (upd_inv _ _ _ _ H) as [E1 ->].
  rewrite app_nth2; rewrite firstn_length; [|lia]. replace (Z.to_nat i - _)%nat with 0%nat by lia. reflexivity.
Qed.
Lemma upd_other {A} (l : list A) i a l' d j : upd l i a = Ret l' -> 0 <= j -> j <> i -> nth (Z.to_nat j) l' d = nth (Z.to_nat j) l d.
Proof.
  intros H Hj N. destruct (upd_inv _ _ _ _ H) as [E1 ->].
  assert (Hl : length (firstn (Z.to_nat i) l) = Z.to_nat i) by (rewrite firstn_length; lia).
  destruct (Z.lt_ge_cases j i).
  - rewrite app_nth1 by lia. rewrite <- (firstn_skipn (Z.to_nat i) l) at 2. rewrite app_nth1 by lia. reflexivity.
  - rewrite app_nth2 by lia. rewrite Hl. replace (Z.to_nat j - Z.to_nat i)%nat with (S (Z.to_nat j - Z.to_nat i - 1)) by lia. cbn [nth].
    rewrite <- (firstn_skipn (S (Z.to_nat i)) l) at 2. rewrite app_nth2; rewrite firstn_length; [|lia]. f_equal. lia.
Qed.
Lemma Forall_firstn {A} (P : A -> Prop) n : forall l, Forall P l -> Forall P (firstn n l).
Proof. induction n as [|n IH]; intros l H; [constructor|]. destruct H; cbn; constructor; [assumption|]. apply IH. assumption. Qed.
Lemma Forall_skipn {A} (P : A -> Prop) n : forall l, Forall P l -> Forall P (skipn n l).
Proof. induction n as [|n IH]; intros l H; [exact H|]. destruct H; cbn; [constructor|]. apply IH. assumption. Qed.
Lemma upd_forall {A} (P : A -> Prop) l i a l' : upd l i a = Ret l' -> Forall P l -> P a -> Forall P l'.
Proof.
  intros H Fl Pa. destruct (upd_inv _ _ _ _ H) as [E1 ->]. apply Forall_app. split; [apply Forall_firstn, Fl|]. constructor; [exact Pa|apply Forall_skipn, Fl].
Qed.
(** ** the bounded loop is plain iteration *)
Fixpoint iter_nat {S A} (n : nat) (step : S -> S + A) (s : S) : S + A :=
  match n with O => inl s | Datatypes.S n' => match step s with inl s' => iter_nat n' step s' | inr a => inr a end end.
Lemma iter_nat_plus {S A} (step : S -> S + A) n m : forall s, iter_nat (n + m) step s = match iter_nat n step s with inl s' => iter_nat m step s' | inr a => inr a end.
Proof. induction n as [|n IH]; intros s; cbn [iter_nat Nat.add]; [reflexivity|]. destruct (step s); [apply IH|reflexivity]. Qed.
Lemma steps_iter {S A} (step : S -> S + A) p : forall s, steps p step s = iter_nat (Pos.to_nat p) step s.
Proof.
  induction p as [p IH|p IH|]; intros s; cbn [steps].
  - rewrite Pos2Nat.inj_xI. replace (Datatypes.S (2 * Pos.to_nat p)) with (Pos.to_nat p + (Pos.to_nat p + 1))%nat by lia. rewrite iter_nat_plus, <- IH. destruct (steps p step s) as [s'|a]; [|reflexivity].
    rewrite iter_nat_plus, <- IH. destruct (steps p step s') as [s2|a]; [|reflexivity]. cbn. destruct (step s2); reflexivity.
  - rewrite Pos2Nat.inj_xO. replace (2 * Pos.to_nat p)%nat with (Pos.to_nat p + Pos.to_nat p)%nat by lia. rewrite iter_nat_plus, <- IH. destruct (steps p step s) as [s'|a]; [|reflexivity]. apply IH.
  - change (Pos.to_nat 1) with 1%nat. cbn [iter_nat]. destruct (step s); reflexivity.
Qed.
Lemma steps_stop {S A} (step : S -> S + A) p n s a : (n <= Pos.to_nat p)%nat -> iter_nat n step s = inr a -> steps p step s = inr a.
Proof. intros L H. rewrite steps_iter. replace (Pos.to_nat p) with (n + (Pos.to_nat p - n))%nat by lia. rewrite iter_nat_plus, H. reflexivity. Qed.

Lemma nth_repeat_lt {A} (a d : A) n k : (k < n)%nat -> nth k (repeat a n) d = a.
Proof. revert k. induction n as [|n IH]; intros k H; [lia|]. destruct k as [|k]; [reflexivity|]. cbn. apply IH. lia. Qed.
Section Any.
Context {F : Type} (O : arith F).
Lemma house_ret lam n : forall T eps N err x0 it r, house O lam n T eps N err x0 it = Ret r -> it <= snd r <= it + Z.of_nat n.
Proof.
  induction n as [|n IH]; intros T eps N err x0 it r H; cbn [house] in H; [injection H as <-; cbn; lia|].
  destruct (f_lt O eps err); [|injection H as <-; cbn [snd]; lia]. destruct (x2tof O lam x0 N) as [tof| |]; cbn [bind] in H; try discriminate.
  destruct (dTdx O lam x0 tof) as [[DT DDT] DDDT]. apply IH in H. lia.
Qed.
Lemma house_ub lam n : forall T eps N err x0 it, house O lam n T eps N err x0 it = UB -> exists x, x2tof O lam x N = UB.
Proof.
  induction n as [|n IH]; intros T eps N err x0 it H; cbn [house] in H; [discriminate|].
  destruct (f_lt O eps err); [|discriminate]. destruct (x2tof O lam x0 N) as [tof| |] eqn:E; cbn [bind] in H; try discriminate; [|exists x0; exact E].
  destruct (dTdx O lam x0 tof) as [[DT DDT] DDDT]. apply IH in H. exact H.
Qed.
Lemma x2tof_no_throw lam x N e : x2tof O lam x N <> Throw e.
Proof.
  unfold x2tof. destruct (_ && _); [discriminate|]. cbv zeta. destruct (f_lt O _ _); [|discriminate]. unfold hypergeometricF. destruct (steps _ _ _); cbn [bind]; discriminate.
Qed.
Lemma house_no_throw lam n : forall T eps N err x0 it e, house O lam n T eps N err x0 it <> Throw e.
Proof.
  induction n as [|n IH]; intros T eps N err x0 it e H; cbn [house] in H; [discriminate|].
  destruct (f_lt O eps err); [|discriminate]. destruct (x2tof O lam x0 N) as [tof|e'|] eqn:E; cbn [bind] in H; try discriminate; [|exact (x2tof_no_throw _ _ _ _ E)].
  destruct (dTdx O lam x0 tof) as [[DT DDT] DDDT]. exact (IH _ _ _ _ _ _ _ H).
Qed.
Lemma householder_cases lam T x0 N eps n : (exists r, householder O lam T x0 N eps n = Ret r /\ 0 <= snd r <= Z.of_nat n) \/ (householder O lam T x0 N eps n = UB /\ exists x, x2tof O lam x N = UB).
Proof.
  unfold householder. destruct (house O lam n T eps N (nat_ O 1) x0 0) as [r|e|] eqn:E.
  - left. exists r. split; [reflexivity|]. apply house_ret in E. lia.
  - exfalso. exact (house_no_throw _ _ _ _ _ _ _ _ _ E).
  - right. split; [reflexivity|]. exact (house_ub _ _ _ _ _ _ _ _ E).
Qed.
(** Halley's loop: never more than 13 evaluations of the time of flight *)
Lemma halley_cases lam Nmax n : forall it x_old x_new T_min, 0 <= it <= 13 -> Z.of_nat n = 14 - it ->
  (exists r, halley O lam n Nmax it x_old x_new T_min = Ret r /\ it <= snd r <= 13) \/ (halley O lam n Nmax it x_old x_new T_min = UB /\ exists x, x2tof O lam x Nmax = UB).
Proof.
  induction n as [|n IH]; intros it x_old x_new T_min B Hn; [lia|]. cbn [halley]. destruct (dTdx O lam x_old T_min) as [[DT DDT] DDDT].
  match goal with |- context [f_lt O (f_abs O ?e) ?t || ?b] => destruct (f_lt O (f_abs O e) t || b)%bool eqn:E end.
  - left. eexists. split; [reflexivity|]. cbn [snd]. lia.
  - apply orb_false_iff in E. destruct E as [_ E]. apply Z.ltb_ge in E.
    match goal with |- context [x2tof O lam ?x Nmax] => destruct (x2tof O lam x Nmax) as [t|e|] eqn:X end; cbn [bind].
    + match goal with |- context [halley O lam n Nmax (it + 1) ?a ?b t] => destruct (IH (it + 1) a b t ltac:(lia) ltac:(lia)) as [[r [H1 H2]]|H] end; [left; exists r; split; [exact H1|lia]|right; exact H].
    + exfalso. exact (x2tof_no_throw _ _ _ _ X).
    + right. split; [reflexivity|eexists; exact X].
Qed.
Lemma count_cases lam T l2 q mr : 0 <= q < u32 -> 0 <= mr ->
  (exists n, count O lam T l2 q mr = Ret n /\ 0 <= n <= mr /\ n <= q /\ Z.min mr q - 1 <= n) \/ (count O lam T l2 q mr = UB /\ exists x, x2tof O lam x (Z.min mr q) = UB).
Proof.
  intros Q M. unfold count. cbv zeta. destruct (Z.ltb 0 (Z.min mr q)) eqn:E; [apply Z.ltb_lt in E|apply Z.ltb_ge in E; left; eexists; split; [reflexivity|lia]].
  destruct (f_lt O T _); [|left; eexists; split; [reflexivity|lia]].
  match goal with |- context [halley O lam 14 ?N 0 ?a ?b ?c] => destruct (halley_cases lam N 14 0 a b c ltac:(lia) ltac:(lia)) as [[r [-> _]]|[-> H]] end; cbn [bind]; [|right; split; [reflexivity|exact H]].
  left. destruct (f_lt O T (fst r)); eexists; (split; [reflexivity|]); [|lia]. rewrite Z.mod_small by lia. lia.
Qed.
Lemma multi_cases lam T n : forall i xs its, 1 <= i -> length xs = length its -> 2 * (i + Z.of_nat n) - 1 <= Z.of_nat (length xs) -> Forall (fun k => 0 <= k <= 15) its ->
  (exists xs' its', multi O lam n T i xs its = Ret (xs', its') /\ length xs' = length xs /\ length its' = length its /\ Forall (fun k => 0 <= k <= 15) its') \/
  (multi O lam n T i xs its = UB /\ exists x k, i <= k < i + Z.of_nat n /\ x2tof O lam x k = UB).
Proof.
  induction n as [|n IH]; intros i xs its Hi L B Fa; cbn [multi]; [left; exists xs, its; repeat split; assumption|].
  match goal with |- context [householder O lam T ?x ?N ?e ?k] => destruct (householder_cases lam T x N e k) as [[r [-> Hr]]|[-> [x' H]]] end; cbn [bind]; [|right; split; [reflexivity|exists x', i; split; [lia|exact H]]].
  destruct (upd_ok xs (2 * i - 1) (fst r) ltac:(lia)) as [xs1 E1]. rewrite E1. cbn [bind]. destruct (upd_ok its (2 * i - 1) (snd r) ltac:(lia)) as [its1 E2]. rewrite E2. cbn [bind].
  pose proof (upd_len _ _ _ _ E1). pose proof (upd_len _ _ _ _ E2). pose proof (upd_forall _ _ _ _ _ E2 Fa Hr) as Fa1.
  match goal with |- context [householder O lam T ?x ?N ?e ?k] => destruct (householder_cases lam T x N e k) as [[r2 [-> Hr2]]|[-> [x' H2]]] end; cbn [bind]; [|right; split; [reflexivity|exists x', i; split; [lia|exact H2]]].
  destruct (upd_ok xs1 (2 * i) (fst r2) ltac:(lia)) as [xs2 E3]. rewrite E3. cbn [bind]. destruct (upd_ok its1 (2 * i) (snd r2) ltac:(lia)) as [its2 E4]. rewrite E4. cbn [bind].
  pose proof (upd_len _ _ _ _ E3). pose proof (upd_len _ _ _ _ E4). pose proof (upd_forall _ _ _ _ _ E4 Fa1 Hr2) as Fa2.
  destruct (IH (i + 1) xs2 its2 ltac:(lia) ltac:(lia) ltac:(lia) Fa2) as [[xs' [its' [E [L1 [L2 L3]]]]]|[E [x' [k [K H']]]]].
  - left. exists xs', its'. split; [exact E|]. repeat split; [lia|lia|exact L3].
  - right. split; [exact E|]. exists x', k. split; [lia|exact H'].
Qed.
(** what the loop writes *)
Definition entry lam T i (right : bool) : outcome (F * Z) :=
  let tmp := if right then f_pow O (f_div O (f_mul O (nat_ O 8) T) (f_mul O (nat_ O i) (f_pi O))) (f_div O (nat_ O 2) (nat_ O 3))
             else f_pow O (f_div O (f_add O (f_mul O (nat_ O i) (f_pi O)) (f_pi O)) (f_mul O (nat_ O 8) T)) (f_div O (nat_ O 2) (nat_ O 3)) in
  householder O lam T (f_div O (f_sub O tmp (nat_ O 1)) (f_add O tmp (nat_ O 1))) i (f_lit O 1 100000000) 15.
Lemma multi_entries lam T n : forall i xs its xs' its' dx di, 1 <= i -> multi O lam n T i xs its = Ret (xs', its') ->
  (forall j, 0 <= j < 2 * i - 1 -> nth (Z.to_nat j) xs' dx = nth (Z.to_nat j) xs dx /\ nth (Z.to_nat j) its' di = nth (Z.to_nat j) its di) /\
  (forall k, i <= k < i + Z.of_nat n -> entry lam T k false = Ret (nth (Z.to_nat (2 * k - 1)) xs' dx, nth (Z.to_nat (2 * k - 1)) its' di) /\
    entry lam T k true = Ret (nth (Z.to_nat (2 * k)) xs' dx, nth (Z.to_nat (2 * k)) its' di)).
Proof.
  induction n as [|n IH]; intros i xs its xs' its' dx di Hi H; cbn [multi] in H.
  - injection H as <- <-. split; [intros; split; reflexivity|intros; lia].
  - change (bind (entry lam T i false) (fun h => bind (upd xs (2 * i - 1) (fst h)) (fun xs => bind (upd its (2 * i - 1) (snd h)) (fun its =>
      bind (entry lam T i true) (fun h => bind (upd xs (2 * i) (fst h)) (fun xs => bind (upd its (2 * i) (snd h)) (fun its => multi O lam n T (i + 1) xs its)))))) = Ret (xs', its')) in H.
    destruct (entry lam T i false) as [[x1 k1]| |] eqn:E1; cbn [bind fst snd] in H; try discriminate.
    destruct (upd xs _ x1) as [xs1| |] eqn:U1; cbn [bind] in H; try discriminate. destruct (upd its _ k1) as [its1| |] eqn:U2; cbn [bind] in H; try discriminate.
    destruct (entry lam T i true) as [[x2 k2]| |] eqn:E2; cbn [bind fst snd] in H; try discriminate.
    destruct (upd xs1 _ x2) as [xs2| |] eqn:U3; cbn [bind] in H; try discriminate. destruct (upd its1 _ k2) as [its2| |] eqn:U4; cbn [bind] in H; try discriminate.
    destruct (IH (i + 1) xs2 its2 xs' its' dx di ltac:(lia) H) as [A B]. split.
    + intros j Hj. destruct (A j ltac:(lia)) as [-> ->]. rewrite (upd_other _ _ _ _ dx j U3), (upd_other _ _ _ _ dx j U1), (upd_other _ _ _ _ di j U4), (upd_other _ _ _ _ di j U2) by lia. split; reflexivity.
    + intros k Hk. destruct (Z.eq_dec k i) as [->|N]; [|apply B; lia].
      destruct (A (2 * i - 1) ltac:(lia)) as [-> ->]. destruct (A (2 * i) ltac:(lia)) as [-> ->].
      rewrite (upd_other _ _ _ _ dx (2 * i - 1) U3), (upd_other _ _ _ _ di (2 * i - 1) U4) by lia.
      rewrite (upd_same _ _ _ _ dx U1), (upd_same _ _ _ _ di U2), (upd_same _ _ _ _ dx U3), (upd_same _ _ _ _ di U4). split; assumption.
Qed.

(** ** the constructor *)
(** T, from the members *)
Definition nd_time (s mu tof : F) : F := f_mul O (f_sqrt O (f_div O (f_div O (f_div O (f_mul O (nat_ O 2) mu) s) s) s)) tof.
(** the part after lambda and T *)
Definition solve (lambda lambda2 T : F) (q multi_revs : Z) : outcome (list F * list Z * Z) :=
  bind (count O lambda T lambda2 q multi_revs) (fun Nmax =>
  bind (householder O lambda T (guess0 O lambda T lambda2) 0 (f_lit O 1 100000) 15) (fun h =>
  bind (upd (repeat (nat_ O 0) (Z.to_nat (Nmax * 2 + 1))) 0 (fst h)) (fun xs =>
  bind (upd (repeat 0 (Z.to_nat (Nmax * 2 + 1))) 0 (snd h)) (fun iters =>
  bind (multi O lambda (Z.to_nat ((Nmax + 1) mod u32 - 1)) T 1 xs iters) (fun m => Ret (m, Nmax)))))).
Lemma solve_cases lam l2 T q mr : 0 <= q < u32 -> 0 <= mr < u32 ->
  (exists xs its n, solve lam l2 T q mr = Ret (xs, its, n) /\ 0 <= n <= mr /\ n <= q /\ Z.min mr q - 1 <= n /\ Z.of_nat (length xs) = 2 * n + 1 /\ Z.of_nat (length its) = 2 * n + 1 /\ Forall (fun k => 0 <= k <= 15) its) \/
  (solve lam l2 T q mr = UB /\ exists x k, x2tof O lam x k = UB).
Proof.
  intros Q M. unfold solve. destruct (count_cases lam T l2 q mr Q ltac:(lia)) as [[n [-> [A [B C]]]]|[-> [x H]]]; cbn [bind]; [|right; split; [reflexivity|eexists; eexists; exact H]].
  match goal with |- context [householder O lam T ?x ?N ?e ?k] => destruct (householder_cases lam T x N e k) as [[r [-> Hr]]|[-> [x' H]]] end; cbn [bind]; [|right; split; [reflexivity|eexists; eexists; exact H]].
  set (size := Z.to_nat (n * 2 + 1)). assert (Hs : Z.of_nat size = 2 * n + 1) by (unfold size; lia).
  destruct (upd_ok (repeat (nat_ O 0) size) 0 (fst r) ltac:(rewrite repeat_length; lia)) as [xs E1]. rewrite E1. cbn [bind].
  destruct (upd_ok (repeat 0 size) 0 (snd r) ltac:(rewrite repeat_length; lia)) as [its E2]. rewrite E2. cbn [bind].
  pose proof (upd_len _ _ _ _ E1) as L1. pose proof (upd_len _ _ _ _ E2) as L2. rewrite repeat_length in L1, L2.
  assert (Fa : Forall (fun k => 0 <= k <= 15) its). { apply (upd_forall _ _ _ _ _ E2); [|exact Hr]. apply Forall_forall. intros k Hk. apply repeat_spec in Hk. lia. }
  assert (Bd : 0 <= (n + 1) mod u32 <= n + 1). { split; [apply Z.mod_pos_bound; reflexivity|apply Z.mod_le; [lia|reflexivity]]. }
  destruct (multi_cases lam T (Z.to_nat ((n + 1) mod u32 - 1)) 1 xs its ltac:(lia) ltac:(lia) ltac:(lia) Fa) as [[xs' [its' [-> [L3 [L4 L5]]]]]|[-> [x' [k [_ H]]]]]; cbn [bind].
  - left. exists xs', its', n. split; [reflexivity|]. repeat split; try lia. exact L5.
  - right. split; [reflexivity|]. exists x', k. exact H.
Qed.
Lemma solve_entries lam l2 T q mr xs its n dx di : 0 <= q < u32 -> 0 <= mr < u32 -> solve lam l2 T q mr = Ret (xs, its, n) ->
  householder O lam T (guess0 O lam T l2) 0 (f_lit O 1 100000) 15 = Ret (nth 0 xs dx, nth 0 its di) /\
  (n + 1 < u32 -> forall k, 1 <= k <= n ->
    entry lam T k false = Ret (nth (Z.to_nat (2 * k - 1)) xs dx, nth (Z.to_nat (2 * k - 1)) its di) /\ entry lam T k true = Ret (nth (Z.to_nat (2 * k)) xs dx, nth (Z.to_nat (2 * k)) its di)) /\
  (n + 1 = u32 -> forall k, 1 <= k <= 2 * n -> nth (Z.to_nat k) xs dx = nat_ O 0 /\ nth (Z.to_nat k) its di = 0).
Proof.
  intros Q M H. destruct (solve_cases lam l2 T q mr Q M) as [[xs0 [its0 [n0 [E0 [B0 _]]]]]|[E0 _]]; [|congruence]. rewrite E0 in H. injection H as -> -> ->. rename E0 into H. unfold solve in H.
  destruct (count O lam T l2 q mr) as [n0| |]; cbn [bind] in H; try discriminate.
  match type of H with context [householder O lam T ?x ?N ?e ?k] => destruct (householder O lam T x N e k) as [[x0 k0]| |] eqn:E end; cbn [bind fst snd] in H; try discriminate.
  destruct (upd (repeat (nat_ O 0) _) 0 x0) as [xs1| |] eqn:U1; cbn [bind] in H; try discriminate. destruct (upd (repeat 0 _) 0 k0) as [its1| |] eqn:U2; cbn [bind] in H; try discriminate.
  destruct (multi O lam _ T 1 xs1 its1) as [[xs2 its2]| |] eqn:EM; cbn [bind] in H; try discriminate.
  assert (Q1 : xs2 = xs /\ its2 = its /\ n0 = n) by (injection H as -> -> ->; repeat split). destruct Q1 as [-> [-> ->]]. clear H.
  destruct (multi_entries lam T _ 1 xs1 its1 xs its dx di ltac:(lia) EM) as [A B].
  split; [|split].
  - destruct (A 0 ltac:(lia)) as [H1 H2]. change (Z.to_nat 0) with 0%nat in H1, H2. rewrite H1, H2.
    pose proof (upd_same _ _ _ _ dx U1) as S1. pose proof (upd_same _ _ _ _ di U2) as S2. change (Z.to_nat 0) with 0%nat in S1, S2. rewrite S1, S2. reflexivity.
  - intros Nw k Hk. apply B. rewrite Z.mod_small by lia. lia.
  - intros W k Hk. rewrite W, Z.mod_same in EM by discriminate. change (Z.to_nat (0 - 1)) with 0%nat in EM. cbn [multi] in EM. assert (Q2 : xs1 = xs /\ its1 = its) by (injection EM as -> ->; split; reflexivity). destruct Q2 as [-> ->].
    rewrite (upd_other _ _ _ _ dx k U1), (upd_other _ _ _ _ di k U2) by lia. rewrite nth_repeat_lt, nth_repeat_lt by lia. split; reflexivity.
Qed.
Definition semi (r0 r1 : vec3) : F := f_div O (f_add O (f_add O (f_norm O (v3sub O r1 r0)) (f_norm O r0)) (f_norm O r1)) (nat_ O 2).
Definition plane (r0 r1 : vec3) : vec3 := let ih := v3cross O (v3div O r0 (f_norm O r0)) (v3div O r1 (f_norm O r1)) in v3div O ih (f_norm O ih).
Definition lam2 (r0 r1 : vec3) : F := f_sub O (nat_ O 1) (f_div O (f_norm O (v3sub O r1 r0)) (semi r0 r1)).
(** lambda and the two transverse directions, with their signs *)
Definition flip (b : bool) (t : F * vec3 (F := F) * vec3 (F := F)) : F * vec3 (F := F) * vec3 (F := F) := let '(l, u, w) := t in if b then (f_opp O l, v3opp O u, v3opp O w) else (l, u, w).
Definition frame (r0 r1 : vec3) (cw : bool) : F * vec3 (F := F) * vec3 (F := F) :=
  let its := v3cross O (plane r0 r1) (v3div O r0 (f_norm O r0)) in
  let itf := v3cross O (plane r0 r1) (v3div O r1 (f_norm O r1)) in
  flip cw (flip (f_lt O (v3z (plane r0 r1)) (nat_ O 0)) (f_sqrt O (lam2 r0 r1), v3div O its (f_norm O its), v3div O itf (f_norm O itf))).
Definition vels (r0 r1 : vec3) (mu : F) (cw : bool) (x : F) : vec3 (F := F) * vec3 (F := F) :=
  let '(lambda, its, itf) := frame r0 r1 cw in
  let lambda2 := lam2 r0 r1 in let s := semi r0 r1 in
  let Rs := f_norm O r0 in let Rf := f_norm O r1 in
  let gamma := f_sqrt O (f_div O (f_mul O mu s) (nat_ O 2)) in
  let rho := f_div O (f_sub O Rs Rf) (f_norm O (v3sub O r1 r0)) in
  let sigma := f_sqrt O (f_sub O (nat_ O 1) (f_mul O rho rho)) in
  let y := f_sqrt O (f_add O (f_sub O (nat_ O 1) lambda2) (f_mul O (f_mul O lambda2 x) x)) in
  let vrs := f_div O (f_mul O gamma (f_sub O (f_sub O (f_mul O lambda y) x) (f_mul O rho (f_add O (f_mul O lambda y) x)))) Rs in
  let vrf := f_div O (f_mul O (f_opp O gamma) (f_add O (f_sub O (f_mul O lambda y) x) (f_mul O rho (f_add O (f_mul O lambda y) x)))) Rf in
  let vt := f_mul O (f_mul O gamma sigma) (f_add O y (f_mul O lambda x)) in
  (v3lin O vrs (v3div O r0 Rs) (f_div O vt Rs) its, v3lin O vrf (v3div O r1 Rf) (f_div O vt Rf) itf).
Lemma lambert_eq r0 r1 tof mu cw mr : lambert O r0 r1 tof mu cw mr =
  if f_le O tof (nat_ O 0) then Throw DomainError else if f_le O mu (nat_ O 0) then Throw DomainError else
  if f_eq O (v3z (plane r0 r1)) (nat_ O 0) then Throw DomainError else
  bind (f_u32 O (f_div O (nd_time (semi r0 r1) mu tof) (f_pi O))) (fun q =>
  bind (solve (fst (fst (frame r0 r1 cw))) (lam2 r0 r1) (nd_time (semi r0 r1) mu tof) q mr) (fun m =>
  let v := vels r0 r1 mu cw in
  Ret (mk_lambert (map (fun x => fst (v x)) (fst (fst m))) (map (fun x => snd (v x)) (fst (fst m))) (fst (fst m)) (snd (fst m)) (snd m) (semi r0 r1) (f_norm O (v3sub O r1 r0)) (fst (fst (frame r0 r1 cw)))))).
Proof.
  unfold lambert. destruct (f_le O tof (nat_ O 0)); [reflexivity|]. destruct (f_le O mu (nat_ O 0)); [reflexivity|].
  cbv zeta. fold (semi r0 r1). fold (plane r0 r1). fold (lam2 r0 r1). destruct (f_eq O (v3z (plane r0 r1)) (nat_ O 0)); [reflexivity|].
  unfold vels. unfold frame, flip. cbv zeta. fold (nd_time (semi r0 r1) mu tof).
  destruct (f_lt O (v3z (plane r0 r1)) (nat_ O 0)), cw; cbn [fst snd];
  (destruct (f_u32 O (f_div O (nd_time (semi r0 r1) mu tof) (f_pi O))) as [q| |]; cbn [bind]; try reflexivity; unfold solve;
   match goal with |- context [count O ?l ?T ?l2 q mr] => destruct (count O l T l2 q mr) as [n| |] end; cbn [bind]; try reflexivity;
   match goal with |- context [householder O ?l ?T ?x ?N ?e ?k] => destruct (householder O l T x N e k) as [h| |] end; cbn [bind]; try reflexivity;
   match goal with |- context [upd ?l 0 (fst ?h)] => destruct (upd l 0 (fst h)) as [xs| |] end; cbn [bind]; try reflexivity;
   match goal with |- context [upd ?l 0 (snd ?h)] => destruct (upd l 0 (snd h)) as [its| |] end; cbn [bind]; try reflexivity;
   match goal with |- context [multi O ?l ?n ?T 1 ?xs ?its] => destruct (multi O l n T 1 xs its) as [m| |] end; cbn [bind]; reflexivity).
Qed.
Definition u32_ok : Prop := forall x n, f_u32 O x = Ret n -> 0 <= n < u32.
Lemma lambert_shape r0 r1 tof mu cw mr L : u32_ok -> 0 <= mr < u32 -> lambert O r0 r1 tof mu cw mr = Ret L ->
  (exists q, f_u32 O (f_div O (nd_time (l_s L) mu tof) (f_pi O)) = Ret q /\ 0 <= l_nmax L <= mr /\ l_nmax L <= q /\ Z.min mr q - 1 <= l_nmax L) /\
  Z.of_nat (length (l_v0 L)) = 2 * l_nmax L + 1 /\ Z.of_nat (length (l_v1 L)) = 2 * l_nmax L + 1 /\ Z.of_nat (length (l_x L)) = 2 * l_nmax L + 1 /\ Z.of_nat (length (l_iters L)) = 2 * l_nmax L + 1 /\
  Forall (fun k => 0 <= k <= 15) (l_iters L).
Proof.
  intros U M H. rewrite lambert_eq in H. destruct (f_le O tof _); [discriminate|]. destruct (f_le O mu _); [discriminate|]. destruct (f_eq O _ _); [discriminate|].
  destruct (f_u32 O _) as [q| |] eqn:E; cbn [bind] in H; try discriminate. pose proof (U _ _ E) as Q.
  destruct (solve_cases (fst (fst (frame r0 r1 cw))) (lam2 r0 r1) (nd_time (semi r0 r1) mu tof) q mr Q M) as [[xs [its [n [S [A [B [C [D [G K]]]]]]]]]|[S _]]; rewrite S in H; [|discriminate H].
  cbn [bind fst snd] in H. injection H as <-. cbn [l_s l_nmax l_v0 l_v1 l_x l_iters]. split; [exists q; split; [exact E|lia]|]. rewrite !map_length. repeat split; assumption.
Qed.
Lemma hyper_of_x2tof lam x k : x2tof O lam x k = UB -> exists z, hypergeometricF O z (f_lit O 1 100000000000) = UB.
Proof.
  unfold x2tof. cbv zeta. destruct (_ && _); [discriminate|]. destruct (f_lt O _ _); [|discriminate]. match goal with |- context [hypergeometricF O ?z ?t] => destruct (hypergeometricF O z t) eqn:E; cbn [bind]; try discriminate; intros _; exists z; exact E end.
Qed.
Lemma lambert_ub r0 r1 tof mu cw mr : u32_ok -> 0 <= mr < u32 -> lambert O r0 r1 tof mu cw mr = UB ->
  f_u32 O (f_div O (nd_time (semi r0 r1) mu tof) (f_pi O)) = UB \/ exists z, hypergeometricF O z (f_lit O 1 100000000000) = UB.
Proof.
  intros U M H. rewrite lambert_eq in H. destruct (f_le O tof _); [discriminate|]. destruct (f_le O mu _); [discriminate|]. destruct (f_eq O _ _); [discriminate|].
  destruct (f_u32 O _) as [q| |] eqn:E; cbn [bind] in H; try discriminate; [|left; reflexivity]. pose proof (U _ _ E) as Q. right.
  destruct (solve_cases (fst (fst (frame r0 r1 cw))) (lam2 r0 r1) (nd_time (semi r0 r1) mu tof) q mr Q M) as [[xs [its [n [S _]]]]|[_ [x [k X]]]]; [rewrite S in H; discriminate H|]. apply (hyper_of_x2tof _ _ _ X).
Qed.
Lemma lambert_throws r0 r1 tof mu cw mr e : u32_ok -> (forall x e', f_u32 O x <> Throw e') -> 0 <= mr < u32 -> lambert O r0 r1 tof mu cw mr = Throw e ->
  e = DomainError /\ (f_le O tof (nat_ O 0) = true \/ f_le O mu (nat_ O 0) = true \/ f_eq O (v3z (plane r0 r1)) (nat_ O 0) = true).
Proof.
  intros U UT M H. rewrite lambert_eq in H. destruct (f_le O tof _); [split; [congruence|tauto]|]. destruct (f_le O mu _); [split; [congruence|tauto]|]. destruct (f_eq O _ _); [split; [congruence|tauto]|]. exfalso.
  destruct (f_u32 O _) as [q|e'|] eqn:E; cbn [bind] in H; try discriminate; [|exact (UT _ _ E)]. pose proof (U _ _ E) as Q.
  destruct (solve_cases (fst (fst (frame r0 r1 cw))) (lam2 r0 r1) (nd_time (semi r0 r1) mu tof) q mr Q M) as [[xs [its [n [S _]]]]|[S _]]; rewrite S in H; discriminate H.
Qed.
Lemma lambert_entries r0 r1 tof mu cw mr L dx di : u32_ok -> 0 <= mr < u32 -> lambert O r0 r1 tof mu cw mr = Ret L ->
  let T := nd_time (l_s L) mu tof in
  (exists g, householder O (l_lambda L) T g 0 (f_lit O 1 100000) 15 = Ret (nth 0 (l_x L) dx, nth 0 (l_iters L) di)) /\
  (l_nmax L + 1 < u32 -> forall k, 1 <= k <= 2 * l_nmax L -> exists g, householder O (l_lambda L) T g ((k + 1) / 2) (f_lit O 1 100000000) 15 = Ret (nth (Z.to_nat k) (l_x L) dx, nth (Z.to_nat k) (l_iters L) di)) /\
  (l_nmax L + 1 = u32 -> forall k, 1 <= k <= 2 * l_nmax L -> nth (Z.to_nat k) (l_x L) dx = nat_ O 0 /\ nth (Z.to_nat k) (l_iters L) di = 0).
Proof.
  intros U M H. rewrite lambert_eq in H. destruct (f_le O tof _); [discriminate|]. destruct (f_le O mu _); [discriminate|]. destruct (f_eq O _ _); [discriminate|].
  destruct (f_u32 O _) as [q| |] eqn:E; cbn [bind] in H; try discriminate. pose proof (U _ _ E) as Q.
  destruct (solve _ _ _ q mr) as [[[xs its] n]| |] eqn:S; cbn [bind fst snd] in H; try discriminate. injection H as <-. cbn [l_s l_nmax l_v0 l_v1 l_x l_iters l_lambda].
  destruct (solve_entries _ _ _ _ _ _ _ _ dx di Q M S) as [A [B C]]. split; [eexists; exact A|]. split; [|exact C].
  intros W k Hk. assert (D : k = 2 * ((k + 1) / 2) - 1 \/ k = 2 * ((k + 1) / 2)). { pose proof (Z.div_mod (k + 1) 2 ltac:(lia)). pose proof (Z.mod_pos_bound (k + 1) 2 ltac:(lia)). lia. }
  generalize dependent ((k + 1) / 2). intros i D. destruct (B W i ltac:(lia)) as [B1 B2]. destruct D as [->| ->]; eexists; [exact B1|exact B2].
Qed.
End Any.
Lemma halley_run {F} (O : arith F) lam Nmax x_old x_new T_min :
  (exists r, halley O lam 14 Nmax 0 x_old x_new T_min = Ret r /\ (0 <= snd r <= 13)%Z) \/ (halley O lam 14 Nmax 0 x_old x_new T_min = UB /\ exists x, x2tof O lam x Nmax = UB).
Proof. apply halley_cases; [lia|reflexivity]. Qed.
