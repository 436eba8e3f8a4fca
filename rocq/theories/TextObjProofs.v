(** * Proofs about the texts of legs, Lambert problems and planets *)
From Coq Require Import ZArith Reals List String Ascii Bool Lia Lra.
From Coq Require Import DecimalString DecimalPos DecimalZ.
From Flocq Require Import IEEE754.BinarySingleNaN.
From Verif Require Import Outcome Float64 PartialReal Vec3 TextModel TextSpec TextProofs FloatVecModel LegModel LegSpec HfModel HfSpec HfHistProofs TextObjModel.
Import ListNotations.
Open Scope string_scope.
Open Scope Z_scope.

(** ** pieces of a text *)
Lemma app_assoc_s (a b c : string) : (a ++ b ++ c)%string = ((a ++ b) ++ c)%string. Proof. induction a as [|x a IH]; [reflexivity|]. cbn. rewrite IH. reflexivity. Qed.
Lemma app_nil_s (a : string) : (a ++ "")%string = a. Proof. induction a as [|x a IH]; [reflexivity|]. cbn. rewrite IH. reflexivity. Qed.
Lemma has_app_r p s t : has p s -> has p (t ++ s). Proof. intros [a [b ->]]. exists (t ++ a), b. apply app_assoc_s. Qed.
Lemma has_app_l p s t : has p s -> has p (s ++ t). Proof. intros [a [b ->]]. exists a, (b ++ t). rewrite <- !app_assoc_s. reflexivity. Qed.
Lemma render_has l a b : In (a, b) l -> has (a ++ b ++ nl) (render l).
Proof.
  induction l as [|[c d] l IH]; intros H; [destruct H|]. destruct H as [H|H].
  - injection H as -> ->. exists "", (render l). cbn [render append]. rewrite <- !app_assoc_s. reflexivity.
  - cbn [render]. apply has_app_r, has_app_r, has_app_r, IH, H.
Qed.
Lemma bind_ret {A B} (x : outcome A) (f : A -> outcome B) b : bind x f = Ret b -> exists a, x = Ret a /\ f a = Ret b.
Proof. destruct x as [a| |]; cbn; intros H; try discriminate. exists a. split; [reflexivity|exact H]. Qed.

Lemma ret_eq {A} (a b : A) : Ret a = Ret b -> a = b. Proof. intros H. injection H as ->. reflexivity. Qed.

(** ** a faithful format of the integers and of the doubles *)
Lemma uint_chars u c : In c (L (NilEmpty.string_of_uint u)) -> In c number_chars.
Proof. induction u; cbn [NilEmpty.string_of_uint list_ascii_of_string In]; [intros []|..]; (intros [<-|H]; [vm_compute; tauto|auto]). Qed.
Lemma zuint_chars u c : In c (L (NilZero.string_of_uint u)) -> In c number_chars.
Proof. destruct u; try apply uint_chars. intros [<-|[]]. vm_compute. tauto. Qed.
Lemma zint_chars u c : In c (L (NilZero.string_of_int u)) -> In c number_chars.
Proof. destruct u as [u|u]; [apply zuint_chars|]. intros [<-|H]; [vm_compute; tauto|exact (zuint_chars _ _ H)]. Qed.
Definition dec_z (z : Z) : string := NilZero.string_of_int (Z.to_int z).
Lemma dec_z_inj a b : dec_z a = dec_z b -> a = b.
Proof.
  unfold dec_z. intros H. apply (f_equal NilZero.int_of_string) in H.
  assert (P : forall z, Z.to_int z <> Decimal.Pos Decimal.Nil /\ Z.to_int z <> Decimal.Neg Decimal.Nil).
  { intros z. destruct z as [|p|p]; cbn; (split; [|]); try discriminate; intros X; injection X as X; exact (DecimalPos.Unsigned.to_uint_nonnil p X). }
  rewrite !NilZero.isi in H by apply P. assert (X : Z.to_int a = Z.to_int b) by congruence. apply (f_equal Z.of_int) in X. rewrite !DecimalZ.of_to in X. exact X.
Qed.
Lemma dec_z_ne z : dec_z z <> EmptyString.
Proof. unfold dec_z. destruct (Z.to_int z) as [u|u]; cbn; [|discriminate]. destruct u; discriminate. Qed.
Lemma dec_z_faithful : faithful dec_z.
Proof. split; [|exact dec_z_inj]. intros z. split; [apply dec_z_ne|]. intros c. apply zint_chars. Qed.
Lemma uint_no_e u : ~ In "e"%char (L (NilEmpty.string_of_uint u)).
Proof. induction u; cbn [NilEmpty.string_of_uint list_ascii_of_string In]; [tauto|..]; (intros [X|H]; [discriminate X|auto]). Qed.
Lemma dec_no_e z : ~ In "e"%char (L (dec_z z)).
Proof.
  assert (P : forall u, ~ In "e"%char (L (NilZero.string_of_uint u))). { intros u. destruct u; try apply uint_no_e. intros [X|[]]. discriminate X. }
  unfold dec_z. destruct (Z.to_int z) as [u|u]; [apply P|]. intros [X|H]; [discriminate X|exact (P _ H)].
Qed.
Definition dec_d (x : double) : string :=
  match x with
  | B754_zero false => "0" | B754_zero true => "-0" | B754_infinity false => "inf" | B754_infinity true => "-inf" | B754_nan => "nan"
  | B754_finite s m e _ => dec_z (if s then Z.neg m else Z.pos m) ++ "e" ++ dec_z e
  end.
Lemma fin_e m e : In "e"%char (L (dec_z m ++ "e" ++ dec_z e)). Proof. rewrite L_app, in_app_iff. right. left. reflexivity. Qed.
Lemma dec_d_faithful : faithful dec_d.
Proof.
  split.
  - intros [[]|[]| |s m e H]; cbn [dec_d]; try (split; [discriminate|intros c X; cbn in X; repeat (destruct X as [<-|X]; [vm_compute; tauto|]); destruct X]).
    split; [destruct (dec_z _); discriminate|]. intros c. rewrite !L_app, !in_app_iff. intros [X|[X|X]]; [exact (zint_chars _ _ X)| |exact (zint_chars _ _ X)]. destruct X as [<-|[]]. vm_compute. tauto.
  - assert (NE : forall m e t, ~ In "e"%char (L t) -> dec_z m ++ "e" ++ dec_z e <> t). { intros m e t N X. apply N. rewrite <- X. apply fin_e. }
    intros [[]|[]| |s m e H] [[]|[]| |s' m' e' H']; cbn [dec_d]; intros X; try reflexivity; try discriminate X;
    try (exfalso; revert X; apply NE; cbn; intuition discriminate); try (exfalso; symmetry in X; revert X; apply NE; cbn; intuition discriminate).
    apply (f_equal L) in X. rewrite !L_app in X. cbn [list_ascii_of_string app] in X. apply split_first in X; [|apply dec_no_e|apply dec_no_e]. destruct X as [X Y]. apply L_inj, dec_z_inj in X, Y. subst e'.
    apply B2SF_inj. cbn [B2SF]. destruct s, s'; try discriminate X; injection X as <-; reflexivity.
Qed.

(** ** legs *)
Section Legs.
Variable show : double -> string.
Variable show_n : Z -> string.
Hypothesis Fd : faithful show.
Hypothesis Fn : faithful show_n.
Lemma con_len th n : 0 <= n -> 3 * n <= Z.of_nat (List.length th) ->
  throttle_con_d th n = Ret (map (fun j => throttle_residual (seg_throttle th (Z.of_nat j))) (seq 0 (Z.to_nat n))).
Proof. intros N H. unfold throttle_con_d. rewrite throttle_con_ok by lia. reflexivity. Qed.
Lemma sf_determines mism l l' s : sf_text show show_n mism l = Ret s -> sf_text show show_n mism l' = Ret s -> l' = up_cut (sf_cut l') l.
Proof.
  unfold sf_text. intros H H'. apply bind_ret in H, H'. destruct H as [m [_ H]]. destruct H' as [m' [_ H']]. apply bind_ret in H, H'. destruct H as [t [_ H]]. destruct H' as [t' [_ H']].
  assert (E : forall a b : string, Ret a = Ret b -> a = b) by (intros a b X; injection X as ->; reflexivity). apply E in H, H'. rewrite <- H in H'. apply (sf_inj show Fd show_n Fn) in H'. destruct l as [a b c d e f g h i j k o p], l' as [a' b' c' d' e' f' g' h' i' j' k' o' p'].
  cbn [sf_rvs LegModel.sf_ms sf_thr sf_rvf LegModel.sf_mf LegModel.sf_tof sf_T LegModel.sf_isp LegModel.sf_mu sf_cut sf_n sf_nf sf_nb] in *. destruct H' as [A [B C]]. unfold up_cut. cbn. congruence.
Qed.
Lemma hf_determines l l' s : hf_wf l -> hf_wf l' -> hf_text show show_n l = Ret s -> hf_text show show_n l' = Ret s ->
  (hf_rvms l, hf_thr l, hf_rvmf l, hf_tof l, hf_T l, hf_isp l, hf_mu l, hf_n l, hf_nf l, hf_nb l) = (hf_rvms l', hf_thr l', hf_rvmf l', hf_tof l', hf_T l', hf_isp l', hf_mu l', hf_n l', hf_nf l', hf_nb l').
Proof.
  unfold hf_text. intros W W' H H'. apply bind_ret in H, H'. destruct H as [t [_ H]]. destruct H' as [t' [_ H']].
  assert (E : forall a b : string, Ret a = Ret b -> a = b) by (intros a b X; injection X as ->; reflexivity). apply E in H, H'. rewrite <- H' in H. apply (hf_inj show Fd show_n Fn) in H. destruct H as [A [B C]].
  assert (S : forall x y : list double, List.length x = 7%nat -> List.length y = 7%nat -> firstn 6 x = firstn 6 y -> nth 6 x dzero = nth 6 y dzero -> x = y).
  { intros x y X Y. do 8 (destruct x as [|? x]; cbn in X; try discriminate X). do 8 (destruct y as [|? y]; cbn in Y; try discriminate Y). cbn [firstn nth]. intros P Q. injection P as -> -> -> -> -> ->. rewrite Q. reflexivity. }
  assert (C1 : firstn 6 (hf_rvms l) = firstn 6 (hf_rvms l')) by congruence. assert (C2 : firstn 6 (hf_rvmf l) = firstn 6 (hf_rvmf l')) by congruence.
  assert (B1 : nth 6 (hf_rvms l) dzero = nth 6 (hf_rvms l') dzero) by congruence. assert (B2 : nth 6 (hf_rvmf l) dzero = nth 6 (hf_rvmf l') dzero) by congruence.
  rewrite (S _ _ (w_rvms l W) (w_rvms l' W') C1 B1), (S _ _ (w_rvmf l W) (w_rvmf l' W') C2 B2). congruence.
Qed.
(** what is printed *)
Lemma sf_prints mism l : valid_leg l ->
  ((exists s, sf_text show show_n mism l = Ret s) <-> exists m, mism l = Ret m) /\
  forall s, sf_text show show_n mism l = Ret s -> exists m, mism l = Ret m /\
    has ("Number of segments: " ++ show_n (sf_n l) ++ nl) s /\ has ("Number of fwd segments: " ++ show_n (sf_nf l) ++ nl) s /\ has ("Number of bck segments: " ++ show_n (sf_nb l) ++ nl) s /\
    has ("Maximum thrust: " ++ show (sf_T l) ++ nl) s /\ has ("Central body gravitational parameter: " ++ show (LegModel.sf_mu l) ++ nl) s /\ has ("Specific impulse: " ++ show (LegModel.sf_isp l) ++ nl) s /\
    has ("Time of flight: " ++ show (LegModel.sf_tof l) ++ nl) s /\ has ("Initial mass: " ++ show (LegModel.sf_ms l) ++ nl) s /\ has ("Final mass: " ++ show (LegModel.sf_mf l) ++ nl) s /\
    has ("State at departure: " ++ show_rv show (sf_rvs l) ++ nl) s /\ has ("State at arrival: " ++ show_rv show (sf_rvf l) ++ nl) s /\ has ("Throttles values: " ++ show_list show (sf_thr l) ++ nl) s /\
    has ("Mismatch constraints: " ++ show_list show m ++ nl) s /\
    has ("Throttle constraints: " ++ show_list show (map (fun j => throttle_residual (seg_throttle (sf_thr l) (Z.of_nat j))) (seq 0 (Z.to_nat (sf_n l)))) ++ nl) s.
Proof.
  intros W. unfold sf_text. rewrite con_len; [|destruct (v_nseg l W); lia|rewrite (v_len l W); lia]. destruct (mism l) as [m|e|]; cbn [bind]; [|split; [split; intros [x X]; discriminate X|intros s X; discriminate X]..].
  split; [split; intros _; eexists; reflexivity|]. intros s E. apply ret_eq in E. subst s. exists m. split; [reflexivity|]. repeat match goal with |- _ /\ _ => split end; apply render_has; cbn [sf_lines In]; tauto.
Qed.
Lemma hf_prints l : hf_wf l -> exists s, hf_text show show_n l = Ret s /\
    has ("Number of segments: " ++ show_n (hf_n l) ++ nl) s /\ has ("Number of fwd segments: " ++ show_n (hf_nf l) ++ nl) s /\ has ("Number of bck segments: " ++ show_n (hf_nb l) ++ nl) s /\
    has ("Maximum thrust: " ++ show (hf_T l) ++ nl) s /\ has ("Central body gravitational parameter: " ++ show (hf_mu l) ++ nl) s /\ has ("Specific impulse: " ++ show (hf_isp l) ++ nl) s /\
    has ("Time of flight: " ++ show (hf_tof l) ++ nl) s /\ has ("Initial mass: " ++ show (nth 6 (hf_rvms l) dzero) ++ nl) s /\ has ("Final mass: " ++ show (nth 6 (hf_rvmf l) dzero) ++ nl) s /\
    has ("State at departure: " ++ show_rv show (firstn 6 (hf_rvms l)) ++ nl) s /\ has ("State at arrival: " ++ show_rv show (firstn 6 (hf_rvmf l)) ++ nl) s /\ has ("Throttles values: " ++ show_list show (hf_thr l) ++ nl) s /\
    has ("Throttle constraints: " ++ show_list show (map (fun j => throttle_residual (seg_throttle (hf_thr l) (Z.of_nat j))) (seq 0 (Z.to_nat (hf_n l)))) ++ nl) s.
Proof.
  intros W. unfold hf_text. rewrite con_len; [|destruct (w_n l W); lia|rewrite (w_thr l W); lia]. cbn [bind]. eexists. split; [reflexivity|]. repeat match goal with |- _ /\ _ => split end; apply render_has; cbn [hf_lines In]; tauto.
Qed.
End Legs.
