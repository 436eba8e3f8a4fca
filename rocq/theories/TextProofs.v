(** * Proofs about texts: a text determines the numbers in it *)
From Coq Require Import ZArith List String Ascii Bool Lia.
From Verif Require Import Outcome TextModel TextSpec.
Import ListNotations.
Open Scope string_scope.

Notation L := list_ascii_of_string.
Lemma L_app a b : L (a ++ b) = (L a ++ L b)%list. Proof. induction a as [|c a IH]; [reflexivity|]. cbn. rewrite IH. reflexivity. Qed.
Lemma L_inj a b : L a = L b -> a = b. Proof. intros H. rewrite <- (string_of_list_ascii_of_string a), <- (string_of_list_ascii_of_string b), H. reflexivity. Qed.
Lemma split_first {A} (c : A) a b s t : ~ In c a -> ~ In c b -> (a ++ c :: s = b ++ c :: t)%list -> a = b /\ s = t.
Proof.
  revert b. induction a as [|x a IH]; intros [|y b] Ha Hb H; cbn in *.
  - injection H as ->. split; reflexivity.
  - injection H as -> _. tauto.
  - injection H as -> _. tauto.
  - injection H as -> H. destruct (IH b) as [-> ->]; tauto || (split; reflexivity).
Qed.
Lemma app_same a b c : (a ++ b)%string = (a ++ c)%string -> b = c.
Proof. induction a as [|x a IH]; cbn; intros H; [exact H|]. injection H as H. apply IH, H. Qed.

Definition nlc : ascii := "010"%char.
Definition ok_line (l : line) : Prop := ~ has_char nlc (fst l) /\ ~ has_char nlc (snd l).
Lemma render_inj l m : map fst l = map fst m -> (forall x, In x l -> ok_line x) -> (forall x, In x m -> ok_line x) -> render l = render m -> map snd l = map snd m.
Proof.
  revert m. induction l as [|[a b] l IH]; intros [|[a' b'] m] E Hl Hm H; try discriminate; [reflexivity|]. cbn [map fst snd] in *. injection E as -> E.
  cbn [render] in H. apply (f_equal L) in H. rewrite !L_app in H. cbn [nl list_ascii_of_string app] in H. rewrite !(app_assoc (L a')) in H.
  destruct (Hl (a', b) ltac:(left; reflexivity)) as [N1 N2]. destruct (Hm (a', b') ltac:(left; reflexivity)) as [_ N3]. cbn [fst snd] in *.
  apply split_first in H; [|rewrite in_app_iff; unfold has_char in *; tauto|rewrite in_app_iff; unfold has_char in *; tauto]. destruct H as [H1 H2].
  apply app_inv_head in H1. apply L_inj in H1. subst b'. f_equal. apply IH; [exact E| | |apply L_inj, H2]; intros x Hx; [apply Hl|apply Hm]; right; exact Hx.
Qed.

Definition special (c : ascii) : Prop := ~ In c number_chars.
Lemma spec_nl : special nlc. Proof. intros H. vm_compute in H. intuition discriminate. Qed.
Lemma spec_comma : special ","%char. Proof. intros H. vm_compute in H. intuition discriminate. Qed.
Lemma spec_close : special "]"%char. Proof. intros H. vm_compute in H. intuition discriminate. Qed.
Lemma spec_x : special "x"%char. Proof. intros H. vm_compute in H. intuition discriminate. Qed.
Lemma text_no c s : special c -> number_text s -> ~ has_char c s. Proof. intros S [_ N] H. exact (S (N c H)). Qed.

Section Show.
Context {D : Type} (show : D -> string) (F : faithful show).
Lemma show_no c a : special c -> ~ has_char c (show a). Proof. intros S. apply text_no; [exact S|apply F]. Qed.
Lemma show_cons a : exists c r, L (show a) = c :: r.
Proof. destruct (proj1 F a) as [N _]. destruct (show a) as [|c r]; [contradiction|]. exists c, (L r). reflexivity. Qed.
Lemma commas_cons a b l : commas (map show (a :: b :: l)) = show a ++ ", " ++ commas (map show (b :: l)). Proof. reflexivity. Qed.
Lemma commas_no c l : special c -> c <> ","%char -> c <> " "%char -> ~ has_char c (commas (map show l)).
Proof.
  intros S N1 N2. induction l as [|a [|b l] IH]; [intros []|apply show_no, S|]. rewrite commas_cons. unfold has_char in *. rewrite !L_app, !in_app_iff. cbn [list_ascii_of_string In].
  intros [H|[[H|[H|[]]]|H]]; [exact (show_no c a S H)|congruence|congruence|exact (IH H)].
Qed.
Lemma commas_inj l m : commas (map show l) = commas (map show m) -> l = m.
Proof.
  revert m. induction l as [|a [|b l] IH]; intros [|a' [|b' m]] H.
  - reflexivity.
  - apply (f_equal L) in H. destruct (show_cons a') as [c [r E]]. cbn [map commas] in H. rewrite E in H. discriminate.
  - apply (f_equal L) in H. destruct (show_cons a') as [c [r E]]. rewrite commas_cons, L_app, E in H. discriminate.
  - apply (f_equal L) in H. destruct (show_cons a) as [c [r E]]. cbn [map commas] in H. rewrite E in H. discriminate.
  - f_equal. apply (proj2 F). exact H.
  - exfalso. apply (show_no ","%char a spec_comma). unfold has_char. cbn [map commas] in H. change (show a = commas (map show (a' :: b' :: m))) in H. rewrite H, commas_cons, L_app, in_app_iff. right. left. reflexivity.
  - apply (f_equal L) in H. destruct (show_cons a) as [c [r E]]. rewrite commas_cons, L_app, E in H. discriminate.
  - exfalso. apply (show_no ","%char a' spec_comma). unfold has_char. change (commas (map show [a'])) with (show a') in H. rewrite <- H, commas_cons, L_app, in_app_iff. right. left. reflexivity.
  - rewrite !commas_cons in H. apply (f_equal L) in H. rewrite !L_app in H. cbn [list_ascii_of_string app] in H.
    apply split_first in H; [|exact (show_no _ a spec_comma)|exact (show_no _ a' spec_comma)]. destruct H as [H1 H2]. injection H2 as H2. apply L_inj in H1, H2. apply (proj2 F) in H1. subst a'. f_equal. apply IH, H2.
Qed.
Lemma list_inj l m : show_list show l = show_list show m -> l = m.
Proof.
  unfold show_list. intros H. apply (app_same "[") in H. apply (f_equal L) in H. rewrite !L_app in H. cbn [list_ascii_of_string] in H.
  apply split_first in H; [|apply commas_no; [exact spec_close|discriminate|discriminate]|apply commas_no; [exact spec_close|discriminate|discriminate]]. destruct H as [H _]. apply commas_inj, L_inj, H.
Qed.
Lemma list_no_nl l : ~ has_char nlc (show_list show l).
Proof. unfold show_list, has_char. rewrite !L_app, !in_app_iff. cbn [list_ascii_of_string In]. intros [[H|[]]|[H|[H|[]]]]; [discriminate| |discriminate]. revert H. apply commas_no; [exact spec_nl|discriminate|discriminate]. Qed.
Lemma rv_inj l m : show_rv show l = show_rv show m -> l = m.
Proof.
  unfold show_rv. intros H. rewrite <- (firstn_skipn 3 l), <- (firstn_skipn 3 m). revert H. generalize (firstn 3 l) (skipn 3 l) (firstn 3 m) (skipn 3 m). clear l m. intros l1 l2 m1 m2 H. unfold show_list in H. apply (app_same "[") in H. apply (f_equal L) in H. rewrite !L_app in H. cbn [list_ascii_of_string app] in H. injection H as H. rewrite <- !app_assoc in H. cbn [app] in H.
  assert (NC : forall k, ~ In "]"%char (L (commas (map show k)))) by (intros k; apply commas_no; [exact spec_close|discriminate|discriminate]).
  apply split_first in H; [|apply NC|apply NC]. destruct H as [H1 H2]. injection H2 as H2. apply split_first in H2; [|apply NC|apply NC]. destruct H2 as [H2 _].
  apply L_inj, commas_inj in H1. apply L_inj, commas_inj in H2. rewrite H1, H2. reflexivity.
Qed.
Lemma rv_no_nl l : ~ has_char nlc (show_rv show l).
Proof. unfold show_rv, has_char. rewrite !L_app, !in_app_iff. cbn [list_ascii_of_string In]. intros [[H|[]]|[H|[[H|[H|[]]]|[H|[H|[]]]]]]; try discriminate; revert H; apply list_no_nl. Qed.
Variable show_n : Z -> string.
Hypothesis Fn : faithful show_n.
Lemma n_no_nl n : ~ has_char nlc (show_n n). Proof. apply text_no; [exact spec_nl|apply Fn]. Qed.
Lemma lab_ok s : forallb (fun c => negb (Ascii.eqb c nlc)) (L s) = true -> ~ has_char nlc s.
Proof. intros H I. rewrite forallb_forall in H. specialize (H _ I). rewrite Ascii.eqb_refl in H. discriminate. Qed.
Lemma cons_eq {A} (a b : A) l m : a :: l = b :: m -> a = b /\ l = m. Proof. intros H. injection H as -> ->. split; reflexivity. Qed.
Ltac uncons H := repeat match type of H with _ :: _ = _ :: _ => let A := fresh "A" in apply cons_eq in H; destruct H as [A H] end.
Ltac lines_ok := let x := fresh in let Hx := fresh in intros x Hx; cbn [In] in Hx; repeat (destruct Hx as [<-|Hx]; [split; cbn [fst snd]; [apply lab_ok; reflexivity|first [apply n_no_nl|apply show_no; exact spec_nl|apply rv_no_nl|apply list_no_nl|apply lab_ok; reflexivity]]|]); destruct Hx.
Theorem sf_inj n nf nb T mu isp tof ms mf rvs rvf thr mi tc n' nf' nb' T' mu' isp' tof' ms' mf' rvs' rvf' thr' mi' tc' :
  render (sf_lines show show_n n nf nb T mu isp tof ms mf rvs rvf thr mi tc) = render (sf_lines show show_n n' nf' nb' T' mu' isp' tof' ms' mf' rvs' rvf' thr' mi' tc') ->
  (n, nf, nb) = (n', nf', nb') /\ (T, mu, isp, tof, ms, mf) = (T', mu', isp', tof', ms', mf') /\ (rvs, rvf, thr, mi, tc) = (rvs', rvf', thr', mi', tc').
Proof.
  intros H. apply render_inj in H; [|reflexivity|lines_ok|lines_ok]. unfold sf_lines in H. cbn [map snd] in H. uncons H.
  repeat match goal with A : show_n _ = show_n _ |- _ => apply (proj2 Fn) in A | A : show _ = show _ |- _ => apply (proj2 F) in A | A : show_rv _ _ = show_rv _ _ |- _ => apply rv_inj in A | A : show_list _ _ = show_list _ _ |- _ => apply list_inj in A end. subst. repeat split; reflexivity.
Qed.
Theorem hf_inj n nf nb T mu isp tof ms mf rvs rvf thr tc n' nf' nb' T' mu' isp' tof' ms' mf' rvs' rvf' thr' tc' :
  render (hf_lines show show_n n nf nb T mu isp tof ms mf rvs rvf thr tc) = render (hf_lines show show_n n' nf' nb' T' mu' isp' tof' ms' mf' rvs' rvf' thr' tc') ->
  (n, nf, nb) = (n', nf', nb') /\ (T, mu, isp, tof, ms, mf) = (T', mu', isp', tof', ms', mf') /\ (rvs, rvf, thr, tc) = (rvs', rvf', thr', tc').
Proof.
  intros H. apply render_inj in H; [|reflexivity|lines_ok|lines_ok]. unfold hf_lines in H. cbn [map snd] in H. uncons H.
  repeat match goal with A : show_n _ = show_n _ |- _ => apply (proj2 Fn) in A | A : show _ = show _ |- _ => apply (proj2 F) in A | A : show_rv _ _ = show_rv _ _ |- _ => apply rv_inj in A | A : show_list _ _ = show_list _ _ |- _ => apply list_inj in A end. subst. repeat split; reflexivity.
Qed.
Theorem stark_inj mu veff tol mu' veff' tol' : render (stark_lines show mu veff tol) = render (stark_lines show mu' veff' tol') -> mu = mu' /\ veff = veff' /\ tol = tol'.
Proof.
  intros H. apply render_inj in H; [|reflexivity|lines_ok|lines_ok]. unfold stark_lines in H. cbn [map snd] in H. uncons H. repeat match goal with A : show _ = show _ |- _ => apply (proj2 F) in A end. subst. repeat split; reflexivity.
Qed.
End Show.
