(** * Names of NAIF identifiers *)
From Coq Require Import ZArith String List Bool Lia.
From Verif Require Import NaifModel NaifSpec.
Import ListNotations.
Open Scope Z_scope. Open Scope list_scope.

Lemma get_set d k v k' : dict_get (dict_set d k v) k' = if k' =? k then Some v else dict_get d k'.
Proof.
  induction d as [|[k1 v1] d IH]; cbn [dict_set dict_get]; [destruct (Z.eqb_spec k' k); reflexivity|].
  destruct (Z.eqb_spec k k1) as [->|N]; cbn [dict_get]; [destruct (Z.eqb_spec k' k1); reflexivity|]. destruct (Z.eqb_spec k' k1) as [->|N1].
  - destruct (Z.eqb_spec k1 k); [congruence|reflexivity].
  - exact IH.
Qed.
Lemma dict_app l e : dict_of (l ++ [e]) = dict_set (dict_of l) (fst e) (snd e).
Proof. unfold dict_of. rewrite fold_left_app. reflexivity. Qed.
Lemma dict_last l k n : dict_get (dict_of l) k = Some n <-> last_listed l k n.
Proof.
  induction l as [|[k1 v1] l IH] using rev_ind.
  - split; [discriminate|]. intros [a [b [E _]]]. destruct a; discriminate.
  - rewrite dict_app, get_set. cbn [fst snd]. destruct (Z.eqb_spec k k1) as [->|N].
    + split.
      * intros H. injection H as <-. exists l, []. split; [reflexivity|intros []].
      * intros [a [b [E H]]]. destruct b as [|e b _] using rev_ind; [apply app_inj_tail in E; destruct E as [_ E]; congruence|]. rewrite app_comm_cons, app_assoc in E. apply app_inj_tail in E. destruct E as [_ <-]. exfalso. apply H. rewrite map_app. apply in_or_app. right. left. reflexivity.
    + rewrite IH. split; intros [a [b [E H]]].
      * exists a, (b ++ [(k1, v1)])%list. split; [rewrite E, <- app_assoc; reflexivity|]. rewrite map_app. intros I. apply in_app_or in I. destruct I as [I|[I|[]]]; [exact (H I)|]. cbn in I. congruence.
      * destruct b as [|e b _] using rev_ind; [apply app_inj_tail in E; destruct E as [_ E]; congruence|]. rewrite app_comm_cons, app_assoc in E. apply app_inj_tail in E. destruct E as [-> <-]. exists a, b. split; [reflexivity|]. intros I. apply H. rewrite map_app. apply in_or_app. left. exact I.
Qed.
Lemma dict_none l k : dict_get (dict_of l) k = None <-> ~ In k (map fst l).
Proof.
  induction l as [|[k1 v1] l IH] using rev_ind; [split; [intros _ []|reflexivity]|]. rewrite dict_app, get_set, map_app. cbn [fst snd map]. destruct (Z.eqb_spec k k1) as [->|N].
  - split; [discriminate|]. intros H. exfalso. apply H. apply in_or_app. right. left. reflexivity.
  - rewrite IH. split; intros H I; apply H; [apply in_app_or in I; destruct I as [I|[I|[]]]; [exact I|congruence]|apply in_or_app; left; exact I].
Qed.

(** facts about the table, by computation *)
Definition functional (l : list (Z * string)) : bool := forallb (fun e => forallb (fun f => implb (String.eqb (snd e) (snd f)) (fst e =? fst f)) l) l.
Lemma names_functional : functional naif_entries = true. Proof. vm_compute. reflexivity. Qed.
Lemma names_found : forallb (fun e => negb (String.eqb (snd e) "Not Found")) naif_entries = true. Proof. vm_compute. reflexivity. Qed.
Lemma name_one_id id id' n : In (id, n) naif_entries -> In (id', n) naif_entries -> id = id'.
Proof.
  intros I I'. pose proof names_functional as F. unfold functional in F. rewrite forallb_forall in F. specialize (F _ I). rewrite forallb_forall in F. specialize (F _ I'). cbn [fst snd] in F. rewrite String.eqb_refl in F. apply Z.eqb_eq. exact F.
Qed.
Lemma not_listed id : ~ In (id, "Not Found"%string) naif_entries.
Proof. intros I. pose proof names_found as F. rewrite forallb_forall in F. specialize (F _ I). cbn [snd] in F. rewrite String.eqb_refl in F. discriminate. Qed.
Lemma last_in l k n : last_listed l k n -> In (k, n) l.
Proof. intros [a [b [-> _]]]. apply in_or_app. right. left. reflexivity. Qed.

Lemma listed_in k : listed k <-> In k (map fst naif_entries).
Proof. unfold listed. rewrite in_map_iff. split; [intros [n I]; exists (k, n); split; [reflexivity|exact I]|intros [[k' n] [E I]]; cbn in E; subst k'; exists n; exact I]. Qed.
Theorem name_known id : listed id -> last_listed naif_entries id (naifid2name id).
Proof.
  intros I. rewrite listed_in in I. unfold naifid2name. destruct (dict_get naif_dict id) as [n|] eqn:E; [apply dict_last; exact E|]. apply dict_none in E. contradiction.
Qed.
Theorem name_unknown id : naifid2name id = "Not Found"%string <-> ~ listed id.
Proof.
  split.
  - intros E I. apply (not_listed id). rewrite <- E. apply last_in, name_known, I.
  - intros N. rewrite listed_in in N. unfold naifid2name. rewrite (proj2 (dict_none naif_entries id) N : dict_get naif_dict id = None). reflexivity.
Qed.
Theorem name_injective id id' : listed id -> naifid2name id = naifid2name id' -> id = id'.
Proof.
  intros I E. assert (I' : listed id').
  { destruct (in_dec Z.eq_dec id' (map fst naif_entries)) as [H|H]; [apply listed_in; exact H|]. rewrite <- listed_in in H. apply name_unknown in H. rewrite H in E. apply name_unknown in E. contradiction. }
  apply (name_one_id id id' (naifid2name id)); [apply last_in, name_known, I|]. rewrite E. apply last_in, name_known, I'.
Qed.
Theorem id_round_trip bodn2c id : knows bodn2c -> listed id -> name2naifid bodn2c (naifid2name id) = Some id.
Proof. intros K I. apply K, last_in, name_known, I. Qed.
Fixpoint lookup_name (l : list (Z * string)) (n : string) : option Z := match l with [] => None | (k, m) :: r => if String.eqb n m then Some k else lookup_name r n end.
Lemma knows_exists : exists bodn2c, knows bodn2c.
Proof.
  exists (lookup_name naif_entries). intros id n I. destruct (lookup_name naif_entries n) as [k|] eqn:E.
  - f_equal. apply (name_one_id k id n); [|exact I]. clear I. revert E. induction naif_entries as [|[k1 m] l IH]; cbn [lookup_name]; [discriminate|]. destruct (String.eqb_spec n m) as [->|N]; [intros H; injection H as ->; left; reflexivity|]. intros H. right. exact (IH H).
  - exfalso. revert I E. induction naif_entries as [|[k1 m] l IH]; [intros []|]. cbn [lookup_name]. intros [H|H]; [injection H as -> ->; rewrite String.eqb_refl; discriminate|]. destruct (String.eqb_spec n m); [discriminate|]. apply IH, H.
Qed.
Theorem name_shadowed : exists bodn2c id n, knows bodn2c /\ In (id, n) naif_entries /\ (forall id', naifid2name id' <> n) /\ name2naifid bodn2c n = Some id /\ naifid2name id <> n.
Proof.
  destruct knows_exists as [b K]. assert (I : In (-198, "INTEGRAL"%string) naif_entries) by (apply (nth_error_In naif_entries (let fix idx l i := match l with [] => i | e :: r => if (fst e =? -198) then i else idx r (S i) end in idx naif_entries 0%nat)); vm_compute; reflexivity).
  assert (Q : naifid2name (-198) = "NISAR"%string) by (vm_compute; reflexivity). exists b, (-198), "INTEGRAL"%string. split; [exact K|]. split; [exact I|]. split; [|split; [exact (K _ _ I)|rewrite Q; discriminate]].
  intros id' E. assert (I' : listed id').
  { destruct (in_dec Z.eq_dec id' (map fst naif_entries)) as [H|H]; [apply listed_in; exact H|]. rewrite <- listed_in in H. apply name_unknown in H. rewrite H in E. discriminate. }
  pose proof (last_in _ _ _ (name_known id' I')) as J. rewrite E in J. pose proof (name_one_id id' (-198) _ J I) as X. rewrite X, Q in E. discriminate.
Qed.

Lemma name_scheme : (forall k n, nth_error nine k = Some n ->
    naifid2name (Z.of_nat k + 1) = (n ++ " BARYCENTER")%string /\ naifid2name (100 * (Z.of_nat k + 1) + 99) = n) /\
  forall id, 0 < id < 1000 -> listed id -> id <= 10 \/ 1 <= id / 100 <= 9 /\ (1 <= id mod 100 <= 53 \/ id mod 100 = 99).
Proof.
  split.
  - intros k n H. do 9 (destruct k as [|k]; [injection H as <-; split; vm_compute; reflexivity|]). destruct k; discriminate.
  - intros id B [n I].
    set (ok := fun e : Z * string => let id := fst e in (id <=? 0) || (1000 <=? id) || (id <=? 10) || ((1 <=? id / 100) && (id / 100 <=? 9) && (((1 <=? id mod 100) && (id mod 100 <=? 53)) || (id mod 100 =? 99)))).
    assert (A : forallb ok naif_entries = true) by (vm_compute; reflexivity).
    rewrite forallb_forall in A. specialize (A _ I). unfold ok in A. cbn [fst] in A. lia.
Qed.
