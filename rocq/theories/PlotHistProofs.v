(** * add_sf_hf_leg on the history of a leg *)
From Coq Require Import ZArith List Lia.
From Flocq Require Import Core.Core IEEE754.BinarySingleNaN.
From Verif Require Import Outcome StateMonad Float64 LegModel HfModel HfSpec HistModel HistSpec HistProofs HfHistProofs LegPropProofs PlotLegModel PlotLegSpec PlotLegProofs.
Import ListNotations.
Open Scope Z_scope.

Lemma hf_plot_reachable ig integ var_ic rvms th rvmf tof T isp mu cut tol l es l' g units len show : grid_dim ig -> integ_dim integ ->
  length rvms = 7%nat -> length rvmf = 7%nat -> short th ->
  hf_ctor var_ic rvms th rvmf tof T isp mu cut tol = Ret l ->
  Forall (ev_ok hop_ok) es -> sets_return integ es l -> hf_run integ es l = Ret l' ->
  2 <= hf_n l' -> 2 <= g -> g * hf_n l' < 2 ^ 32 ->
  let n := Z.to_nat (hf_n l') in let nf := Z.to_nat (hf_nf l') in let N := Z.to_nat g in
  match snd (get_state_history ig g l') with
  | Ret h => records_ok double h n N /\ exists f b, add_sf_hf_leg double ddiv dadd dmul h (hf_thr l') n nf N units len show = Ret (f, b) /\
      fst f = concat (map (seg_pos double ddiv h N units) (seq 0 nf)) /\
      fst b = concat (map (fun i => seg_pos double ddiv h N units (n - 1 - i)%nat) (seq 0 (n - nf))) /\
      (forall i a, nth_error (snd f) i = Some a -> arrows_at double ddiv dadd dmul h (hf_thr l') N units len i i a) /\
      (forall i a, nth_error (snd b) i = Some a -> arrows_at double ddiv dadd dmul h (hf_thr l') N units len (n - 1 - i)%nat (nf + i)%nat a)
  | Throw e => e = DomainError
  | UB => False
  end.
Proof.
  intros D Di H1 H2 H3 H4 He Hs Hr N2 G2 GN n nf N.
  pose proof (history_reachable ig integ var_ic rvms th rvmf tof T isp mu cut tol l es l' g D Di H1 H2 H3 H4 He Hs Hr N2 G2 GN) as Sh.
  destruct (hf_ctor_wf _ _ _ _ _ _ _ _ _ _ _ H1 H2 H3 H4) as (W & [S1 [S2 S3]] & _).
  destruct (run_inv integ Di hop_ok _ _ _ (fun o x => x) es l l' He W S1 (ex_intro _ _ S3) Hs Hr) as (W' & _ & _).
  destruct (snd (get_state_history ig g l')) as [h| |]; [|exact Sh|exact Sh]. destruct Sh as [Lh Fh].
  assert (Rk : records_ok double h n N).
  { split; [unfold n, lenZ in *; lia|]. eapply Forall_impl; [|exact Fh]. intros r Hr'. cbv beta in Hr'. unfold N, lenZ in *. lia. }
  split; [exact Rk|]. pose proof (w_thr _ W') as Wt. pose proof (w_nf _ W') as Wf.
  destruct (hf_drawn double ddiv dadd dmul h (hf_thr l') n nf N units len show Rk ltac:(unfold n, nf; lia) ltac:(unfold n; lia)) as [f [b [E [A [B [_ [_ [C Q]]]]]]]].
  exists f, b. split; [exact E|]. split; [exact A|]. split; [exact B|]. split; [exact C|exact Q].
Qed.
