(** * Every call, executed alone, terminates or blocks; consequences of refinement. *)
From stdpp Require Import list gmap.
From Verif Require Import Entities Search SpecSearch Repo Sem RepoWp SpecRepo ProofRepo.
Open Scope nat_scope.

Definition rev_step : thr * repo -> thr * repo -> Prop := fun b a => sstep a b.

Lemma TPut_acc k d :
  (forall s, Acc rev_step (TRun k, s)) -> forall n cs s, length (omap id cs) = n -> Acc rev_step (TPut cs d k, s).
Proof.
  intros Hk n. induction n as [n IH] using lt_wf_ind. intros cs s Hn. constructor. intros [t' s'] Hs.
  inversion Hs as [? ? ? ? Hst]; simplify_eq. inversion Hst; simplify_eq; [|apply Hk].
  eapply IH; [|reflexivity]. rename select (_ !! _ = _) into Hi. apply omap_id_insert in Hi. rewrite Hi. simpl. lia.
Qed.

Lemma TSearch_acc q e k :
  (forall r s, Acc rev_step (TRun (k r), s)) ->
  forall n cs r s, sum_list (sweight <$> cs) = n -> Acc rev_step (TSearch cs q e r k, s).
Proof.
  intros Hk n. induction n as [n IH] using lt_wf_ind. intros cs r s Hn. constructor. intros [t' s'] Hs.
  inversion Hs as [? ? ? ? Hst]; simplify_eq. inversion Hst; simplify_eq; try apply Hk;
    (eapply IH; [|reflexivity]; eapply sum_insert; [done|simpl; lia]).
Qed.

Theorem run_acc p s : Acc rev_step (TRun p, s).
Proof.
  revert s. induction p; intros st; constructor; intros [t' s'] Hs;
    inversion Hs as [? ? ? ? Hst]; simplify_eq; inversion Hst; simplify_eq; eauto.
  - constructor. intros [t2 s2] Hs2. inversion Hs2 as [? ? ? ? Hst2]; simplify_eq. inversion Hst2; simplify_eq; eauto.
  - by eapply TPut_acc.
  - by eapply TSearch_acc.
Qed.

Lemma step_or_stuck t s : finished t \/ (exists x, tstep s t x) \/ (~ finished t /\ forall x, ~ tstep s t x).
Proof.
  destruct t as [p|m k|cs d k|cs q e r k].
  - destruct p; try (by left); right;
      try (by left; eexists; econstructor).
    + destruct (rw_pending (get_mu m s)) eqn:E1.
      { right. split; [by intros []|]. intros x Hx. inversion Hx; simplify_eq; congruence. }
      destruct (rw_writer (get_mu m s)) eqn:E2.
      { right. split; [by intros []|]. intros x Hx. inversion Hx; simplify_eq; congruence. }
      left. eexists. by eapply S_RLock.
    + left. destruct (rw_readers (get_mu m s)) eqn:E; eexists; [by apply S_RUnlock_bad|by eapply S_RUnlock].
    + destruct (rw_pending (get_mu m s)) eqn:E1.
      { right. split; [by intros []|]. intros x Hx. inversion Hx; simplify_eq; congruence. }
      destruct (rw_writer (get_mu m s)) eqn:E2.
      { right. split; [by intros []|]. intros x Hx. inversion Hx; simplify_eq; congruence. }
      left. eexists. by eapply S_Announce.
    + left. destruct (rw_writer (get_mu m s)) eqn:E; eexists; [by eapply S_Unlock|by apply S_Unlock_bad].
    + left. eexists. apply (S_Append _ _ _ _ (S (sl_len s0))). lia.
    + left. destruct (i_search p q e (r_I s)) eqn:E; eexists; [by eapply S_IdxSearch|by eapply S_IdxSearch_panic].
  - destruct (rw_readers (get_mu m s)) eqn:E.
    + right; left. eexists. by apply S_Acquire.
    + do 2 right. split; [by intros []|]. intros x Hx. inversion Hx; simplify_eq; congruence.
  - right; left. destruct (omap id cs) as [|y l] eqn:E.
    + eexists. by apply S_PutWait, omap_id_None.
    + assert (y ∈ omap id cs) as Hx by (rewrite E; left).
      apply elem_of_list_omap in Hx as ([z|] & Hy & Hz); [|done]. simpl in Hz. simplify_eq.
      apply elem_of_list_lookup in Hy as [i Hi].
      destruct y as [p|]; eexists; [by eapply S_PutChild|by eapply S_PutChild_nil].
  - right; left. apply TSearch_progress.
Qed.

Lemma acc_outcome c : Acc rev_step c -> exists res, outcome_of c.1 c.2 res.
Proof.
  induction 1 as [[t s] _ IH]. simpl.
  destruct (step_or_stuck t s) as [Hf|[[[t' s'|] Hx]|[Hf Hb]]].
  - destruct t as [[]| | |]; try done; eexists; [by apply CR_done|by apply CR_panic].
  - destruct (IH (t', s')) as [res Hr]; [by constructor|]. exists res. by eapply outcome_step.
  - exists Crashed. by eapply CR_crash.
  - exists Blocked. by eapply CR_block.
Qed.

Theorem call_total c s : exists res, call_result c s res.
Proof. apply (acc_outcome (TRun (prog_of c), s)), run_acc. Qed.

(** ** The abstract machine moves deterministically *)
Lemma spec_det_done ckn tk c v b1 v1 b2 v2 :
  spec ckn tk c v (ODone b1 v1) -> spec ckn tk c v (ODone b2 v2) -> v1 = v2.
Proof.
  destruct c; simpl; repeat case_match; intros; try (by simplify_eq);
    unfold search_many in *; naive_solver.
Qed.
Lemma spec_det_panic ckn tk c v v1 v2 :
  spec ckn tk c v (OPanic v1) -> spec ckn tk c v (OPanic v2) -> v1 = v2.
Proof.
  destruct c; simpl; repeat case_match; intros; try (by simplify_eq);
    unfold search_many in *; naive_solver.
Qed.
