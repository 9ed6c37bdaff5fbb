(** * Property C98: ranging over the maps key by key.
    The other properties are about Sem.v, where a loop over a map learns all its keys at
    once.  Here: the calls do the same when the loops take one key at a time, as Go's do
    (Iter.v), the other calls running in between. *)
From Coq Require Import Lia.
From stdpp Require Import gmap list.
From Verif Require Import Entities Search SpecSearch Repo Sem RepoWp SpecRepo ProofRepo ProofTotal
  ProofReach SpecConc Properties_Conc Locks ProofHb Iter ProofIter.
Open Scope string_scope.
Open Scope list_scope.
Open Scope nat_scope.

(** What is reached with such loops is reached without: the same repo, and the same
    calls where they are not within a loop. *)
Theorem C98_reached :
  forall cs s ts s',
    r_imu s = rw_free -> r_amu s = rw_free -> separate cs ->
    rtc fpstep (FPool (fstart cs) s) (FPool ts s') ->
    exists cts, rtc pstep (Pool (start cs) s) (Pool cts s') /\ length cts = length ts /\
      forall i t, ts !! i = Some (FRun t) -> cts !! i = Some t.
Proof.
  intros cs s ts s' E1 E2 Hsep Hr. destruct (separate_mode cs Hsep) as (md & Hmd & Hal & _).
  destruct (fine_coarse md cs s _ Hmd E1 E2 Hal Hr) as [_ Hc]. destruct (some_shows ts s') as [cts Hsh].
  exists cts. split; [by apply Hc|]. destruct Hsh as [Hl Hv]. split; [done|]. intros i t Ht.
  destruct (lookup_lt_is_Some_2 cts i) as [c Hi]; [rewrite Hl; by eapply lookup_lt_Some|].
  destruct (Hv i _ c Ht Hi) as (r & _ & ->). done.
Qed.
Print Assumptions C98_reached.

(** The ends are the same: the same answers with the same repo. *)
Theorem C98_answers :
  forall cs s cts s',
    r_imu s = rw_free -> r_amu s = rw_free -> separate cs -> Forall finished cts ->
    rtc fpstep (FPool (fstart cs) s) (FPool (FRun <$> cts) s') <-> rtc pstep (Pool (start cs) s) (Pool cts s').
Proof.
  intros cs s cts s' E1 E2 Hsep Hf. split; intros Hr.
  - destruct (C98_reached cs s _ s' E1 E2 Hsep Hr) as (cts' & Hr' & Hl & Hv).
    replace cts with cts'; [done|]. rewrite fmap_length in Hl.
    apply list_eq_same_length with (length cts); [done|done|]. intros i x y Hi Hx Hy.
    specialize (Hv i y). rewrite list_lookup_fmap, Hy in Hv. specialize (Hv eq_refl). congruence.
  - destruct (separate_mode cs Hsep) as (md & Hmd & Hal & _).
    destruct (coarse_fine md cs s _ Hmd E1 E2 Hal Hr) as (ts & Hr' & Hb).
    by rewrite (both_finished _ _ _ _ _ Hb Hf) in Hr'.
Qed.
Print Assumptions C98_answers.

(** So is whether the process can be killed by a panicking goroutine. *)
Theorem C98_crash :
  forall cs s,
    r_imu s = rw_free -> r_amu s = rw_free -> separate cs ->
    rtc fpstep (FPool (fstart cs) s) FPCrashed <-> rtc pstep (Pool (start cs) s) PCrashed.
Proof.
  intros cs s E1 E2 Hsep. destruct (separate_mode cs Hsep) as (md & Hmd & Hal & _). split; intros Hr.
  - apply (fine_coarse md cs s _ Hmd E1 E2 Hal Hr).
  - apply (coarse_fine md cs s _ Hmd E1 E2 Hal Hr).
Qed.
Print Assumptions C98_crash.

(** A call within such a loop is never held up, and elsewhere it is exactly when it is
    in Sem.v. *)
Theorem C98_moves :
  forall cs s ts s' i t,
    r_imu s = rw_free -> r_amu s = rw_free -> separate cs ->
    rtc fpstep (FPool (fstart cs) s) (FPool ts s') -> ts !! i = Some t ->
    (exists x, fstep s' t x) <-> forall u, t = FRun u -> exists x, tstep s' u x.
Proof.
  intros cs s ts s' i t E1 E2 Hsep Hr Ht. destruct (separate_mode cs Hsep) as (md & Hmd & Hal & _).
  destruct (reached_looped md cs s ts s' Hmd E1 E2 Hal Hr) as (hs & Hi & Hl). split.
  - intros [x Hx] u ->. inversion Hx; subst; [by eexists|by eexists|..].
    + exists (TNext (TRun (k (keys TI s'))) s'). by constructor.
    + exists (TNext (TRun (k (keys TA s'))) s'). by constructor.
  - intros H. by eapply fine_moves.
Qed.
Print Assumptions C98_moves.

(** Each key that the map has when the loop ends was taken, and none was taken twice. *)
Theorem C98_each_once :
  forall cs s ts s' i L init seen,
    r_imu s = rw_free -> r_amu s = rw_free -> separate cs ->
    rtc fpstep (FPool (fstart cs) s) (FPool ts s') -> ts !! i = Some (FHead L init seen) ->
    NoDup seen /\
    ((exists t, fstep s' (FHead L init seen) (FNext (FRun t) s')) <-> forall n, n ∈ keys (table_of L) s' -> n ∈ seen).
Proof.
  intros cs s ts s' i L init seen E1 E2 Hsep Hr Ht. destruct (separate_mode cs Hsep) as (md & Hmd & Hal & _).
  destruct (reached_looped md cs s ts s' Hmd E1 E2 Hal Hr) as (hs & Hi & Hl).
  destruct (fi_keys _ _ _ _ _ Hi _ _ Ht) as [Hk Hk']. simpl in *. split.
  - by apply (reached_once _ _ _ _ Hr _ _ Ht).
  - split.
    + intros [t Hs] n Hn. inversion Hs; subst. destruct (decide (n ∈ seen)); auto.
    + intros Hn. eexists. constructor. auto.
Qed.
Print Assumptions C98_each_once.

(** No run is infinite. *)
Theorem C98_ends :
  forall cs s (f : nat -> fpool),
    r_imu s = rw_free -> r_amu s = rw_free -> separate cs ->
    f 0 = FPool (fstart cs) s -> ~ forall n, fpstep (f n) (f (S n)).
Proof.
  intros cs s f E1 E2 Hsep E0 Hf. destruct (separate_mode cs Hsep) as (md & Hmd & Hal & _).
  assert (Ha : Acc (fun p' p => fpstep p p') (f 0)).
  { rewrite E0. apply (fine_ends md (leaks_of cs) (XRun <$> start cs) Hmd (replicate (length cs) none_held)).
    - by apply finv_start.
    - unfold start, fstart. by rewrite !fmap_length.
    - intros i t x Ht Hx. unfold start, fstart in *. apply list_lookup_fmap_inv in Ht as (c & -> & Hc).
      rewrite !list_lookup_fmap, Hc in Hx. simplify_eq/=. by left. }
  assert (Hg : forall p, Acc (fun p' p => fpstep p p') p -> forall n, p <> f n).
  { intros p Hp. induction Hp as [p _ IH]. intros n ->. by eapply (IH (f (S n))). }
  by apply (Hg (f 0) Ha 0).
Qed.
Print Assumptions C98_ends.

(** Two indices: List takes b first, then, after Has has locked and read, a. *)
Definition two : repo :=
  set_I (i_set "b" 1 (i_new "b" (i_set "a" 0 (i_new "a" (r_I Properties_Conc.fresh))))) Properties_Conc.fresh.
Example C98_example :
  r_imu two = rw_free /\ r_amu two = rw_free /\ separate [CList; CHas "a"] /\
  exists s', rtc fpstep (FPool (fstart [CList; CHas "a"]) two)
    (FPool (FRun <$> [TRun (Ret (RNames ["b"; "a"])); TRun (RUnlock MI (Ret (RBool true)))]) s').
Proof.
  split; [done|]. split; [done|]. split; [left; intros old new; rewrite !elem_of_cons, elem_of_nil; naive_solver|].
  eexists.
  eapply rtc_l; [eapply (FP_step _ _ 0); [reflexivity|]; apply F_plain; [intros []|]; by econstructor|].
  eapply rtc_l; [eapply (FP_step _ _ 0); [reflexivity|]; by apply (F_begin_indices _ _ (LNames []))|].
  eapply rtc_l; [eapply (FP_step _ _ 0); [reflexivity|]; apply (F_pick _ _ _ _ "b"); [|apply not_elem_of_nil]|].
  { apply (bool_decide_unpack _). vm_compute. done. }
  eapply rtc_l; [eapply (FP_step _ _ 1); [reflexivity|]; apply F_plain; [intros []|]; by econstructor|].
  eapply rtc_l; [eapply (FP_step _ _ 1); [reflexivity|]; apply F_plain; [intros []|]; by econstructor|].
  eapply rtc_l; [eapply (FP_step _ _ 0); [reflexivity|]; by apply (F_again _ _ _ _ _ (LNames ["b"]))|].
  eapply rtc_l; [eapply (FP_step _ _ 0); [reflexivity|]; apply (F_pick _ _ _ _ "a")|].
  { apply (bool_decide_unpack _). vm_compute. done. }
  { apply (bool_decide_unpack _). vm_compute. done. }
  eapply rtc_l; [eapply (FP_step _ _ 0); [reflexivity|]; by apply (F_again _ _ _ _ _ (LNames ["b"; "a"]))|].
  eapply rtc_l; [eapply (FP_step _ _ 0); [reflexivity|]; apply F_end|].
  { intros x. vm_compute. intros Hx. by repeat (apply elem_of_cons in Hx as [->|Hx]; [set_solver|]); apply elem_of_nil in Hx. }
  eapply rtc_l; [eapply (FP_step _ _ 0); [reflexivity|]; apply F_plain; [intros []|]; by econstructor|].
  apply rtc_refl.
Qed.
