(** * Property C68: concurrent calls that no sequential order explains.
    Each theorem exhibits a run of two or three calls, all of which return, such that
    their answers and the final state are not those of the calls issued one after
    the other in any order.  They are the cases excluded by [tolerates] in C58. *)
From Coq Require Import Lia.
From stdpp Require Import gmap list.
From Verif Require Import Entities Search SpecSearch Properties_Search Repo Sem SpecRepo
  Properties_Repo SpecConc Locks ProofConc Run Properties_Conc SpecLin Serial.
Open Scope nat_scope.

(** From a state tracked by [v], some run of the calls [cs] ends with the calls
    having returned [rs], and no order of [cs] explains it. *)
Definition clash (v : view) (cs : list call) (rs : list ret) : Prop :=
  exists s s',
    tracks true letters s v /\ unblocked v /\
    rtc pstep (Pool (start cs) s) (Pool ((fun r => TRun (Ret r)) <$> rs) s') /\
    ~ serializable true letters v cs ((fun r => TRun (Ret r)) <$> rs) s'.

(** ** Concrete states *)

Definition alone (k : nat) (c : call) (s : repo) : list thr * repo := run (steps 0 k) [TRun (prog_of c)] s.

Lemma run_alone l t s : (forall x, x ∈ l -> x.1 = 0) ->
  exists t', (run l [t] s).1 = [t'] /\ rtc sstep (t, s) (t', (run l [t] s).2).
Proof.
  revert t s. induction l as [|[i j] l IH]; intros t s Hl; simpl.
  { exists t. split; [done|apply rtc_refl]. }
  assert (Hi : i = 0) by (apply (Hl (i, j)); by left). subst i. simpl.
  assert (Hl' : forall x, x ∈ l -> x.1 = 0) by (intros; apply Hl; by right).
  destruct (next_of s t j) as [[t1 s1]|] eqn:E; [|by apply IH].
  destruct (IH t1 s1 Hl') as (t' & E' & Hr). exists t'. split; [done|].
  eapply rtc_l; [|exact Hr]. constructor. by eapply next_of_sound.
Qed.

Lemma tracks_alone k c s v r v' :
  tracks true letters s v -> (alone k c s).1 = [TRun (Ret r)] ->
  (forall s', spec true letters c v (ODone (see s' r) v')) -> tracks true letters (alone k c s).2 v'.
Proof.
  intros Ht E Hs. destruct (run_alone (steps 0 k) (TRun (prog_of c)) s) as (t' & E' & Hr).
  { intros x Hx. apply elem_of_replicate in Hx as [-> _]. done. }
  unfold alone in *. rewrite E in E'. injection E' as <-.
  eapply R_done; [exact Ht|done|constructor; exact Hr|apply Hs].
Qed.

(** One index "a" holding the document dA. *)
Definition one_view : view := MkView {["a" := [dA]]} ∅ 0 false.
Definition one_repo : repo := (alone 20 (CPut "a" dA) fresh).2.
Lemma one_tracks : tracks true letters one_repo one_view.
Proof. eapply (tracks_alone 20 (CPut "a" dA) fresh new_view RUnit); [apply tracks_new|calc|done]. Qed.

(** The same with an alias "al" for "a". *)
Definition ali_view : view := MkView {["a" := [dA]]} {["al" := ["a"]]} 0 false.
Definition ali_repo : repo := (alone 20 (CAlias "al" "a") one_repo).2.
Lemma ali_tracks : tracks true letters ali_repo ali_view.
Proof. eapply (tracks_alone 20 (CAlias "al" "a") one_repo one_view (RBool true)); [apply one_tracks|calc|done]. Qed.

(** And with a second index "q" listed by the alias. *)
Definition duo_view : view := MkView (<["q" := [dB]]> {["a" := [dA]]}) {["al" := ["a"; "q"]]} 0 false.
Definition q_repo : repo := (alone 20 (CPut "q" dB) ali_repo).2.
Definition duo_repo : repo := (alone 20 (CAlias "al" "q") q_repo).2.
Lemma duo_tracks : tracks true letters duo_repo duo_view.
Proof.
  eapply (tracks_alone 20 (CAlias "al" "q") q_repo (MkView (<["q" := [dB]]> {["a" := [dA]]}) {["al" := ["a"]]} 0 false) (RBool true));
    [|calc|].
  2:{ intros s'. cbn [spec see v_idx v_ali v_leakI v_leakA].
      rewrite decide_False by (by apply (bool_decide_unpack _)). rewrite decide_False by (by apply (bool_decide_unpack _)).
      unfold duo_view. repeat f_equal. by apply (bool_decide_unpack _). }
  eapply (tracks_alone 20 (CPut "q" dB) ali_repo ali_view RUnit); [apply ali_tracks|calc|done].
Qed.

Lemma clash_intro l s v cs rs ns :
  tracks true letters s v -> unblocked v ->
  (run l (start cs) s).1 = ((fun r => TRun (Ret r)) <$> rs) -> length rs = length cs ->
  some_order true letters cs (see (run l (start cs) s).2 <$> rs) (looks_like (run l (start cs) s).2 ns) v = false ->
  clash v cs rs.
Proof.
  intros Ht Hu Hr Hl Hno. exists s, (run l (start cs) s).2. split_and!; [done..| |by eapply not_serializable].
  rewrite <- Hr. apply run_sound.
Qed.

Definition dC : DocRequest := NewDocRequest "3" "b d".

(** ** The runs *)

(** Two Drops of the same index both report having dropped it. *)
Theorem C68_drop_drop_refuted :
  clash one_view [CDrop "a"; CDrop "a"] [RBool true; RBool true].
Proof.
  apply (clash_intro (steps 0 3 ++ steps 1 3 ++ steps 0 20 ++ steps 1 20) one_repo _ _ _ []);
    [apply one_tracks|done|calc|done|calc].
Qed.
Print Assumptions C68_drop_drop_refuted.

(** A Drop and a Rename of the same index both report success. *)
Theorem C68_drop_rename_refuted :
  clash one_view [CDrop "a"; CRename "a" "b"] [RBool true; RBool true].
Proof.
  apply (clash_intro (steps 0 3 ++ steps 1 20 ++ steps 0 20) one_repo _ _ _ []);
    [apply one_tracks|done|calc|done|calc].
Qed.
Print Assumptions C68_drop_rename_refuted.

(** Two first Puts under the same name: one document is lost. *)
Theorem C68_put_put_refuted :
  clash new_view [CPut "n" dA; CPut "n" dB] [RUnit; RUnit].
Proof.
  apply (clash_intro (steps 0 6 ++ steps 1 6 ++ steps 0 20 ++ steps 1 20) fresh _ _ _ ["n"]);
    [apply tracks_new|done|calc|done|calc].
Qed.
Print Assumptions C68_put_put_refuted.

(** A first Put and a Rename to the same name: the whole renamed index is lost. *)
Theorem C68_put_rename_to_refuted :
  clash one_view [CPut "n" dB; CRename "a" "n"] [RUnit; RBool true].
Proof.
  apply (clash_intro (steps 0 6 ++ steps 1 20 ++ steps 0 20) one_repo _ _ _ ["n"]);
    [apply one_tracks|done|calc|done|calc].
Qed.
Print Assumptions C68_put_rename_to_refuted.

(** A Put to an index being renamed: a Search under the new name misses the
    document, which nevertheless ends up under the new name. *)
Theorem C68_put_rename_from_refuted :
  clash one_view [CPut "a" dB; CRename "a" "m"; CSearch "m" "b" LinearSearch]
    [RUnit; RBool true; RResults [MkSR (doc_of dA) 1]].
Proof.
  apply (clash_intro (steps 0 3 ++ steps 1 20 ++ steps 2 20 ++ steps 0 20) one_repo _ _ _ ["a"; "m"]);
    [apply one_tracks|done|calc|done|calc].
Qed.
Print Assumptions C68_put_rename_from_refuted.

(** A Put to a name being made an alias: a Search goes through the alias, and the
    Put then creates an index of that name. *)
Theorem C68_put_alias_refuted :
  clash one_view [CPut "al" dB; CAlias "al" "a"; CSearch "al" "b" LinearSearch]
    [RUnit; RBool true; RResults [MkSR (doc_of dA) 1]].
Proof.
  apply (clash_intro (steps 0 6 ++ steps 1 20 ++ steps 2 20 ++ steps 0 20) one_repo _ _ _ ["a"; "al"]);
    [apply one_tracks|done|calc|done|calc].
Qed.
Print Assumptions C68_put_alias_refuted.

(** A Put through an alias losing an index: a Search no longer sees the index,
    nor the document, but the document goes to that index too. *)
Theorem C68_put_unalias_refuted :
  clash duo_view [CPut "al" dC; CUnAlias "al" "q"; CSearch "al" "b" LinearSearch]
    [RUnit; RBool true; RResults [MkSR (doc_of dA) 1]].
Proof.
  apply (clash_intro (steps 0 10 ++ steps 1 20 ++ steps 2 20 ++ steps 0 20 ++ [(0, 1)] ++ steps 0 5) duo_repo _ _ _ ["a"; "q"]);
    [apply duo_tracks|done|calc|done|calc].
Qed.
Print Assumptions C68_put_unalias_refuted.

(** UnAlias and Rename of the same index: both report success, the alias still
    lists the index. *)
Theorem C68_unalias_rename_refuted :
  clash ali_view [CUnAlias "al" "a"; CRename "a" "b"] [RBool true; RBool true].
Proof.
  apply (clash_intro (steps 0 3 ++ steps 1 20 ++ steps 0 20) ali_repo _ _ _ []);
    [apply ali_tracks|done|calc|done|calc].
Qed.
Print Assumptions C68_unalias_rename_refuted.

(** UnAlias of an index that is dropped: it reports success although at no moment
    did both the index and the alias exist (here of the same name, so that a Search
    sees that neither does). *)
Definition pair_view : view := MkView (<["q" := [dB]]> {["a" := [dA]]}) ∅ 0 false.
Definition pair_repo : repo := (alone 20 (CPut "q" dB) one_repo).2.
Lemma pair_tracks : tracks true letters pair_repo pair_view.
Proof. eapply (tracks_alone 20 (CPut "q" dB) one_repo one_view RUnit); [apply one_tracks|calc|done]. Qed.
Theorem C68_unalias_drop_refuted :
  clash pair_view [CUnAlias "a" "a"; CDrop "a"; CSearch "a" "b" LinearSearch; CAlias "a" "q"]
    [RBool true; RBool true; RError "index with name 'a' does not exist"; RBool true].
Proof.
  apply (clash_intro (steps 0 3 ++ steps 1 20 ++ steps 2 20 ++ steps 3 20 ++ steps 0 20) pair_repo _ _ _ []);
    [apply pair_tracks|done|calc|done|calc].
Qed.
Print Assumptions C68_unalias_drop_refuted.

(** The rows returned by ListAliases keep changing: they show a Rename that
    happened after an Alias they do not show. *)
Theorem C68_list_rename_refuted :
  exists rows, clash ali_view [CListAliases; CAlias "z" "a"; CRename "a" "b"] [RRows rows; RBool true; RBool true].
Proof.
  set (l := steps 0 20 ++ steps 1 20 ++ steps 2 20). eexists.
  apply (clash_intro l ali_repo _ _ _ []); [apply ali_tracks|done|calc|done|calc].
Qed.
Print Assumptions C68_list_rename_refuted.
