(** * Properties C48-C53, C57-...: concurrent calls.

    [start cs]: one goroutine per call of [cs], none of which has run yet.
    [rtc pstep (Pool (start cs) s) p]: [p] is reached from [s] by some
    interleaving of the calls [cs]; one [pstep] is one shared-memory action, lock
    operation or goroutine step of one call (Sem.v).  The calls of a client that
    issues several calls in turn are among the interleavings of the same calls
    issued at once. *)
From Coq Require Import Lia.
From stdpp Require Import gmap list.
From Verif Require Import Entities Search SpecSearch Properties_Search Repo Sem RepoWp SpecRepo
  ProofRepo ProofTotal ProofReach Properties_Repo SpecConc Locks Race ProofRace Reduce ProofConc ProofSim Run.
Open Scope nat_scope.

(** A new repo whose indices split text into letters. *)
Definition fresh : repo := NewIndexRepo true (NewMemoryIndexBuilder letters).

(** [steps i n]: call [i] takes [n] steps. *)
Definition steps (i n : nat) : list (nat * nat) := replicate n (i, 0).

(** The state after following a schedule. *)
Definition after_run (l : list (nat * nat)) (cs : list call) : list thr * repo := run l (start cs) fresh.
Lemma after_run_reach l cs :
  rtc pstep (Pool (start cs) fresh) (Pool (after_run l cs).1 (after_run l cs).2).
Proof. apply run_sound. Qed.
Ltac calc := vm_compute; reflexivity.

(** ** C48: no deadlock unless a lock was left behind *)

(** A call UnAlias(a, x), x not empty, has returned false (and kept a lock). *)
Definition left_behind (cs : list call) (ts : list thr) : Prop :=
  exists i a x, cs !! i = Some (CUnAlias a x) /\ x <> ""%string /\ ts !! i = Some (TRun (Ret (RBool false))).

Lemma finished_free cs md gh ts s i t g h :
  pool_inv md (leaks_of cs) gh ts s -> ~ left_behind cs ts ->
  ts !! i = Some t -> gh !! i = Some (g, h) -> finished t -> h = none_held.
Proof.
  intros Hp Hl Hi Hg Hf. destruct (pi_thr _ _ _ _ _ Hp _ _ _ _ Hi Hg) as [Hd _].
  destruct t as [p| | |]; try done. destruct p; try done. simpl in Hd.
  destruct Hd as [Hd|[(c & Hc & Hm) _]]; [done|]. exfalso. apply Hl.
  destruct c; try done. destruct Hm as [Hx ->]. by exists i, alias, index.
Qed.

Lemma any_allowed cs : Forall (allowed Any) cs.
Proof. by apply Forall_true. Qed.

(** Whatever the calls and the interleaving so far: unless a call returned with a
    lock, either all calls have finished or some call can take a step. *)
Theorem C48_no_deadlock :
  forall cs s ts s',
    r_imu s = rw_free -> r_amu s = rw_free ->
    rtc pstep (Pool (start cs) s) (Pool ts s') ->
    ~ left_behind cs ts ->
    Forall finished ts \/ exists p, pstep (Pool ts s') p.
Proof.
  intros cs s ts s' E1 E2 Hr Hl.
  destruct (pool_reach Any cs s _ E1 E2 (any_allowed cs) Hr) as [gh Hp].
  eapply progress; [exact Hp|]. intros i t g h Hi Hg Hf. by eapply finished_free.
Qed.
Print Assumptions C48_no_deadlock.

(** Every interleaving of finitely many calls is finite: no livelock. *)
Theorem C48_no_infinite_run :
  forall f : nat -> pool, ~ forall n, pstep (f n) (f (S n)).
Proof.
  intros f Hf. assert (forall p n, p = f n -> False) as H; [|by apply (H (f 0) 0)].
  intros p. induction (pool_terminates p) as [p _ IH]. intros n ->. by eapply IH; [apply (Hf n)|].
Qed.
Print Assumptions C48_no_infinite_run.

(** So, from every state reached, the calls can all be run to their end, after
    which both locks are free again, unless the process dies or some UnAlias
    returns with a lock. *)
Theorem C48_all_return :
  forall cs s p,
    r_imu s = rw_free -> r_amu s = rw_free ->
    rtc pstep (Pool (start cs) s) p ->
    exists p', rtc pstep p p' /\
      (p' = PCrashed \/ exists ts s', p' = Pool ts s' /\
        (left_behind cs ts \/ Forall finished ts /\ r_imu s' = rw_free /\ r_amu s' = rw_free)).
Proof.
  intros cs s p E1 E2 Hr. induction (pool_terminates p) as [p _ IH].
  destruct p as [ts s'|]; [|exists PCrashed; split; [apply rtc_refl|by left]].
  destruct (pool_reach Any cs s _ E1 E2 (any_allowed cs) Hr) as [gh Hp].
  assert (Hdec : left_behind cs ts \/ ~ left_behind cs ts).
  { unfold left_behind.
    assert (forall n, (exists i a x, i < n /\ cs !! i = Some (CUnAlias a x) /\ x <> ""%string /\ ts !! i = Some (TRun (Ret (RBool false)))) \/
      ~ (exists i a x, i < n /\ cs !! i = Some (CUnAlias a x) /\ x <> ""%string /\ ts !! i = Some (TRun (Ret (RBool false))))) as Hn.
    { induction n as [|n IHn]; [right; intros (i & a & x & ? & _); lia|].
      destruct IHn as [(i & a & x & ? & ? & ? & ?)|Hno]; [left; exists i, a, x; split_and!; [lia|done..]|].
      assert ((exists a x, cs !! n = Some (CUnAlias a x) /\ x <> ""%string /\ ts !! n = Some (TRun (Ret (RBool false)))) \/
        ~ (exists a x, cs !! n = Some (CUnAlias a x) /\ x <> ""%string /\ ts !! n = Some (TRun (Ret (RBool false))))) as [(a & x & ? & ? & ?)|Hn].
      { destruct (cs !! n) as [c|]; [|right; by intros (? & ? & ? & _)].
        destruct c; try (right; intros (? & ? & ? & _); congruence).
        destruct (decide (index = ""%string)); [right; intros (? & ? & ? & ? & _); congruence|].
        destruct (ts !! n) as [[[[|[]| | | | |]| | | | | | | | | | | | | | | | | | | | | | |]| | |]|]; first
          [left; by eauto|right; intros (? & ? & ? & ? & ?); congruence]. }
      - left. exists n, a, x. split_and!; [lia|done..].
      - right. intros (i & a & x & ? & ? & ? & ?). destruct (decide (i = n)) as [->|]; [apply Hn; eauto|].
        apply Hno. exists i, a, x. split_and!; [lia|done..]. }
    destruct (Hn (length cs)) as [(i & a & x & _ & ?)|Hno]; [left; by exists i, a, x|right].
    intros (i & a & x & Hc & ? & ?). apply Hno. exists i, a, x. split_and!; [by eapply lookup_lt_Some|done..]. }
  destruct Hdec as [Hl|Hl].
  { exists (Pool ts s'). split; [apply rtc_refl|]. right. eauto. }
  destruct (C48_no_deadlock cs s ts s' E1 E2 Hr Hl) as [Hf|[p Hs]].
  - exists (Pool ts s'). split; [apply rtc_refl|]. right. exists ts, s'. split; [done|]. right. split; [done|].
    assert (Hfree : forall m, get_mu m s' = rw_free).
    { intros m. pose proof (pi_lock _ _ _ _ _ Hp m) as [K1 K2 K3 _ _].
      assert (Hall : ((fun x => get_h m x.2) <$> gh) = replicate (length gh) HN).
      { apply list_eq. intros i. rewrite list_lookup_fmap. destruct (gh !! i) as [[g h]|] eqn:Eg; simpl.
        - destruct (lookup_lt_is_Some_2 ts i) as [t Ht]; [rewrite <- (pi_len _ _ _ _ _ Hp); by eapply lookup_lt_Some|].
          assert (h = none_held) as -> by (eapply finished_free; [exact Hp|exact Hl|exact Ht|exact Eg|by eapply Forall_lookup_1]).
          symmetry. apply lookup_replicate. split; [by destruct m|by eapply lookup_lt_Some].
        - symmetry. apply lookup_replicate_None. by apply lookup_ge_None. }
      rewrite Hall in *. rewrite !cnt_replicate in * by done. destruct (get_mu m s') as [r p0 w]. simpl in *. subst.
      destruct p0, w; done. }
    split; [apply (Hfree MI)|apply (Hfree MA)].
  - destruct (IH p Hs) as (p' & H1 & H2); [by eapply rtc_r|]. exists p'. split; [by eapply rtc_l|done].
Qed.
Print Assumptions C48_all_return.

(** The hypothesis is needed: after UnAlias("a", "x") of a missing index returned
    false, a Put waits for ever. *)
Theorem C48_leak_refuted :
  exists cs ts s',
    rtc pstep (Pool (start cs) fresh) (Pool ts s') /\
    ~ Forall finished ts /\ forall p, ~ pstep (Pool ts s') p.
Proof.
  set (cs := [CUnAlias "a" "x"; CPut "n" dA]). set (l := steps 0 2 ++ steps 1 7).
  exists cs, (after_run l cs).1, (after_run l cs).2. split; [apply after_run_reach|].
  assert (exists k, (after_run l cs).1 = [TRun (Ret (RBool false)); TPend MI k]) as [k Ek] by (eexists; calc).
  assert (rw_readers (r_imu (after_run l cs).2) = 1) as E by calc.
  generalize dependent (after_run l cs).2. intros s' E. rewrite Ek. split.
  - intros H. apply Forall_inv_tail, Forall_inv in H. done.
  - intros p Hp. inversion Hp as [ts s i t t' s1 Hi Ht|ts s i t Hi Ht]; simplify_eq; destruct i as [|[|i]]; simplify_eq/=;
      inversion Ht. simpl in *. congruence.
Qed.
Print Assumptions C48_leak_refuted.

(** A contended state meeting the hypotheses of [C48_no_deadlock]: a Put waits for
    two readers, another Put and a Search wait for it. *)
Example C48_no_deadlock_example :
  exists cs ts s',
    rtc pstep (Pool (start cs) fresh) (Pool ts s') /\ ~ left_behind cs ts /\ r_imu s' = MkRW 1 true false /\
    ~ Forall finished ts /\ exists p, pstep (Pool ts s') p.
Proof.
  set (cs := [CPut "n" dA; CPut "n" dB; CAlias "a" "n"; CSearch "n" "a" LinearSearch]).
  set (l := steps 0 6 ++ steps 1 6 ++ steps 2 1 ++ steps 0 1).
  assert (Hl : ~ left_behind cs (after_run l cs).1).
  { intros (i & a & x & Hi & _). by destruct i as [|[|[|[|i]]]]. }
  assert (r_imu (after_run l cs).2 = MkRW 1 true false) as Em by calc.
  assert (exists k, (after_run l cs).1 !! 0 = Some (TPend MI k)) as [k Ek] by (eexists; calc).
  pose proof (after_run_reach l cs) as Hr. exists cs, (after_run l cs).1, (after_run l cs).2.
  generalize dependent (after_run l cs). intros [ts s'] Hl Em Ek Hr. cbn [fst snd] in *.
  assert (Hf : ~ Forall finished ts).
  { intros H. eapply Forall_lookup_1 in H; [|exact Ek]. done. }
  split_and!; [done..|]. by destruct (C48_no_deadlock cs fresh ts s' eq_refl eq_refl Hr Hl).
Qed.

(** ** C49: data races *)

(** Calls that do not include both Rename and UnAlias never race with each
    other: no two of them are ever about to access the same location, one of them
    writing. *)
Theorem C49_no_race_between_calls :
  forall cs s ts s',
    r_imu s = rw_free -> r_amu s = rw_free -> without_rename cs \/ without_unalias cs ->
    rtc pstep (Pool (start cs) s) (Pool ts s') -> ~ race_between ts.
Proof.
  intros cs s ts s' E1 E2 [Hc|Hc] Hr.
  - destruct (pool_reach NoRename cs s _ E1 E2 (allowed_without_rename _ Hc) Hr) as [gh Hp]. apply (no_race_between _ _ _ _ _) in Hp; done.
  - destruct (pool_reach NoUnAlias cs s _ E1 E2 (allowed_without_unalias _ Hc) Hr) as [gh Hp]. apply (no_race_between _ _ _ _ _) in Hp; done.
Qed.
Print Assumptions C49_no_race_between_calls.

(** Whatever the calls, they never race on the table of indices, nor on an index. *)
Theorem C49_no_race_on_indices :
  forall cs s ts s' l,
    r_imu s = rw_free -> r_amu s = rw_free ->
    rtc pstep (Pool (start cs) s) (Pool ts s') -> race_on l ts ->
    l = LAliases \/ exists a i, l = LElem a i.
Proof.
  intros cs s ts s' l E1 E2 Hr Hl. destruct (pool_reach Any cs s _ E1 E2 (any_allowed cs) Hr) as [gh Hp].
  destruct l as [| |a i|p|]; [|by left|right; by eauto|..].
  - by destruct (no_race_on_indices _ _ _ _ _ LIndices eq_refl Hp).
  - by destruct (no_race_on_indices _ _ _ _ _ (LObj p) eq_refl Hp).
  - by destruct Hl as (? & ? & ? & ? & ? & ? & ? & ? & _ & _ & _ & ? & _).
Qed.
Print Assumptions C49_no_race_on_indices.

(** The goroutines of one Search never race, whatever else runs. *)
Theorem C49_no_race_in_search :
  forall cs s ts s' i scs q e r k,
    rtc pstep (Pool (start cs) s) (Pool ts s') ->
    ts !! i = Some (TSearch scs q e r k) -> ~ race_within (TSearch scs q e r k).
Proof.
  intros cs s ts s' i scs q e r k Hr Hi. apply no_race_in_search.
  pose proof (search_inv_reach cs s _ Hr) as H. exact (Forall_lookup_1 _ _ _ _ H Hi).
Qed.
Print Assumptions C49_no_race_in_search.

(** Every alias lists distinct existing indices. *)
Definition proper_aliases (v : view) : Prop :=
  forall a l, v_ali v !! a = Some l -> NoDup l /\ forall x, x ∈ l -> is_Some (v_idx v !! x).

(** Without Rename, from a state in which every alias lists distinct existing
    indices, there is no race at all: neither between calls nor between the
    goroutines of one call. *)
Theorem C49_no_race :
  forall ckn tk s v cs ts s',
    tracks ckn tk s v -> unblocked v -> proper_aliases v -> without_rename cs ->
    rtc pstep (Pool (start cs) s) (Pool ts s') ->
    ~ race_between ts /\ forall i t, ts !! i = Some t -> ~ race_within t.
Proof.
  intros ckn tk s v cs ts s' Ht Hu Ha Hc Hr.
  destruct (init_view true ckn tk s v (reach_shape _ _ _ _ _ Ht) Hu (fun _ => Ha)) as (w & Hw & _ & E1 & E2).
  split; [by eapply (C49_no_race_between_calls cs s); [done..|by left|]|].
  intros i t Hi.
  assert (Hz : forall p, ~ race_within (TRun p)).
  { intros p (g & g' & l & w1 & w2 & Hne & H1 & H2 & _). apply Hne. by inversion H1; inversion H2; simplify_eq. }
  destruct t as [p|m k|pcs d k|scs q e r k].
  - apply Hz.
  - intros (g & g' & l & w1 & w2 & Hne & H1 & H2 & _). inversion H1.
  - pose proof (simR_simulation NoRename ltac:(done) true ckn tk cs (fun _ => eq_refl)) as HS.
    pose proof (simR_start NoRename ltac:(done) true ckn tk cs (fun _ => eq_refl) s w Hw E1 E2 (allowed_without_rename _ Hc)) as H0.
    destruct (simulation_reach _ _ _ _ _ _ _ _ _ HS H0 Hr) as (l' & w' & HR & _).
    pose proof (simR_put NoRename true ckn tk cs ts s' l' w' i pcs d k eq_refl HR Hi) as Hnd.
    intros (g & g' & l & w1 & w2 & Hne & H1 & H2 & _).
    inversion H1 as [| | | | | | | | | | | | | | |? ? ? j p Hj| | | |]; simplify_eq.
    inversion H2 as [| | | | | | | | | | | | | | |? ? ? j' p' Hj'| | | |]; simplify_eq.
    assert (j <> j') as Hjj by congruence. clear -Hnd Hj Hj' Hjj.
    revert j j' Hj Hj' Hjj. induction pcs as [|c pcs IH]; intros j j' Hj Hj' Hne; [done|].
    assert (Hin : forall k, pcs !! k = Some (Some (Some p)) -> Some p ∈ omap id pcs).
    { intros k Hk. apply elem_of_list_omap. exists (Some (Some p)). split; [by eapply elem_of_list_lookup_2|done]. }
    destruct j as [|j], j' as [|j']; simplify_eq/=.
    + apply NoDup_cons in Hnd as [Hno _]. apply Hno. by eapply Hin.
    + apply NoDup_cons in Hnd as [Hno _]. apply Hno. by eapply Hin.
    + refine (IH _ j j' Hj Hj' _); [|congruence].
      destruct c as [c|]; simpl in Hnd; [by apply NoDup_cons in Hnd as [_ ?]|done].
  - by eapply C49_no_race_in_search.
Qed.
Print Assumptions C49_no_race.

(** A new repo satisfies the hypotheses; in the state reached, the two goroutines of
    a Put through an alias run while a Drop and a Search wait. *)
Example C49_no_race_example :
  exists cs ts s' k k',
    tracks true letters fresh new_view /\ unblocked new_view /\ proper_aliases new_view /\ without_rename cs /\
    rtc pstep (Pool (start cs) fresh) (Pool ts s') /\
    drop 4 ts = [TPut [Some (Some 0); Some (Some 1)] dA k; TRun (Lock MI k'); TRun (prog_of (CSearch "p" "a" LinearSearch))].
Proof.
  set (cs := [CPut "p" dA; CPut "q" dB; CAlias "a" "p"; CAlias "a" "q"; CPut "a" dA; CDrop "q"; CSearch "p" "a" LinearSearch]).
  assert (Hcs : without_rename cs) by (intros old new; unfold cs; set_solver).
  assert (Hv : unblocked new_view /\ proper_aliases new_view).
  { split; [done|]. intros a l Hl. unfold new_view in Hl. simpl in Hl. by rewrite lookup_empty in Hl. }
  destruct Hv as [Hu Hp].
  set (l := steps 0 12 ++ steps 1 12 ++ steps 2 9 ++ steps 3 10 ++ steps 5 3 ++ steps 4 13).
  eexists cs, (after_run l cs).1, (after_run l cs).2, _, _.
  split_and!; [apply tracks_new|exact Hu|exact Hp|exact Hcs|apply after_run_reach|calc].
Qed.

(** Rename and UnAlias do race: UnAlias is about to read an element of an alias
    list that Rename is about to write. *)
Theorem C49_rename_unalias_refuted :
  exists cs ts s', rtc pstep (Pool (start cs) fresh) (Pool ts s') /\ race_between ts.
Proof.
  set (cs := [CPut "p" dA; CAlias "a" "p"; CUnAlias "a" "p"; CRename "p" "q"]).
  set (l := steps 0 12 ++ steps 1 9 ++ steps 2 6 ++ steps 3 8).
  exists cs, (after_run l cs).1, (after_run l cs).2. split; [apply after_run_reach|].
  eexists 2, 3, _, _, 0, 0, (LElem 1 0), false, true.
  split_and!; [calc|calc|lia|discriminate|constructor|constructor|by right].
Qed.
Print Assumptions C49_rename_unalias_refuted.

(** They also race on the table of aliases itself, UnAlias deleting from it while
    Rename goes through it. *)
Example C49_race_on_example :
  exists cs ts s', rtc pstep (Pool (start cs) fresh) (Pool ts s') /\ race_on LAliases ts.
Proof.
  set (cs := [CPut "p" dA; CAlias "a" "p"; CUnAlias "a" ""; CRename "p" "q"]).
  set (l := steps 0 12 ++ steps 1 9 ++ steps 2 3 ++ steps 3 5).
  exists cs, (after_run l cs).1, (after_run l cs).2. split; [apply after_run_reach|].
  eexists 2, 3, _, _, 0, 0, true, false.
  split_and!; [calc|calc|lia|discriminate|constructor|constructor|by left].
Qed.

(** A Put through an alias that lists an index twice (two Renames to one name)
    races with itself. *)
Theorem C49_duplicate_alias_refuted :
  exists cs ts s' t, rtc pstep (Pool (start cs) fresh) (Pool ts s') /\ t ∈ ts /\ race_within t.
Proof.
  set (cs := [CPut "p" dA; CPut "q" dB; CAlias "a" "p"; CAlias "a" "q"; CRename "p" "q"; CPut "a" dA]).
  set (l := steps 0 12 ++ steps 1 12 ++ steps 2 9 ++ steps 3 10 ++ steps 4 11 ++ steps 5 13).
  eexists cs, (after_run l cs).1, (after_run l cs).2, _. split; [apply after_run_reach|].
  split; [eapply (elem_of_list_lookup_2 _ 5); calc|].
  exists 1, 2, (LObj 0), true, true. split_and!; [lia|by constructor|by constructor|by left].
Qed.
Print Assumptions C49_duplicate_alias_refuted.

(** ** C57: every interleaving is an interleaving of atomic sections *)

(** There is a simulation of the code running the calls [cs] by the machine of
    SpecConc.v, in which every call is one or two atomic sections: started in
    states with the same view, each step of the code is matched by steps of the
    machine on behalf of the same call, and they agree on the answers of all
    finished calls, on the indices and on the aliases.  (The rows returned by
    ListAliases are compared if Rename does not occur: it rewrites them.) *)
Theorem C57_atomic_sections :
  forall ckn tk s v cs,
    tracks ckn tk s v -> unblocked v -> separate cs ->
    exists R w rows,
      view_of w = v /\ R (start cs) s (cstart cs) w /\ simulation ckn tk rows R /\
      (without_rename cs -> rows = true).
Proof.
  intros ckn tk s v cs Ht Hu Hs. destruct (separate_mode cs Hs) as (md & Hmd & Hal & Hrow).
  destruct (init_view false ckn tk s v (reach_shape _ _ _ _ _ Ht) Hu ltac:(done)) as (w & Hw & Hv & E1 & E2).
  exists (simR md false ckn tk cs), w, (bool_decide (md = NoRename)). split_and!.
  - done.
  - by apply simR_start.
  - by apply simR_simulation.
  - intros H. apply bool_decide_eq_true. by apply Hrow.
Qed.
Print Assumptions C57_atomic_sections.

(** Consequently a finished run gives every call the answer that it gets in some
    run of the machine, and leaves the indices and aliases of that run. *)
Theorem C57_outcome :
  forall ckn tk s v cs ts s',
    tracks ckn tk s v -> unblocked v -> separate cs ->
    rtc pstep (Pool (start cs) s) (Pool ts s') -> Forall finished ts ->
    exists w l' w',
      view_of w = v /\ rtc (cstep ckn tk) (APool (cstart cs) w) (APool l' w') /\
      length l' = length ts /\
      (forall i p, ts !! i = Some (TRun p) -> exists a, l' !! i = Some (Between (Answered a)) /\ answers p a) /\
      shows_indices tk s' w' /\ shows_aliases s' w'.
Proof.
  intros ckn tk s v cs ts s' Ht Hu Hs Hr Hf.
  destruct (C57_atomic_sections ckn tk s v cs Ht Hu Hs) as (R & w & rows & Hv & HR & HS & _).
  destruct (simulation_reach _ _ _ _ _ _ _ _ _ HS HR Hr) as (l' & w' & HR' & Hm).
  destruct (sim_agrees _ _ _ _ HS _ _ _ _ HR') as [A1 A2 A3 A4 _].
  exists w, l', w'. split_and!; [done..| | |]; eauto.
  intros i p Hi. apply A2; [done|]. by eapply Forall_lookup_1 in Hi.
Qed.
Print Assumptions C57_outcome.

(** A process that dies does so in the machine. *)
Theorem C57_crash :
  forall ckn tk s v cs,
    tracks ckn tk s v -> unblocked v -> separate cs ->
    rtc pstep (Pool (start cs) s) PCrashed ->
    exists w, view_of w = v /\ rtc (cstep ckn tk) (APool (cstart cs) w) ACrashed.
Proof.
  intros ckn tk s v cs Ht Hu Hs Hr.
  destruct (C57_atomic_sections ckn tk s v cs Ht Hu Hs) as (R & w & rows & Hv & HR & HS & _).
  exists w. split; [done|]. exact (simulation_reach _ _ _ _ _ _ _ _ _ HS HR Hr).
Qed.
Print Assumptions C57_crash.

(** The hypotheses hold for a new repo and, e.g., Puts, an Alias and a Drop. *)
Example C57_example :
  tracks true letters fresh new_view /\ unblocked new_view /\
  separate [CPut "p" dA; CPut "p" dB; CAlias "a" "p"; CDrop "p"; CSearch "a" "b" LinearSearch; CRename "p" "q"].
Proof. split_and!; [apply tracks_new|done|]. right. intros a i. set_solver. Qed.
