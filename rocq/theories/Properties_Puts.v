(** * Properties C50-C52: concurrent Puts and aliases. *)
From Coq Require Import Lia.
From stdpp Require Import gmap list.
From Verif Require Import Entities Search SpecSearch Properties_Search Repo Sem RepoWp SpecRepo
  ProofRepo ProofTotal ProofReach Properties_Repo SpecConc Locks Race ProofRace Reduce ProofConc ProofSim Run
  Properties_Conc SpecLin ProofMachine ProofLin Properties_Lin.
Open Scope nat_scope.

(** ** Reasoning about the machine instead of the code *)
Section machine.
  Context (ckn : bool) (tk : Tokenizer) (s : repo) (v : view) (cs : list call).
  Context (Ht : tracks ckn tk s v) (Hu : unblocked v) (Hs : separate cs).
  Context (I : list cthr -> cview -> Prop).
  Context (I0 : forall w, wfC w -> view_of w = v -> I (cstart cs) w).
  Context (I1 : forall l w l' w', I l w -> cstep ckn tk (APool l w) (APool l' w') -> I l' w').

  Lemma in_machine ts s' :
    rtc pstep (Pool (start cs) s) (Pool ts s') ->
    exists l w rows, agrees tk rows ts s' l w /\ I l w /\ (without_rename cs -> rows = true).
  Proof.
    intros Hr. destruct (separate_mode cs Hs) as (md & Hmd & Hal & Hrow).
    destruct (init_view false ckn tk s v (reach_shape _ _ _ _ _ Ht) Hu ltac:(done)) as (w & Hw & Hv & E1 & E2).
    pose proof (simR_simulation md Hmd false ckn tk cs ltac:(done)) as HS.
    assert (HR : simR md false ckn tk cs (start cs) s (cstart cs) w) by by apply simR_start.
    destruct (simulation_reach _ _ _ _ _ _ _ _ _ HS HR Hr) as (l' & w' & HR' & Hm).
    exists l', w', (bool_decide (md = NoRename)). split_and!.
    - by apply (sim_agrees _ _ _ _ HS).
    - eapply machine_inv; [exact I1| |exact Hm]. apply I0; [by eapply shC_wf|done].
    - intros H. apply bool_decide_eq_true. by apply Hrow.
  Qed.

  Lemma crash_in_machine :
    rtc pstep (Pool (start cs) s) PCrashed -> exists l w, I l w /\ cstep ckn tk (APool l w) ACrashed.
  Proof.
    intros Hr. destruct (separate_mode cs Hs) as (md & Hmd & Hal & Hrow).
    destruct (init_view false ckn tk s v (reach_shape _ _ _ _ _ Ht) Hu ltac:(done)) as (w & Hw & Hv & E1 & E2).
    pose proof (simR_simulation md Hmd false ckn tk cs ltac:(done)) as HS.
    assert (HR : simR md false ckn tk cs (start cs) s (cstart cs) w) by by apply simR_start.
    pose proof (simulation_reach _ _ _ _ _ _ _ _ _ HS HR Hr) as Hm.
    eapply machine_crash; [exact I1| |exact Hm]. apply I0; [by eapply shC_wf|done].
  Qed.
End machine.

(** No call is in the middle of a change. *)
Definition settled (ts : list thr) (s : repo) : Prop :=
  (rw_writer (r_imu s) = false /\ rw_writer (r_amu s) = false) \/ Forall finished ts.

Lemma agrees_shows tk rows ts s l w : agrees tk rows ts s l w -> settled ts s -> shows tk s (view_of w).
Proof.
  intros HA Hq. exists w. split; [done|]. split; [|by eapply ag_aliases].
  eapply ag_indices; [done|]. destruct Hq as [[? _]|?]; [by left|by right].
Qed.

Lemma shape_shows ckn tk s v : shape ckn tk s v -> unblocked v -> shows tk s v.
Proof.
  intros Hs Hu. destruct (init_view false ckn tk s v Hs Hu ltac:(done)) as (w & Hw & Hv & _).
  exists w. split_and!; [done|by eapply shows_I|by eapply shows_A].
Qed.

Global Instance DocRequest_eq_dec : EqDecision DocRequest.
Proof. solve_decision. Defined.

(** ** C52: aliases do not dangle *)

Lemma listed_view w : wfC w -> listed w <-> no_dangling (view_of w).
Proof.
  intros Hw. split; intros H a l x Ha Hx; specialize (H a l x Ha Hx).
  - by apply view_idx_is_Some.
  - by apply view_idx_is_Some in H.
Qed.

(** Concurrent calls in which Rename and UnAlias do not both occur, and no index
    is renamed to itself: if no alias lists a missing index at the start, none
    ever does. *)
Theorem C52_no_dangling_aliases :
  forall ckn tk s v cs ts s',
    tracks ckn tk s v -> unblocked v -> separate cs -> (forall n, CRename n n ∉ cs) ->
    (forall a l x, v_ali v !! a = Some l -> x ∈ l -> is_Some (v_idx v !! x)) ->
    rtc pstep (Pool (start cs) s) (Pool ts s') -> settled ts s' ->
    exists v', shows tk s' v' /\ forall a l x, v_ali v' !! a = Some l -> x ∈ l -> is_Some (v_idx v' !! x).
Proof.
  intros ckn tk s v cs ts s' Ht Hu Hs Hcs Hd Hr Hq.
  destruct (in_machine ckn tk s v cs Ht Hu Hs (dang_inv ckn tk cs)) with (ts := ts) (s' := s')
    as (l & w & rows & HA & HI & _); [|intros; by eapply dang_step|done|].
  { intros w Hw <-. apply dang_start; [done|]. by apply listed_view. }
  exists (view_of w). split; [by eapply agrees_shows|]. destruct HI as (Hw & Hl & _). by apply listed_view.
Qed.
Print Assumptions C52_no_dangling_aliases.

(** No call panics and the process survives. *)
Theorem C52_no_panic :
  forall ckn tk s v cs p,
    tracks ckn tk s v -> unblocked v -> separate cs -> (forall n, CRename n n ∉ cs) ->
    (forall a l x, v_ali v !! a = Some l -> x ∈ l -> is_Some (v_idx v !! x)) ->
    (forall n q e, CSearch n q e ∈ cs -> engine_safe ckn tk q e) ->
    rtc pstep (Pool (start cs) s) p ->
    exists ts s', p = Pool ts s' /\ forall i, ts !! i <> Some (TRun Throw).
Proof.
  intros ckn tk s v cs p Ht Hu Hs Hcs Hd He Hr.
  assert (H0 : forall w, wfC w -> view_of w = v -> dang_inv ckn tk cs (cstart cs) w).
  { intros w Hw <-. apply dang_start; [done|]. by apply listed_view. }
  assert (Hno : forall n q e reqs, CSearch n q e ∈ cs -> search_docs ckn tk reqs q e <> Panic).
  { intros n q e reqs Hin. destruct (He _ _ _ Hin reqs) as [l Hl]. unfold search_docs. by rewrite Hl. }
  destruct p as [ts s'|].
  - exists ts, s'. split; [done|]. intros i Hi.
    destruct (in_machine ckn tk s v cs Ht Hu Hs (dang_inv ckn tk cs)) with (ts := ts) (s' := s')
      as (l & w & rows & HA & HI & _); [done|intros; by eapply dang_step|done|].
    destruct (ag_answer _ _ _ _ _ _ HA _ _ Hi I) as (a & Hl & Ha). destruct a as [|]; [done|].
    destruct HI as (_ & _ & Hlen & Hthr).
    destruct (lookup_lt_is_Some_2 cs i) as [c Hc]; [rewrite <- Hlen; by eapply lookup_lt_Some|].
    destruct (Hthr _ _ _ Hl Hc) as [Hsane _]. destruct (Hsane _ eq_refl) as (n & q & e & reqs & -> & Hp).
    eapply Hno; [|exact Hp]. by eapply elem_of_list_lookup_2.
  - exfalso. destruct (crash_in_machine ckn tk s v cs Ht Hu Hs (dang_inv ckn tk cs)) as (l & w & HI & Hc);
      [done|intros; by eapply dang_step|done|].
    destruct (dang_crash _ _ _ _ _ HI Hc) as (n & q & e & reqs & Hin & Hp). by eapply Hno.
Qed.
Print Assumptions C52_no_panic.

(** A new repo meets the hypotheses, with Puts, Alias, Drop, Rename and Search
    through the alias running at the same time. *)
Example C52_example :
  let cs := [CPut "p" dA; CAlias "a" "p"; CDrop "p"; CRename "q" "r"; CPut "a" dB; CSearch "a" "b" LinearSearch] in
  tracks true letters fresh new_view /\ unblocked new_view /\ separate cs /\ (forall n, CRename n n ∉ cs) /\
  (forall a l x, v_ali new_view !! a = Some l -> x ∈ l -> is_Some (v_idx new_view !! x)) /\
  (forall n q e, CSearch n q e ∈ cs -> engine_safe true letters q e).
Proof.
  intros cs. split_and!; [apply tracks_new|done|right; intros a i; unfold cs; set_solver|..].
  - intros n Hn. unfold cs in Hn. repeat (apply elem_of_cons in Hn as [Hn|Hn]; [congruence|]). by apply elem_of_nil in Hn.
  - intros a l x Ha. unfold new_view in Ha. simpl in Ha. by rewrite lookup_empty in Ha.
  - intros n q e Hn. assert (e = LinearSearch) as -> by (unfold cs in Hn; set_solver).
    apply (C44_engines_safe true letters q id).
Qed.

(** If Rename and UnAlias both run, an alias can end up listing a missing index:
    UnAlias copies the list while Rename rewrites it.  Then Search panics... *)
Theorem C52_rename_unalias_refuted :
  exists cs ts s',
    (forall n, CRename n n ∉ cs) /\
    rtc pstep (Pool (start cs) fresh) (Pool ts s') /\ Forall finished ts /\
    (exists i q, cs !! i = Some (CSearch "a" q LinearSearch) /\ ts !! i = Some (TRun Throw)) /\
    shows letters s' (MkView {["r" := [dA]; "q" := [dB]]} {["a" := ["p"]]} 0 false).
Proof.
  set (cs := [CPut "p" dA; CPut "q" dB; CAlias "a" "p"; CAlias "a" "q"; CUnAlias "a" "q"; CRename "p" "r";
              CSearch "a" "b" LinearSearch]).
  set (l := steps 0 12 ++ steps 1 12 ++ steps 2 9 ++ steps 3 10 ++ steps 4 7 ++ steps 5 30 ++ steps 4 30 ++ steps 6 30).
  exists cs, (after_run l cs).1, (after_run l cs).2. split_and!.
  - intros n Hn. unfold cs in Hn. repeat (apply elem_of_cons in Hn as [Hn|Hn]; [congruence|]). by apply elem_of_nil in Hn.
  - apply after_run_reach.
  - assert ((after_run l cs).1 = [TRun (Ret RUnit); TRun (Ret RUnit); TRun (Ret (RBool true)); TRun (Ret (RBool true));
      TRun (Ret (RBool true)); TRun (Ret (RBool true)); TRun Throw]) as -> by calc.
    repeat constructor.
  - exists 6, "b"%string. split; [done|calc].
  - exists (MkC {["r" := 0; "q" := 1]} {[0 := ("p"%string, [dA]); 1 := ("q"%string, [dB])]} {["a" := ["p"]]}%string).
    split_and!.
    + unfold view_of. cbn [c_ali]. f_equal. apply (bool_decide_unpack _); vm_compute; exact I.
    + split; [apply (bool_decide_unpack _); vm_compute; exact I|]. intros n p. cbn [c_idx]. rewrite lookup_insert_Some, lookup_singleton_Some.
      intros [[<- <-]|[_ [<- <-]]].
      * eexists _, _. split; [done|calc].
      * eexists _, _. split; [done|calc].
    + unfold shows_aliases. apply (bool_decide_unpack _); vm_compute; exact I.
Qed.
Print Assumptions C52_rename_unalias_refuted.

(** ... and Put kills the process. *)
Theorem C52_rename_unalias_crash_refuted :
  exists cs, (forall n, CRename n n ∉ cs) /\ rtc pstep (Pool (start cs) fresh) PCrashed.
Proof.
  set (cs := [CPut "p" dA; CPut "q" dB; CAlias "a" "p"; CAlias "a" "q"; CUnAlias "a" "q"; CRename "p" "r"; CPut "a" dA]).
  set (l := steps 0 12 ++ steps 1 12 ++ steps 2 9 ++ steps 3 10 ++ steps 4 7 ++ steps 5 30 ++ steps 4 30 ++ steps 6 11).
  exists cs. split.
  - intros n Hn. unfold cs in Hn. repeat (apply elem_of_cons in Hn as [Hn|Hn]; [congruence|]). by apply elem_of_nil in Hn.
  - pose proof (after_run_reach l cs) as Hr.
    assert (exists k, (after_run l cs).1 !! 6 = Some (TPut [Some None] dA k)) as [k Ek] by (eexists; calc).
    generalize dependent (after_run l cs). intros [ts s'] Hr Ek. cbn [fst snd] in *.
    eapply rtc_r; [exact Hr|]. eapply P_crash; [exact Ek|]. by apply (S_PutChild_nil _ _ _ _ 0).
Qed.
Print Assumptions C52_rename_unalias_crash_refuted.

(** ** C51: two first Puts can lose a document *)

Ltac thr_step i tac := eapply rtc_l; [eapply (P_step _ _ i); [reflexivity|tac]|]; cbn [list_insert insert].

Theorem C51_lost_document :
  forall ckn tk s v n d1 d2,
    tracks ckn tk s v -> unblocked v -> v_idx v !! n = None -> v_ali v !! n = None ->
    exists s',
      rtc pstep (Pool (start [CPut n d1; CPut n d2]) s) (Pool [TRun (Ret RUnit); TRun (Ret RUnit)] s') /\
      shows tk s' (MkView (<[n := [d2]]> (v_idx v)) (v_ali v) 0 false).
Proof.
  intros ckn tk s v n d1 d2 Ht [HI HA] Hn Ha.
  destruct (reach_shape _ _ _ _ _ Ht) as [SI SA E1 E2]. rewrite HI in E1. rewrite HA in E2.
  destruct s as [I A im am]. cbn [r_I r_A r_imu r_amu] in *. subst im am.
  apply (shI_None _ _ _ _ _ SI) in Hn. assert (Ha' : a_map A !! n = None).
  { destruct (a_map A !! n) as [sl|] eqn:E; [|done]. destruct (shA_fwd _ _ SA _ _ E) as [_ ?]. congruence. }
  eexists. split.
  - unfold start. cbn [fmap list_fmap prog_of]. unfold Put_prog, getIndices.
    thr_step 0 ltac:(by eapply S_RLock). cbn.
    thr_step 0 ltac:(by eapply S_GetIndex). cbn. rewrite Hn.
    thr_step 0 ltac:(by eapply S_RLock). cbn.
    thr_step 0 ltac:(by eapply S_GetAlias). cbn. rewrite Ha'.
    thr_step 0 ltac:(by eapply S_RUnlock). cbn.
    thr_step 0 ltac:(by eapply S_RUnlock). cbn.
    thr_step 1 ltac:(by eapply S_RLock). cbn.
    thr_step 1 ltac:(by eapply S_GetIndex). cbn. rewrite Hn.
    thr_step 1 ltac:(by eapply S_RLock). cbn.
    thr_step 1 ltac:(by eapply S_GetAlias). cbn. rewrite Ha'.
    thr_step 1 ltac:(by eapply S_RUnlock). cbn.
    thr_step 1 ltac:(by eapply S_RUnlock). cbn.
    do 2 (
    first [thr_step 0 ltac:(by eapply S_Announce); cbn; thr_step 0 ltac:(by eapply S_Acquire); cbn;
      thr_step 0 ltac:(by eapply S_NewIndex); cbn; thr_step 0 ltac:(by eapply S_SetIndex); cbn;
      thr_step 0 ltac:(by eapply S_IdxPut); cbn; thr_step 0 ltac:(by eapply S_Unlock); cbn
     |thr_step 1 ltac:(by eapply S_Announce); cbn; thr_step 1 ltac:(by eapply S_Acquire); cbn;
      thr_step 1 ltac:(by eapply S_NewIndex); cbn; thr_step 1 ltac:(by eapply S_SetIndex); cbn;
      thr_step 1 ltac:(by eapply S_IdxPut); cbn; thr_step 1 ltac:(by eapply S_Unlock); cbn]).
    apply rtc_refl.
  - apply (shape_shows ckn); [|done]. split; cbn [r_I r_A r_imu r_amu v_idx v_ali v_leakI v_leakA]; [|done|done|done].
    rewrite <- (insert_insert (v_idx v) n [d2] [d1]). apply (shI_new _ _ _ _ n d2 (shI_new _ _ _ _ n d1 SI)).
Qed.
Print Assumptions C51_lost_document.

(** Both Puts return, the first document is gone. *)
Example C51_example :
  tracks true letters fresh new_view /\ unblocked new_view /\ v_idx new_view !! "n" = None /\ v_ali new_view !! "n" = None.
Proof. split_and!; [apply tracks_new|done|apply lookup_empty|apply lookup_empty]. Qed.

(** ** C50: concurrent Puts to an existing index lose nothing *)

(** The code stores, under the name [n], an index made of the documents [reqs]. *)
Definition holds (tk : Tokenizer) (s : repo) (n : string) (reqs : list DocRequest) : Prop :=
  exists p nm, i_map (r_I s) !! n = Some p /\ i_heap (r_I s) !! p = Some (index_after nm tk reqs).

Lemma put_inv_0 cs n old w :
  (forall m, CDrop m ∉ cs) -> without_rename cs -> wfC w -> v_idx (view_of w) !! n = Some old -> exists p, put_inv cs n p old (cstart cs) w.
Proof.
  intros Hd Hc Hw Hn. rewrite view_idx in Hn. destruct (c_idx w !! n) as [p|] eqn:Ei; [|done]. simpl in Hn.
  destruct (c_obj w !! p) as [[nm reqs]|] eqn:Eo; [|done]. simpl in Hn. injection Hn as ->.
  exists p. eapply put_inv_start; done.
Qed.

(** Whatever else runs, except Drop and Rename, an index that existed at the start
    holds, in any order of arrival, its old documents followed by the document of
    every Put(n, d) that has returned, of possibly some that are about to return,
    each once, and of Puts through aliases. *)
Theorem C50_nothing_lost :
  forall ckn tk s v cs n old ts s',
    tracks ckn tk s v -> unblocked v -> v_idx v !! n = Some old ->
    (forall m, CDrop m ∉ cs) -> without_rename cs ->
    rtc pstep (Pool (start cs) s) (Pool ts s') ->
    rw_writer (r_imu s') = false \/ Forall finished ts ->
    exists news js ds extra,
      holds tk s' n (old ++ news) /\ news ≡ₚ ds ++ extra /\
      NoDup js /\ Forall2 (fun j d => cs !! j = Some (CPut n d)) js ds /\
      (forall j d t, cs !! j = Some (CPut n d) -> ts !! j = Some t -> finished t -> j ∈ js) /\
      (forall d, d ∈ extra -> exists m, m <> n /\ CPut m d ∈ cs).
Proof.
  intros ckn tk s v cs n old ts s' Ht Hu Hn Hd Hc Hr Hq.
  destruct (in_machine ckn tk s v cs Ht Hu (or_introl Hc) (fun l w => exists p, put_inv cs n p old l w)) with (ts := ts) (s' := s')
    as (l & w & rows & HA & [p HI] & _); [| |done|].
  { intros w Hw <-. by apply put_inv_0. }
  { intros l w l' w' [p HI] Hs. exists p. by eapply put_inv_step. }
  destruct HI as [H1 H2 H3 H4 (nm & news & js & ds & extra & Ho & Hp & Hnd & Hjs & Hiff & Hex)].
  exists news, js, ds, extra. split_and!; try done.
  - destruct (ag_indices _ _ _ _ _ _ HA Hq) as [E Hh]. destruct (Hh _ _ H2) as (nm' & reqs & Eo & Ei). simplify_eq.
    eexists p, _. rewrite E. split; [done|exact Ei].
  - eapply Forall2_impl; [exact Hjs|]. simpl. by intros j d (m & -> & ?).
  - intros j d [q| | |] Hj Hti Hfin; try done. destruct (ag_answer _ _ _ _ _ _ HA _ _ Hti Hfin) as (a & Hl & Ha).
    apply (Hiff _ _ _ Hl Hj). pose proof (H4 _ _ _ _ Hl Hj eq_refl) as Hs. simpl in Hs. by subst a.
Qed.
Print Assumptions C50_nothing_lost.

(** The documents put into [n] by name. *)
Definition docs_put (n : string) (cs : list call) : list DocRequest :=
  omap (fun c => match c with CPut m d => if decide (m = n) then Some d else None | _ => None end) cs.

Lemma omap_seq {A B} (f : A -> option B) (l : list A) :
  omap (fun j => l !! j ≫= f) (seq 0 (length l)) = omap f l.
Proof.
  induction l as [|x l IH]; [done|]. cbn [length seq]. rewrite <- fmap_S_seq.
  assert (E : forall (g : nat -> option B) (ks : list nat), omap g (S <$> ks) = omap (fun j => g (S j)) ks).
  { clear. intros g ks. induction ks as [|k ks IH]; [done|]. cbn. by rewrite IH. }
  cbn [omap list_omap]. rewrite E. cbn [lookup list_lookup mbind option_bind]. by rewrite <- IH.
Qed.

(** If all calls return and no other Put runs, the index holds exactly the old
    documents and the new ones, each once. *)
Theorem C50_exactly_the_puts :
  forall ckn tk s v cs n old ts s',
    tracks ckn tk s v -> unblocked v -> v_idx v !! n = Some old ->
    (forall m, CDrop m ∉ cs) -> without_rename cs -> (forall m d, CPut m d ∈ cs -> m = n) ->
    rtc pstep (Pool (start cs) s) (Pool ts s') -> Forall finished ts ->
    exists news, holds tk s' n (old ++ news) /\ news ≡ₚ docs_put n cs.
Proof.
  intros ckn tk s v cs n old ts s' Ht Hu Hn Hd Hc Hm Hr Hf.
  destruct (C50_nothing_lost ckn tk s v cs n old ts s' Ht Hu Hn Hd Hc Hr (or_intror Hf))
    as (news & js & ds & extra & Hh & Hp & Hnd & Hjs & Hdone & Hex).
  exists news. split; [done|]. rewrite Hp.
  assert (extra = []) as ->.
  { destruct extra as [|d extra]; [done|]. destruct (Hex d) as (m & Hne & Hin); [by left|]. by destruct Hne; eapply Hm. }
  rewrite app_nil_r.
  set (g := fun c => match c with CPut m d => if decide (m = n) then Some d else None | _ => None end).
  assert (Hds : ds = omap (fun j => cs !! j ≫= g) js).
  { clear -Hjs. induction Hjs as [|j d js ds Hj Hjs IH]; [done|]. cbn. rewrite Hj. cbn. rewrite decide_True by done. by rewrite IH. }
  assert (Hlen : length ts = length cs).
  { refine (rtc_ind_r (R := pstep) (fun p => match p with Pool ts1 s1 => length ts1 = length cs | PCrashed => True end) _ _ _ _ Hr).
    - unfold start. by rewrite fmap_length.
    - intros y z _ Hs IH. inversion Hs; simplify_eq; [|done]. by rewrite insert_length. }
  assert (Hiff : js ≡ₚ filter (fun j => is_Some (cs !! j ≫= g)) (seq 0 (length cs))).
  { apply NoDup_Permutation; [done|apply NoDup_filter, NoDup_seq|]. intros j. rewrite elem_of_list_filter, elem_of_seq. split.
    - intros [k Hk]%elem_of_list_lookup. destruct (Forall2_lookup_l _ _ _ _ _ Hjs Hk) as (d & _ & Hj).
      rewrite Hj. simpl. rewrite decide_True by done. split; [by eexists|]. apply lookup_lt_Some in Hj. lia.
    - intros [Hg _]. destruct (cs !! j) as [c|] eqn:Hj; [|by destruct Hg]. simpl in Hg.
      destruct c; try (by destruct Hg). simpl in Hg. case_decide; [|by destruct Hg]. subst.
      destruct (lookup_lt_is_Some_2 ts j) as [t Htj]; [rewrite Hlen; by eapply lookup_lt_Some|].
      eapply Hdone; [done|done|]. exact (Forall_lookup_1 _ _ _ _ Hf Htj). }
  rewrite Hds, Hiff. unfold docs_put. fold g. rewrite <- (omap_seq g cs).
  assert (E : forall ks : list nat, omap (fun j => cs !! j ≫= g) (filter (fun j => is_Some (cs !! j ≫= g)) ks) = omap (fun j => cs !! j ≫= g) ks).
  { clear. induction ks as [|k ks IH]; [done|]. rewrite filter_cons. case_decide as Hk; cbn [omap list_omap]; [by rewrite IH|].
    destruct (cs !! k ≫= g) eqn:E; [by destruct Hk|done]. }
  by rewrite E.
Qed.
Print Assumptions C50_exactly_the_puts.

(** Puts, by name and through an alias, next to Searches, Alias and UnAlias calls. *)
Example C50_example :
  let cs := [CPut "p" dA; CPut "p" dB; CPut "p" dA; CSearch "both" "a" LinearSearch; CAlias "other" "p"; CUnAlias "both" "q"] in
  (exists s, tracks true letters s two_view) /\ unblocked two_view /\ v_idx two_view !! "p" = Some [dA] /\
  (forall m, CDrop m ∉ cs) /\ without_rename cs /\ (forall m d, CPut m d ∈ cs -> m = "p"%string) /\
  docs_put "p" cs = [dA; dB; dA].
Proof.
  intros cs. split; [by apply example_two|]. split_and!; [done|done|unfold cs; set_solver|intros old new; unfold cs; set_solver| |done].
  intros m d. unfold cs. set_solver.
Qed.
