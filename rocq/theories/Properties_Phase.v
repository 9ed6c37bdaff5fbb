(** * Property C77: what is guaranteed once concurrent calls have returned.

    [tracks ckn tk s v] (SpecRepo.v) allows histories in which some calls were
    issued one after the other and others at once.  Here: every such phase leads to
    a state that is tracked again, so every property proved of [tracks] holds after
    it; and what the view is. *)
From Coq Require Import Lia.
From stdpp Require Import gmap list.
From Verif Require Import Entities Search SpecSearch Properties_Search Repo Sem RepoWp SpecRepo
  ProofRepo ProofTotal ProofReach Properties_Repo SpecConc Locks Race ProofRace Reduce ProofConc ProofSim Run
  Properties_Conc SpecLin ProofMachine ProofLin Properties_Lin Properties_Puts.
Open Scope nat_scope.

Lemma finished_unlocked md cs gh ts s :
  pool_inv md (leaks_of cs) gh ts s -> Forall finished ts -> ~ left_behind cs ts ->
  forall m, get_mu m s = rw_free.
Proof.
  intros Hp Hf Hl m. pose proof (pi_lock _ _ _ _ _ Hp m) as [K1 K2 K3 _ _].
  assert (Hz : forall x, x <> HN -> cnt x ((fun y => get_h m y.2) <$> gh) = 0).
  { intros x Hx. apply cnt_none. intros h Hin. apply elem_of_list_fmap in Hin as ([g h'] & -> & Hin).
    apply elem_of_list_lookup in Hin as [i Hi].
    destruct (lookup_lt_is_Some_2 ts i) as [t Ht]; [rewrite <- (pi_len _ _ _ _ _ Hp); by eapply lookup_lt_Some|].
    assert (h' = none_held) as -> by (eapply finished_free; [exact Hp|exact Hl|exact Ht|exact Hi|by eapply Forall_lookup_1]).
    destruct m; cbn; congruence. }
  rewrite !Hz in * by done. destruct (get_mu m s) as [r p w]. simpl in *. subst. by destruct p, w.
Qed.

(** Any calls, Rename and UnAlias not both among them, are issued at once on a repo
    with any history, and all return or panic: the state is tracked again, the view
    being the outcome of a run of the machine of atomic sections (C57).  Unless some
    UnAlias left a lock behind, all locks are free. *)
Theorem C77_phase :
  forall ckn tk s v cs ts s',
    tracks ckn tk s v -> unblocked v -> separate cs ->
    rtc pstep (Pool (start cs) s) (Pool ts s') -> Forall finished ts ->
    exists v', tracks ckn tk s' v' /\ (~ left_behind cs ts -> unblocked v') /\
      exists w0 l w, view_of w0 = v /\ rtc (cstep ckn tk) (APool (cstart cs) w0) (APool l w) /\
        v_idx v' = v_idx (view_of w) /\ v_ali v' = v_ali (view_of w).
Proof.
  intros ckn tk s v cs ts s' Ht Hu Hs Hr Hf.
  destruct (phase_end _ _ _ _ _ _ _ (reach_shape _ _ _ _ _ Ht) Hu Hs Hr Hf) as (w0 & l & w & n & b & Hv & _ & Hm & _ & Hsh & _).
  exists (MkView (v_idx (view_of w)) (v_ali (view_of w)) n b). split; [|split; [|by exists w0, l, w]].
  - eapply R_together; [exact Ht|done|exact Hu|exact Hs|exact Hr|exact Hf|]. by eapply shape_stores.
  - intros Hl. destruct (reach_shape _ _ _ _ _ Ht) as [_ _ E1 E2]. destruct Hu as [HI HA]. rewrite HI in E1. rewrite HA in E2.
    destruct (pool_reach Any cs s _ E1 E2 (any_allowed cs) Hr) as [gh Hp].
    pose proof (finished_unlocked _ _ _ _ _ Hp Hf Hl) as Hfree.
    destruct Hsh as [_ _ F1 F2]. cbn in F1, F2. pose proof (Hfree MI) as G1. pose proof (Hfree MA) as G2. cbn in G1, G2.
    rewrite F1 in G1. rewrite F2 in G2. injection G1 as ->. by injection G2 as ->.
Qed.
Print Assumptions C77_phase.

(** The same in a restricted history: if each of the calls is allowed in every state,
    the history may go on after the phase (C35, C44, C45 and C47 are about such
    histories). *)
Theorem C77_restricted :
  forall ckn tk (ok : view -> call -> Prop) s v cs ts s',
    reach ckn tk ok s v -> unblocked v -> separate cs -> (forall c, c ∈ cs -> forall v, ok v c) ->
    rtc pstep (Pool (start cs) s) (Pool ts s') -> Forall finished ts ->
    exists v', reach ckn tk ok s' v' /\ (~ left_behind cs ts -> unblocked v').
Proof.
  intros ckn tk ok s v cs ts s' Ht Hu Hs Hok Hr Hf.
  assert (Ht' : tracks ckn tk s v) by (by eapply reach_weaken; [|exact Ht]).
  destruct (C77_phase _ _ _ _ _ _ _ Ht' Hu Hs Hr Hf) as (v' & Hv' & Hl & _). exists v'. split; [|done].
  eapply R_together; [exact Ht|exact Hok|exact Hu|exact Hs|exact Hr|exact Hf|]. by eapply shape_stores, reach_shape.
Qed.
Print Assumptions C77_restricted.

(** So, whatever calls ran at once before, every later call does what the abstract
    machine says; from the state of the memory alone. *)
Theorem C77_calls_after_phase :
  forall ckn tk s v cs ts s' v' c res,
    tracks ckn tk s v -> unblocked v -> separate cs ->
    rtc pstep (Pool (start cs) s) (Pool ts s') -> Forall finished ts -> stores tk s' v' ->
    call_result c s' res ->
    match res with
    | Done r s2 => exists v2, spec ckn tk c v' (ODone (see s2 r) v2) /\ tracks ckn tk s2 v2
    | Panicked s2 => exists v2, spec ckn tk c v' (OPanic v2) /\ tracks ckn tk s2 v2
    | Crashed => spec ckn tk c v' OCrash
    | Blocked => spec ckn tk c v' OBlock
    end.
Proof.
  intros ckn tk s v cs ts s' v' c res Ht Hu Hs Hr Hf Hst Hc.
  eapply (reach_call ckn tk any_call); [|done|exact Hc]. by eapply R_together.
Qed.
Print Assumptions C77_calls_after_phase.

(** The view may be read off the memory. *)
Lemma phase_shows ckn tk s v cs ts s' v' :
  tracks ckn tk s v -> unblocked v -> separate cs ->
  rtc pstep (Pool (start cs) s) (Pool ts s') -> Forall finished ts -> ~ left_behind cs ts ->
  shows tk s' v' -> tracks ckn tk s' v'.
Proof.
  intros Ht Hu Hs Hr Hf Hl (w & Hw & [SI1 SI2] & SA).
  destruct (C77_phase _ _ _ _ _ _ _ Ht Hu Hs Hr Hf) as (v1 & Ht1 & Hu1 & _). specialize (Hu1 Hl).
  eapply R_together; [exact Ht|done|exact Hu|exact Hs|exact Hr|exact Hf|].
  destruct (reach_shape _ _ _ _ _ Ht1) as [_ _ E1 E2]. destruct Hu1 as [U1 U2]. rewrite U1 in E1. rewrite U2 in E2.
  subst v'. split; [|exact SA|exact E1|exact E2]. intros n. rewrite SI1. cbn [view_of v_idx]. rewrite lookup_omap.
  destruct (c_idx w !! n) as [p|] eqn:En; [|done]. cbn. destruct (SI2 _ _ En) as (nm & reqs & -> & Hh). by exists nm, reqs.
Qed.

(** If the calls tolerate each other (C58), the view is what the machine reaches by
    making the calls one after the other, in some order. *)
Theorem C77_serial :
  forall ckn tk s v cs ts s',
    tracks ckn tk s v -> unblocked v -> separate cs -> calm v cs ->
    rtc pstep (Pool (start cs) s) (Pool ts s') -> Forall finished ts -> ~ left_behind cs ts ->
    exists log v', log.*1.*1 ≡ₚ seq 0 (length cs) /\ chain v log v' /\ tracks ckn tk s' v' /\
      forall i vb va, (i, vb, va) ∈ log -> exists c a, cs !! i = Some c /\ explained ckn tk c a vb va.
Proof.
  intros ckn tk s v cs ts s' Ht Hu Hs Hc Hr Hf Hl.
  destruct (C58_serializable _ _ _ _ _ _ _ Ht Hu Hc Hr Hf) as (log & v' & Hp & Hch & Hsh & Hex).
  exists log, v'. split_and!; [done..|by eapply phase_shows|].
  - intros i vb va Hin.
    assert (Hi : i < length cs).
    { assert (Hi : i ∈ seq 0 (length cs)).
      { rewrite <- Hp. apply elem_of_list_fmap. exists (i, vb). split; [done|]. apply elem_of_list_fmap. by exists (i, vb, va). }
      apply elem_of_seq in Hi. lia. }
    assert (Hlen : length ts = length cs).
    { refine (rtc_ind_r (R := pstep) (fun p => match p with Pool ts1 s1 => length ts1 = length cs | PCrashed => True end) _ _ _ _ Hr).
      - unfold start. by rewrite fmap_length.
      - intros y z _ Hst IH. inversion Hst; simplify_eq; [|done]. by rewrite insert_length. }
    destruct (lookup_lt_is_Some_2 ts i) as [t Hti]; [lia|]. pose proof (Forall_lookup_1 _ _ _ _ Hf Hti) as Hfi.
    destruct t as [p| | |]; try done. destruct (Hex _ _ Hti) as (c & a & vb' & va' & Hci & Hin' & Hexp & _).
    exists c, a. split; [done|].
    assert ((vb', va') = (vb, va)) as E; [|by injection E as -> ->].
    assert (Hnd : NoDup log.*1.*1) by (rewrite Hp; apply NoDup_seq).
    clear -Hnd Hin Hin'. induction log as [|[[j b] a] log IH]; [by apply elem_of_nil in Hin|].
    cbn in Hnd. apply NoDup_cons in Hnd as [Hj Hnd].
    assert (Hno : forall x y, (j, x, y) ∈ log -> False).
    { intros x y H. apply Hj, elem_of_list_fmap. exists (j, x). split; [done|]. apply elem_of_list_fmap. by exists (j, x, y). }
    apply elem_of_cons in Hin as [Hin|Hin]; apply elem_of_cons in Hin' as [Hin'|Hin'].
    + congruence.
    + injection Hin as -> -> ->. by apply Hno in Hin'.
    + injection Hin' as -> -> ->. by apply Hno in Hin.
    + by apply IH.
Qed.
Print Assumptions C77_serial.

(** Documents put at once into an index that exists are found by every later
    search, whatever else ran at the same time except Drop, Rename and UnAlias: the
    index holds its old documents and all the new ones, each once. *)
Theorem C77_puts_then_search :
  forall ckn tk s v cs n old ts s',
    tracks ckn tk s v -> unblocked v -> v_idx v !! n = Some old ->
    (forall m, CDrop m ∉ cs) -> without_rename cs -> without_unalias cs -> (forall m d, CPut m d ∈ cs -> m = n) ->
    rtc pstep (Pool (start cs) s) (Pool ts s') -> Forall finished ts ->
    exists v' news, news ≡ₚ docs_put n cs /\ tracks ckn tk s' v' /\ unblocked v' /\
      v_idx v' !! n = Some (old ++ news) /\
      forall q, ret_ ckn tk (CSearch n q LinearSearch) s' (eq (OResults (and_search tk (old ++ news) (tk q)))) v'.
Proof.
  intros ckn tk s v cs n old ts s' Ht Hu Hn Hd Hc Hua Hm Hr Hf.
  assert (Hl : ~ left_behind cs ts).
  { intros (i & a & x & Hi & _). apply (Hua a x). by eapply elem_of_list_lookup_2. }
  destruct (C50_exactly_the_puts ckn tk s v cs n old ts s' Ht Hu Hn Hd Hc Hm Hr Hf) as (news & (p & nm & Hp & Hh) & Hnews).
  destruct (C77_phase _ _ _ _ _ _ _ Ht Hu (or_introl Hc) Hr Hf) as (v1 & Ht1 & Hu1 & _). specialize (Hu1 Hl).
  destruct (shape_stores _ _ _ _ (reach_shape _ _ _ _ _ Ht1)) as [S1 S2 S3 S4].
  set (v' := MkView (<[n := old ++ news]> (v_idx v1)) (v_ali v1) (v_leakI v1) (v_leakA v1)).
  assert (Ht' : tracks ckn tk s' v').
  { eapply R_together; [exact Ht|done|exact Hu|by left|exact Hr|exact Hf|]. split; [|done|done|done].
    intros m. unfold v'. cbn [v_idx]. destruct (decide (m = n)) as [->|Hne].
    - rewrite Hp, lookup_insert. by exists nm, (old ++ news).
    - rewrite lookup_insert_ne by done. apply S1. }
  exists v', news. assert (Hv : v_idx v' !! n = Some (old ++ news)) by apply lookup_insert.
  split_and!; [done|done|exact Hu1|done|]. intros q. eapply search_index; [done|done|]. apply C01_linear_search_exact.
Qed.
Print Assumptions C77_puts_then_search.

(** Two first Puts of the same name can both return and leave only the second
    document: no later search finds the first one, until it is put again. *)
Theorem C77_lost_for_good :
  forall ckn tk s v n d1 d2,
    tracks ckn tk s v -> unblocked v -> v_idx v !! n = None -> v_ali v !! n = None ->
    exists s' v',
      rtc pstep (Pool (start [CPut n d1; CPut n d2]) s) (Pool [TRun (Ret RUnit); TRun (Ret RUnit)] s') /\
      tracks ckn tk s' v' /\ unblocked v' /\
      forall q, ret_ ckn tk (CSearch n q LinearSearch) s' (eq (OResults (and_search tk [d2] (tk q)))) v'.
Proof.
  intros ckn tk s v n d1 d2 Ht Hu Hn Ha.
  destruct (C51_lost_document ckn tk s v n d1 d2 Ht Hu Hn Ha) as (s' & Hr & Hsh).
  assert (Hc : separate [CPut n d1; CPut n d2]) by (left; intros old new; set_solver).
  assert (Hl : ~ left_behind [CPut n d1; CPut n d2] [TRun (Ret RUnit); TRun (Ret RUnit)]).
  { intros (i & a & x & Hi & _). by destruct i as [|[|i]]. }
  assert (Hf : Forall finished [TRun (Ret RUnit); TRun (Ret RUnit)]) by (by repeat constructor).
  pose proof (phase_shows _ _ _ _ _ _ _ _ Ht Hu Hc Hr Hf Hl Hsh) as Ht'.
  eexists s', _. split_and!; [exact Hr|exact Ht'|done..|]. intros q. eapply search_index; [done|apply lookup_insert|].
  apply C01_linear_search_exact.
Qed.
Print Assumptions C77_lost_for_good.

(** Three Puts and an Alias at once on an existing index: any run of them, for
    instance the one in which the calls run in reverse, ends in a tracked state. *)
Example C77_example :
  let cs := [CPut "p" dA; CPut "p" dB; CAlias "b" "p"; CList] in
  exists s ts s', tracks true letters s two_view /\ unblocked two_view /\ v_idx two_view !! "p"%string = Some [dA] /\
    separate cs /\ calm two_view cs /\ (forall m, CDrop m ∉ cs) /\ without_rename cs /\ without_unalias cs /\
    (forall m d, CPut m d ∈ cs -> m = "p"%string) /\
    rtc pstep (Pool (start cs) s) (Pool ts s') /\ Forall finished ts /\ ~ left_behind cs ts.
Proof.
  intros cs. destruct (example_two any_call true letters) as [s Hs]; try done.
  assert (Hc : without_rename cs) by (intros ? ?; unfold cs; set_solver).
  assert (Hua : without_unalias cs) by (intros ? ?; unfold cs; set_solver).
  assert (Hlb : forall ts, ~ left_behind cs ts).
  { intros ts (i & a & x & Hi & _). apply (Hua a x). by eapply elem_of_list_lookup_2. }
  destruct (C48_all_return cs s (Pool (start cs) s)) as (p' & Hr & Hp).
  1, 2: by destruct (reach_shape _ _ _ _ _ Hs) as [_ _ E1 E2].
  { apply rtc_refl. }
  assert (Hst : steady two_view cs).
  { intros c Hin. unfold cs in Hin. repeat (apply elem_of_cons in Hin as [->|Hin]; [try done; try (left; eexists; reflexivity)|]). by apply elem_of_nil in Hin. }
  assert (Hal : forall a l x, v_ali two_view !! a = Some l -> x ∈ l -> is_Some (v_idx two_view !! x)).
  { intros a l x Ha Hx. unfold two_view, two_ali in Ha. cbn in Ha. apply lookup_singleton_Some in Ha as [<- <-].
    apply elem_of_cons in Hx as [->|Hx]; [by eexists|]. apply elem_of_list_singleton in Hx as ->. by eexists. }
  destruct Hp as [->|(ts & s' & -> & [Hl|[Hf _]])]; [|by apply Hlb in Hl|].
  { exfalso. destruct (C52_no_panic true letters s two_view cs PCrashed Hs) as (? & ? & ? & _); try done.
    all: first [by left|intros n; unfold cs; set_solver|intros n q e; unfold cs; set_solver]. }
  exists s, ts, s'. split_and!; try done; [by left|by apply steady_calm|..].
  - intros m. unfold cs. set_solver.
  - intros m d. unfold cs. set_solver.
Qed.

(** Put, Alias, Drop and the removal of a whole alias at once: allowed in the
    histories of C35, C44, C45 and C47 alike. *)
Example C77_example_restricted :
  let ok := fun v c => no_leak v c /\ no_self_rename v c /\ rename_to_fresh v c /\ no_rename v c in
  let cs := [CPut "p" dB; CAlias "b" "q"; CDrop "q"; CUnAlias "both" ""] in
  exists s ts s' v', reach true letters ok s two_view /\ unblocked two_view /\ separate cs /\
    (forall c, c ∈ cs -> forall v, ok v c) /\
    rtc pstep (Pool (start cs) s) (Pool ts s') /\ Forall finished ts /\ reach true letters ok s' v'.
Proof.
  intros ok cs.
  assert (Hok : forall c, (forall old new, c <> CRename old new) -> (forall a i, c = CUnAlias a i -> i = ""%string) -> forall v, ok v c).
  { intros c H1 H2 v. split_and!; [|intros x E; by apply H1 in E|intros x y E; by apply H1 in E|exact H1]. intros (a & i & -> & Hi & _). by apply Hi, (H2 a). }
  destruct (example_two ok true letters) as [s Hs]; [intros; by apply Hok..|].
  assert (Hs' : tracks true letters s two_view) by (by eapply reach_weaken; [|exact Hs]).
  assert (Hc : without_rename cs) by (intros ? ?; unfold cs; set_solver).
  assert (Hcs : forall c, c ∈ cs -> forall v, ok v c).
  { intros c Hin v. apply Hok; [intros old new ->; by apply (Hc old new)|].
    intros a i ->. unfold cs in Hin. clear -Hin. repeat (apply elem_of_cons in Hin as [Hin|Hin]; [try done; by injection Hin|]).
    by apply elem_of_nil in Hin. }
  assert (Hlb : forall ts, ~ left_behind cs ts).
  { intros ts (i & a & x & Hi & Hx & _). apply Hx. unfold cs in Hi. by destruct i as [|[|[|[|i]]]]; simplify_eq/=. }
  destruct (C48_all_return cs s (Pool (start cs) s)) as (p' & Hr & Hp).
  1, 2: by destruct (reach_shape _ _ _ _ _ Hs) as [_ _ E1 E2].
  { apply rtc_refl. }
  assert (Hal : forall a l x, v_ali two_view !! a = Some l -> x ∈ l -> is_Some (v_idx two_view !! x)).
  { intros a l x Ha Hx. unfold two_view, two_ali in Ha. cbn in Ha. apply lookup_singleton_Some in Ha as [<- <-].
    apply elem_of_cons in Hx as [->|Hx]; [by eexists|]. apply elem_of_list_singleton in Hx as ->. by eexists. }
  destruct Hp as [->|(ts & s' & -> & [Hl|[Hf _]])]; [|by apply Hlb in Hl|].
  { exfalso. destruct (C52_no_panic true letters s two_view cs PCrashed Hs') as (? & ? & ? & _); try done.
    all: first [by left|intros n; unfold cs; set_solver|intros n q e; unfold cs; set_solver]. }
  destruct (C77_restricted true letters ok s two_view cs ts s' Hs ltac:(done) (or_introl Hc) Hcs Hr Hf) as (v' & Hv' & _).
  exists s, ts, s', v'. split_and!; try done. by left.
Qed.
