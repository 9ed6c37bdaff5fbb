(** * Properties C50-C53, C58-...: what concurrent calls guarantee. *)
From Coq Require Import Lia.
From stdpp Require Import gmap list.
From Verif Require Import Entities Search SpecSearch Properties_Search Repo Sem RepoWp SpecRepo
  ProofRepo ProofTotal ProofReach Properties_Repo SpecConc Locks Race ProofRace Reduce ProofConc ProofSim Run
  Properties_Conc SpecLin ProofMachine ProofLin.
Open Scope nat_scope.

(** ** C58: linearizability *)

Lemma shC_wf strict ckn tk D w : shC strict ckn tk D w -> wfC w.
Proof. intros H. split; apply H. Qed.

Lemma steady_calm v cs : steady v cs -> calm v cs.
Proof.
  intros H i j c c' _ Hi Hj. apply elem_of_list_lookup_2 in Hi, Hj.
  pose proof (H _ Hi) as Hc. pose proof (H _ Hj) as Hc'.
  destruct c as [| | | | | |n d| | | |]; try done; try (by destruct c'). cbn [tolerates].
  destruct (v_idx v !! n) as [reqs|] eqn:E; [by destruct c'|].
  destruct Hc as [[? ?]|[[l Hl] Hno]]; [done|]. rewrite Hl. destruct c'; try done.
  - intros ->. by destruct (Hno index) as [[] _].
  - intros ->. by destruct (Hno index) as [_ []].
  - intros _. destruct Hc' as [?|[? _]]; [by left|by right].
Qed.

Lemma calm_separate v cs : calm v cs -> separate cs.
Proof.
  intros H.
  assert (Hd : forall cs', (exists a i, CUnAlias a i ∈ cs') \/ without_unalias cs').
  { clear. induction cs' as [|c cs' IH]; [right; intros a i Hin; by apply elem_of_nil in Hin|].
    destruct IH as [(a & i & Hin)|IH]; [left; exists a, i; by right|].
    assert (Hc : (exists a i, c = CUnAlias a i) \/ forall a i, c <> CUnAlias a i) by (destruct c; eauto).
    destruct Hc as [(a & i & ->)|Hc]; [left; exists a, i; by left|]. right. intros a i [E|Hin]%elem_of_cons; [by apply (Hc a i)|by apply (IH a i)]. }
  destruct (Hd cs) as [(a & i & Hin)|Hno]; [|by right]. left. intros old new Hr.
  apply elem_of_list_lookup in Hin as [j Hj], Hr as [k Hk].
  exact (H j k _ _ ltac:(congruence) Hj Hk).
Qed.

Lemma rows_call ckn tk c l vb va : explained ckn tk c (Returned (ORows l)) vb va -> c = CListAliases.
Proof.
  intros (v1 & Hs & _). destruct c; cbn [spec] in Hs; try done; exfalso.
  - destruct Hs as (? & _ & ?). done.
  - by case_match.
  - repeat case_decide; try done; by case_match.
  - repeat case_decide; try done; repeat (case_match; try done).
  - repeat (case_match; try done).
  - destruct (v_idx vb !! index); [by destruct (search_docs _ _ _ _ _)|].
    destruct (v_leakA vb); [done|]. destruct (v_ali vb !! index) as [[|x [|y l']]|]; try done.
    + destruct Hs as [(? & ? & _ & _ & ?)|[_ ?]]; done.
    + by destruct (search_name _ _ _ _ _ _).
    + destruct Hs as [(? & ? & _ & _ & ?)|[_ ?]]; done.
  - repeat (case_match; try done).
  - repeat (case_match; try done).
  - by destruct Hs.
Qed.

(** Calls that tolerate each other are linearizable: each takes effect at one of its
    own steps, and answers as if the calls had been issued one after the other in
    the order in which they take effect. *)
Theorem C58_linearizable :
  forall ckn tk s v cs,
    tracks ckn tk s v -> unblocked v -> calm v cs -> linearizable ckn tk v cs (start cs) s.
Proof.
  intros ckn tk s v cs Ht Hu Hst.
  destruct (init_view false ckn tk s v (reach_shape _ _ _ _ _ Ht) Hu ltac:(done)) as (w0 & Hsh & Hv & E1 & E2).
  assert (Hw0 := shC_wf _ _ _ _ _ Hsh). rewrite <- Hv in Hst |- *.
  destruct (separate_mode cs (calm_separate _ _ Hst)) as (md & Hmd & Hal & Hrow).
  pose proof (simR_simulation md Hmd false ckn tk cs ltac:(done)) as HS.
  exists (fun ts s log => exists l w, simR md false ckn tk cs ts s l w /\ linI ckn tk cs w0 l w log).
  split_and!.
  - exists (cstart cs), w0. split_and!; [|by apply linI_start]. by apply simR_start.
  - intros ts1 s1 log (l & w & HR & HI).
    destruct (sim_agrees _ _ _ _ HS _ _ _ _ HR) as [A1 A2 A3 A4 A5].
    split; [apply HI|apply HI|]. exists (view_of w). split_and!; [apply HI|apply HI| |].
    + intros i p Hi Hf. destruct (A2 _ _ Hi Hf) as (a & Hl & Ha).
      destruct (lookup_lt_is_Some_2 cs i) as [c Hc]; [rewrite <- (li_len _ _ _ _ _ _ _ HI); by eapply lookup_lt_Some|].
      pose proof (li_thr _ _ _ _ _ _ _ HI _ _ _ Hl Hc) as Hok. unfold thr_ok in Hok. simpl in Hok.
      destruct Hok as (vb & va & Hin & Hx). destruct (Hx _ eq_refl) as (a' & E & He). simplify_eq.
      exists c, a', vb, va. split_and!; try done. intros r ->.
      assert (Hrc : forall rows, r = RRows rows -> md = NoRename).
      { intros rows ->. apply Hrow. simpl in Ha. destruct a' as [[]|]; try done. apply rows_call in He. subst c.
        intros old new Hr. apply elem_of_list_lookup in Hr as [k Hk]. exact (Hst i k _ _ ltac:(congruence) Hc Hk). }
      destruct r; try (destruct a' as [o|]; [|done]; cbn [answers] in Ha; by rewrite <- (Ha s1)).
      rewrite bool_decide_true in A5 by exact (Hrc _ eq_refl).
      specialize (A5 eq_refl _ _ Hi). rewrite Hl in A5. by simplify_eq.
    + intros Hq. exists w. split_and!; [done|apply A3|apply A4; done]. destruct Hq as [[? _]|?]; [by left|by right].
  - intros ts1 s1 log i t t' s2 (l & w & HR & HI) Hi Hs.
    destruct (sim_next _ _ _ _ HS _ _ _ _ _ _ _ _ HR Hi Hs) as (l' & w' & HR' & Hr & Hoff).
    destruct (linI_steps ckn tk cs w0 Hw0 Hst _ _ _ _ _ HI Hr) as [ext HI'].
    edestruct linI_ext as [E|[E Hni]]; [exact Hw0|exact Hst|exact HI|exact HI'|exact Hoff|..].
    + left. exists l', w'. destruct ext; [|done]. by rewrite app_nil_r in HI'.
    + right. split; [done|]. destruct ext as [|[[j vb] va] [|? ?]]; try done. injection E as ->. exists vb, va, l', w'. done.
Qed.
Print Assumptions C58_linearizable.

(** The relation carries over to every state reached. *)
Lemma linearizable_reach ckn tk v cs ts s ts' s' :
  linearizable ckn tk v cs ts s -> rtc pstep (Pool ts s) (Pool ts' s') ->
  exists log, linearized ckn tk v cs ts' s' log.
Proof.
  intros (L & H0 & H1 & H2) Hr.
  assert (Hp : match Pool ts' s' with Pool ts1 s1 => exists log, L ts1 s1 log | PCrashed => True end).
  { refine (rtc_ind_r (R := pstep) (fun p => match p with Pool ts1 s1 => exists log, L ts1 s1 log | PCrashed => True end) _ _ _ _ Hr).
    - by exists [].
    - intros y z _ Hs IH. inversion Hs; simplify_eq; [|done]. destruct IH as [log Ho].
      edestruct H2 as [|(_ & ? & ? & ?)]; [exact Ho|done|done|eauto|eauto]. }
  destruct Hp as [log Ho]. exists log. by apply H1.
Qed.

(** So a finished run is equivalent to issuing all the calls one after the other in
    some order. *)
Theorem C58_serializable :
  forall ckn tk s v cs ts s',
    tracks ckn tk s v -> unblocked v -> calm v cs ->
    rtc pstep (Pool (start cs) s) (Pool ts s') -> Forall finished ts -> serializable ckn tk v cs ts s'.
Proof.
  intros ckn tk s v cs ts s' Ht Hu Hst Hr Hf.
  assert (Hlen : length ts = length cs).
  { refine (rtc_ind_r (R := pstep) (fun p => match p with Pool ts1 s1 => length ts1 = length cs | PCrashed => True end) _ _ _ _ Hr).
    - unfold start. by rewrite fmap_length.
    - intros y z _ Hs IH. inversion Hs; simplify_eq; [|done]. by rewrite insert_length. }
  destruct (linearizable_reach _ _ _ _ _ _ _ _ (C58_linearizable _ _ _ _ _ Ht Hu Hst) Hr) as [log [Hn Hdom (v' & Hc & Htake & Hthr & Hsh)]].
  exists log, v'. split_and!; [|done|by apply Hsh; right|].
  - apply NoDup_Permutation; [done|apply NoDup_seq|]. intros i. rewrite elem_of_seq. split.
    + intros Hi. split; [lia|]. by apply Hdom.
    + intros [_ Hi]. simpl in Hi. rewrite <- Hlen in Hi. destruct (lookup_lt_is_Some_2 ts i Hi) as [t Hti].
      pose proof (Forall_lookup_1 _ _ _ _ Hf Hti) as Hfi. destruct t as [p| | |]; try done.
      destruct (Hthr _ _ Hti Hfi) as (c & a & vb & va & _ & Hin & _). by eapply in_log.
  - intros i p Hi. pose proof (Forall_lookup_1 _ _ _ _ Hf Hi) as Hfi.
    destruct (Hthr _ _ Hi Hfi) as (c & a & vb & va & ? & ? & ? & Ha & Hrow). exists c, a, vb, va. split_and!; [done..|].
    destruct p; try done; [by apply Hrow|]. by destruct a.
Qed.
Print Assumptions C58_serializable.

(** Two Puts through an alias, a Put to an index, a Search, an Alias and an UnAlias
    meet the hypotheses. *)
Example C58_example :
  (exists s, tracks true letters s two_view) /\ unblocked two_view /\
  steady two_view [CPut "both" dA; CPut "both" dB; CPut "p" dB; CSearch "both" "a" LinearSearch;
                   CAlias "other" "p"; CUnAlias "other" "q"; CList].
Proof.
  split; [by apply example_two|]. split; [done|].
  intros c Hc. repeat (apply elem_of_cons in Hc as [->|Hc]); try done.
  - right. split; [by eexists|]. intros i. split; set_solver.
  - right. split; [by eexists|]. intros i. split; set_solver.
  - left. by eexists.
  - by apply elem_of_nil in Hc.
Qed.

(** Puts to an existing index, to an alias and to a new name, a Drop, a Rename of
    another index and readers. *)
Example C58_example_changing :
  unblocked two_view /\
  calm two_view [CPut "p" dB; CPut "p" dA; CPut "new" dA; CDrop "gone"; CRename "q" "r"; CAlias "other" "p";
                 CSearch "both" "a" LinearSearch; CHasAlias "other"; CList].
Proof.
  split; [done|]. intros i j c c' Hij Hi Hj.
  do 9 (try destruct i as [|i]); simplify_eq/=; do 9 (try destruct j as [|j]); simplify_eq/=; try done;
  vm_compute; try done; split; done.
Qed.

(** ** C53: a search never sees half of a Put *)

(** The view after the documents [ds] have each been put into all the indices
    [l]. *)
Definition after_puts (l : list string) (ds : list DocRequest) (v : view) : view :=
  MkView (fold_left (fun m d => put_each d l m) ds (v_idx v)) (v_ali v) 0 false.

(** Only Puts and Searches through the alias [a]. *)
Definition only_alias (a : string) (cs : list call) : Prop :=
  forall c, c ∈ cs -> (exists d, c = CPut a d) \/ (exists q e, c = CSearch a q e).

Lemma after_puts_None l ds v n : v_idx (after_puts l ds v) !! n = None <-> v_idx v !! n = None.
Proof.
  cbn [after_puts v_idx]. generalize (v_idx v). induction ds as [|d ds IH]; intros m; [done|].
  simpl. rewrite IH, put_each_lookup. by destruct (m !! n).
Qed.
Lemma after_puts_snoc l ds d v :
  after_puts l (ds ++ [d]) v = MkView (put_each d l (v_idx (after_puts l ds v))) (v_ali v) 0 false.
Proof. unfold after_puts. by rewrite fold_left_app. Qed.

Lemma after_puts_take ckn tk a l ds v c vb va :
  v_idx v !! a = None -> v_ali v !! a = Some l -> unblocked v ->
  vb = after_puts l ds v -> may_take ckn tk c vb va ->
  (forall d, c = CPut a d -> va = vb \/ va = after_puts l (ds ++ [d]) v) /\
  (forall q e, c = CSearch a q e -> va = vb).
Proof.
  intros Hn Ha Hu -> Hm. rewrite <- (after_puts_None l ds v a) in Hn. split.
  - intros d ->. destruct Hm as [[[o|] (v1 & Hs & ->)]|[_ ->]]; [| |by left]; us Hs.
    + rewrite Hn in Hs. cbn [after_puts v_ali v_leakA v_leakI] in Hs. rewrite decide_False in Hs by (intros E; by apply E).
      rewrite Ha in Hs. case_decide; [done|]. injection Hs as -> ->. right. rewrite after_puts_snoc. done.
    + rewrite Hn in Hs. cbn [after_puts v_ali v_leakA v_leakI] in Hs. rewrite decide_False in Hs by (intros E; by apply E).
      rewrite Ha in Hs. by case_decide.
  - intros q e ->. destruct Hm as [[[o|] (v1 & Hs & ->)]|[_ ->]]; [| |done]; us Hs;
      rewrite Hn in Hs; cbn [after_puts v_ali v_leakA v_leakI] in Hs; rewrite Ha in Hs;
      (destruct l as [|y [|y' l]];
       [|destruct (search_name _ _ _ _ _ _); by simplify_eq|];
       (destruct Hs as [(bl & bl' & _ & _ & Hs)|[_ Hs]]; [|done]); by simplify_eq).
Qed.

Lemma chain_after_puts ckn tk a l v cs log v0 v' ds0 :
  v_idx v !! a = None -> v_ali v !! a = Some l -> unblocked v -> only_alias a cs ->
  chain v0 log v' -> v0 = after_puts l ds0 v ->
  (forall i vb va, (i, vb, va) ∈ log -> exists c, cs !! i = Some c /\ may_take ckn tk c vb va) ->
  NoDup log.*1.*1 ->
  forall i vb va, (i, vb, va) ∈ log ->
  exists js ds, NoDup js /\ js ⊆ log.*1.*1 /\ Forall2 (fun j d => cs !! j = Some (CPut a d)) js ds /\ vb = after_puts l (ds0 ++ ds) v.
Proof.
  intros Hn Ha Hu Ho Hc. revert ds0. induction Hc as [v0|j v0 v1 log v' Hc IH]; intros ds0 E Ht Hnd i vb va Hin.
  - by apply elem_of_nil in Hin.
  - simpl in Hnd. apply NoDup_cons in Hnd as [Hj Hnd].
    apply elem_of_cons in Hin as [Hin|Hin].
    + simplify_eq. exists [], []. split_and!; [constructor|apply list_subseteq_nil|constructor|by rewrite app_nil_r].
    + destruct (Ht j v0 v1) as (c & Hcj & Hm); [by left|].
      assert (Ht' : forall i vb va, (i, vb, va) ∈ log -> exists c, cs !! i = Some c /\ may_take ckn tk c vb va).
      { intros. apply Ht. by right. }
      destruct (after_puts_take ckn tk a l ds0 v c v0 v1 Hn Ha Hu E Hm) as [K1 K2].
      assert (v1 = after_puts l ds0 v \/ exists d, c = CPut a d /\ v1 = after_puts l (ds0 ++ [d]) v) as [E1|(d & -> & E1)].
      { destruct (Ho c) as [[d ->]|(q & e & ->)]; [by eapply elem_of_list_lookup_2| |].
        - destruct (K1 _ eq_refl) as [->| ->]; [by left|right; eauto].
        - left. by rewrite (K2 _ _ eq_refl). }
      * destruct (IH _ E1 Ht' Hnd _ _ _ Hin) as (js & ds & H1 & H2 & H3 & ->). exists js, ds. split_and!; try done. set_solver.
      * destruct (IH _ E1 Ht' Hnd _ _ _ Hin) as (js & ds & H1 & H2 & H3 & ->). exists (j :: js), (d :: ds). split_and!.
        -- constructor; [|done]. intros Hjs. by apply Hj, H2.
        -- simpl. set_solver.
        -- by constructor.
        -- by rewrite <- app_assoc.
Qed.

(** Any number of Puts and Searches through an alias: what a Search returns is what
    it returns after some of the Puts have been carried out entirely, in all the
    indices of the alias, and the others not at all. *)
Theorem C53_all_or_nothing :
  forall ckn tk s v cs a l ts s' i q e r,
    tracks ckn tk s v -> unblocked v -> v_idx v !! a = None -> v_ali v !! a = Some l -> only_alias a cs ->
    rtc pstep (Pool (start cs) s) (Pool ts s') ->
    cs !! i = Some (CSearch a q e) -> ts !! i = Some (TRun (Ret r)) ->
    exists js ds,
      NoDup js /\ Forall2 (fun j d => cs !! j = Some (CPut a d)) js ds /\
      spec ckn tk (CSearch a q e) (after_puts l ds v) (ODone (see s' r) (after_puts l ds v)).
Proof.
  intros ckn tk s v cs a l ts s' i q e r Ht Hu Hn Ha Ho Hr Hc Hi.
  assert (Hst : steady v cs).
  { intros c Hin. destruct (Ho _ Hin) as [[d ->]|(q' & e' & ->)]; [|done]. right. split; [by eexists|].
    intros x. split; intros Hx; destruct (Ho _ Hx) as [[? ?]|(? & ? & ?)]; done. }
  destruct (linearizable_reach _ _ _ _ _ _ _ _ (C58_linearizable _ _ _ _ _ Ht Hu (steady_calm _ _ Hst)) Hr)
    as [log [Hnd Hdom (v' & Hch & Htake & Hthr & Hsh)]].
  destruct (Hthr _ _ Hi I) as (c & an & vb & va & Hc' & Hin & He & Han & _). rewrite Hc in Hc'. injection Hc' as <-.
  assert (E0 : v = after_puts l [] v).
  { destruct v, Hu. simpl in *. subst. done. }
  destruct (chain_after_puts ckn tk a l v cs log v v' [] Hn Ha Hu Ho Hch E0 Htake Hnd _ _ _ Hin) as (js & ds & H1 & H2 & H3 & ->).
  exists js, ds. split_and!; [done..|]. simpl in He.
  destruct (Htake _ _ _ Hin) as (c & Hc' & Hm). rewrite Hc in Hc'. injection Hc' as <-.
  destruct (after_puts_take ckn tk a l ds v _ _ va Hn Ha Hu eq_refl Hm) as [_ K]. specialize (K _ _ eq_refl). subst va.
  destruct an as [o|]; [|by destruct r].
  destruct He as (v1 & Hs & Ev). pose proof Hs as Hs'. us Hs.
  rewrite (proj2 (after_puts_None l ds v a) Hn) in Hs. cbn [after_puts v_ali v_leakA v_leakI] in Hs. rewrite Ha in Hs.
  assert ((exists sr, o = OResults sr) /\ v1 = after_puts l ds v) as [[sr ->] ->].
  { destruct l as [|y [|y' l]];
      [|destruct (search_name _ _ _ _ _ _); [|done]; injection Hs as -> ->; by eauto|];
      (destruct Hs as [(bl & bl' & _ & _ & Hs)|[_ Hs]]; [|done]); injection Hs as -> ->; by eauto. }
  assert (Er : see s' r = OResults sr) by (destruct r; try done; apply Han). by rewrite Er.
Qed.
Print Assumptions C53_all_or_nothing.

(** Two Puts and two Searches through an alias of two indices meet the
    hypotheses; a state in which both goroutines of the first Put are still to
    run while a Search waits is C49_no_race_example. *)
Example C53_example :
  (exists s, tracks true letters s two_view) /\ unblocked two_view /\
  v_idx two_view !! "both" = None /\ v_ali two_view !! "both" = Some ["p"; "q"] /\
  only_alias "both" [CPut "both" dA; CSearch "both" "a" LinearSearch; CPut "both" dB; CSearch "both" "b" LinearSearch].
Proof.
  split; [by apply example_two|]. split_and!; [done|done|done|].
  intros c Hc. repeat (apply elem_of_cons in Hc as [->|Hc]); try (by left; eauto); try (by right; eauto).
  by apply elem_of_nil in Hc.
Qed.
