(** * Properties C74-C76: engines and tokenizers that call the repository back.

    [rreach ckn tk s v]: [s] was reached from NewIndexRepo by calls some of which ran
    such closures, [v] is what a caller knows about it. *)
From Coq Require Import Lia.
From stdpp Require Import gmap list.
From Verif Require Import Entities Search SpecSearch Properties_Search Repo Sem RepoWp SpecRepo ProofRepo ProofTotal
  Locks Fault SpecFault ProofFault Properties_Repo Reenter SpecReenter ProofReenter.
Open Scope nat_scope.

(** What a call does, in every execution. *)
Definition ralways (x : rcall) (s : repo) (P : result -> Prop) : Prop :=
  (exists res, rresult x s res) /\ forall res, rresult x s res -> P res.

(** ** C74: engines that call back *)

Theorem C74_calls_refine :
  forall ckn tk s v x,
    rreach ckn tk s v -> modelled v x ->
    ralways x s (fun res =>
      match res with
      | Done r s' => exists v', rspec ckn tk x v (ODone (see s' r) v') /\ rreach ckn tk s' v'
      | Panicked s' => exists v', rspec ckn tk x v (OPanic v') /\ rreach ckn tk s' v'
      | Crashed => rspec ckn tk x v OCrash
      | Blocked => rspec ckn tk x v OBlock
      end).
Proof.
  intros ckn tk s v x Hr Hm. split; [apply rcall_total|]. intros res Hres.
  destruct (rcall_refines ckn tk x s v res (rreach_shape _ _ _ _ Hr) Hm Hres) as (o & Ho & Hmo).
  destruct res, o; simpl in Hmo; try done.
  - destruct Hmo as [<- _]. eexists. split; [done|]. by eapply RR_done.
  - eexists. split; [done|]. by eapply RR_panic.
Qed.
Print Assumptions C74_calls_refine.

Lemma ralways_intro ckn tk s v x (P : result -> Prop) :
  rreach ckn tk s v -> modelled v x ->
  (forall o, rspec ckn tk x v o ->
     match o with
     | ODone b v' => forall r s', see s' r = b -> rreach ckn tk s' v' -> P (Done r s')
     | OPanic v' => forall s', rreach ckn tk s' v' -> P (Panicked s')
     | OCrash => P Crashed
     | OBlock => P Blocked
     end) -> ralways x s P.
Proof.
  intros Hr Hm H. destruct (C74_calls_refine ckn tk s v x Hr Hm) as [Hex Hall]. split; [done|].
  intros res Hres. specialize (Hall _ Hres). destruct res.
  - destruct Hall as (v' & Hs & Hr'). by apply (H _ Hs).
  - destruct Hall as (v' & Hs & Hr'). by apply (H _ Hs).
  - by apply (H _ Hall).
  - by apply (H _ Hall).
Qed.

(** The calls that only look. *)
Definition looks (c : call) : Prop :=
  match c with CList | CListAliases | CHas _ | CHasAlias _ | CString _ => True | _ => False end.

Lemma looks_spec ckn tk c v o : looks c -> v_leakA v = false -> spec ckn tk c v o -> exists b, o = ODone b v.
Proof.
  intros Hl HA Ho. destruct c; try done; cbn [spec] in Ho; rewrite ?HA in Ho.
  - destruct Ho as (l & _ & ->). eauto.
  - destruct Ho as (l & _ & ->). eauto.
  - eauto.
  - eauto.
  - destruct Ho as (t & ->). eauto.
Qed.
Lemma looks_calls ckn tk cs v o cs' :
  Forall looks cs -> v_leakA v = false -> calls_spec (spec ckn tk) (cs ++ cs') v o -> calls_spec (spec ckn tk) cs' v o.
Proof.
  induction 1 as [|c cs Hc Hcs IH]; intros HA; [done|]. simpl. intros (o1 & H1 & H2).
  destruct (looks_spec _ _ _ _ _ Hc HA H1) as [b ->]. by apply IH.
Qed.

Lemma target_modelled v n i :
  target v n = Some i -> (forall cs q e, modelled v (RSearch cs n q e)) /\ forall cs d, modelled v (RPut cs n d).
Proof.
  unfold target. intros H. assert (is_Some (v_idx v !! n) \/ length (default [] (v_ali v !! n)) <= 1); [|done]. destruct (v_idx v !! n) as [x|] eqn:E; [by left; eexists|].
  right. destruct (v_leakA v); [done|]. destruct (v_ali v !! n) as [[|x [|y l]]|]; simpl; try done; lia.
Qed.

(** An engine that only looks at the repo finds what any engine finds, and the repo is
    as before. *)
Theorem C74_looking_is_free :
  forall ckn tk s v cs n i q e,
    rreach ckn tk s v -> v_leakA v = false -> target v n = Some i -> Forall looks cs ->
    ralways (RSearch cs n q e) s (fun res =>
      match search_name ckn tk (v_idx v) q e i with
      | Ok sr => exists s', res = Done (RResults sr) s' /\ rreach ckn tk s' v
      | Panic => exists s', res = Panicked s' /\ rreach ckn tk s' v
      end).
Proof.
  intros ckn tk s v cs n i q e Hr HA Ht Hcs. apply (ralways_intro ckn tk s v); [done|apply (proj1 (target_modelled _ _ _ Ht))|].
  intros o. cbn [rspec]. unfold rsearch_spec. rewrite Ht. intros (o1 & H1 & H2).
  rewrite <- (app_nil_r cs) in H1. apply looks_calls in H1; [|done..]. simpl in H1. subst o1.
  assert (release (hold v) = v) as Ev by (by destruct v). rewrite Ev in H2.
  destruct (search_name ckn tk (v_idx v) q e i); subst o.
  - intros r s' Es Hr'. destruct r; simplify_eq/=. eauto.
  - eauto.
Qed.
Print Assumptions C74_looking_is_free.

(** The calls that change the index table. *)
Definition writes (v : view) (c : call) : Prop :=
  match c with
  | CRename _ _ | CPut _ _ => True
  | CDrop n => is_Some (v_idx v !! n)
  | _ => False
  end.

(** An engine that puts, renames, or drops an existing index never returns, and so
    neither does the Search. *)
Theorem C74_writing_hangs :
  forall ckn tk s v cs c cs' n i q e,
    rreach ckn tk s v -> v_leakA v = false -> target v n = Some i -> Forall looks cs -> writes v c ->
    ralways (RSearch (cs ++ c :: cs') n q e) s (fun res => res = Blocked).
Proof.
  intros ckn tk s v cs c cs' n i q e Hr HA Ht Hcs Hc. apply (ralways_intro ckn tk s v); [done|apply (proj1 (target_modelled _ _ _ Ht))|].
  intros o. cbn [rspec]. unfold rsearch_spec. rewrite Ht. intros (o1 & H1 & H2).
  apply looks_calls in H1; [|done..]. simpl in H1. destruct H1 as (o2 & H1 & H3).
  assert (o2 = OBlock) as ->; [|by subst].
  destruct c; try done; cbn [spec hold v_idx v_ali v_leakI v_leakA] in H1.
  - rewrite HA in H1. rewrite decide_True in H1 by done. by destruct (v_idx v !! index).
  - destruct Hc as [reqs Hc]. rewrite Hc in H1. rewrite decide_False in H1 by done. by rewrite decide_True in H1.
Qed.
Print Assumptions C74_writing_hangs.

(** Aliases can be made from within an engine; they are there when Search returns. *)
Theorem C74_aliasing_works :
  forall ckn tk s v a x n i q e sr,
    rreach ckn tk s v -> v_leakA v = false -> target v n = Some i -> is_Some (v_idx v !! x) -> v_ali v !! a = None ->
    search_name ckn tk (v_idx v) q e i = Ok sr ->
    ralways (RSearch [CAlias a x] n q e) s (fun res => exists s',
      res = Done (RResults sr) s' /\ rreach ckn tk s' (MkView (v_idx v) (<[a := [x]]> (v_ali v)) (v_leakI v) false)).
Proof.
  intros ckn tk s v a x n i q e sr Hr HA Ht [reqs Hx] Ha Hs. apply (ralways_intro ckn tk s v); [done|apply (proj1 (target_modelled _ _ _ Ht))|].
  intros o. cbn [rspec]. unfold rsearch_spec. rewrite Ht. intros (o1 & H1 & H2).
  simpl in H1. destruct H1 as (o2 & H1 & H3). rewrite Hx, HA, Ha in H1. simpl in H1.
  rewrite Hs in H2.
  assert (o2 = ODone (OBool true) (MkView (v_idx v) (<[a := [x]]> (v_ali v)) (S (v_leakI v)) false)) as ->.
  { exact H1. }
  subst o1 o. intros r s' Es Hr'. destruct r; simplify_eq/=. eauto.
Qed.
Print Assumptions C74_aliasing_works.

(** Index "p" holds a document, index "q" another, and alias "z" stands for "p". *)
Definition z_view : view := MkView two_idx {["z" := ["p"]]} 0 false.

Lemma rreach_next ckn tk s v x v' :
  rreach ckn tk s v -> modelled v x ->
  (forall o, rspec ckn tk x v o -> (exists b, o = ODone b v') \/ o = OPanic v') ->
  exists s', rreach ckn tk s' v'.
Proof.
  intros Hr Hm H. destruct (C74_calls_refine ckn tk s v x Hr Hm) as [[res Hres] Hall]. specialize (Hall _ Hres).
  destruct res as [r s'|s'| |].
  - destruct Hall as (v1 & Hs & Hf). destruct (H _ Hs) as [[b E]|E]; simplify_eq. eauto.
  - destruct Hall as (v1 & Hs & Hf). destruct (H _ Hs) as [[b E]|E]; simplify_eq. eauto.
  - by destruct (H _ Hall) as [[b E]|E].
  - by destruct (H _ Hall) as [[b E]|E].
Qed.

(** The alias was made by the engine of a Search for "b" in "p". *)
Example C74_example :
  (exists s, rreach true letters s z_view) /\ target z_view "z" = Some "p"%string /\ Forall looks [CList; CHas "q"] /\
  writes z_view (CDrop "q") /\
  search_name true letters two_idx "b" LinearSearch "p" = Ok [MkSR (doc_of dA) 1].
Proof.
  split_and!.
  - destruct (rreach_next true letters _ _ (Plain (CPut "q" dB)) (MkView {["q" := [dB]]} ∅ 0 false)
      (RR_new _ _)) as [s1 R1]; [done| |].
    { intros o Ho. left. exists OUnit. exact Ho. }
    destruct (rreach_next true letters s1 _ (Plain (CPut "p" dA)) (MkView two_idx ∅ 0 false) R1) as [s2 R2]; [done| |].
    { intros o Ho. left. exists OUnit. exact Ho. }
    destruct (C74_aliasing_works true letters s2 _ "z" "p" "p" "p" "b" LinearSearch [MkSR (doc_of dA) 1] R2)
      as [[res Hres] Hall]; [done|done|by eexists|done|vm_compute; reflexivity|].
    destruct (Hall _ Hres) as (s3 & _ & R3).
    eauto.
  - done.
  - repeat constructor.
  - by eexists.
  - vm_compute. reflexivity.
Qed.

(** ** C75: tokenizers that call back *)

Lemma locked_exists ckn tk cs v o :
  Exists (fun c => ~ alias_only c) cs -> calls_spec (locked_spec ckn tk) cs v o -> o = OBlock.
Proof.
  intros Hx. revert v. induction cs as [|c cs IH]; intros v; [by inversion Hx|]. simpl. intros (o1 & H1 & H2).
  unfold locked_spec in H1. case_decide as Hc; [|by subst].
  apply Exists_cons in Hx as [?|Hx]; [done|]. destruct o1 as [b v1| | |].
  - by eapply IH.
  - destruct c; try done; cbn [spec] in H1; repeat case_match; try done; by destruct H1 as (? & ? & ?).
  - destruct c; try done; cbn [spec] in H1; repeat case_match; try done; by destruct H1 as (? & ? & ?).
  - done.
Qed.

(** A tokenizer may not ask the repo about an index: whatever it calls, other than
    HasAlias, ListAliases or UnAlias of a whole alias, the Put that runs it hangs. *)
Theorem C75_tokenizer_hangs :
  forall ckn tk s v cs n d,
    rreach ckn tk s v -> unblocked v ->
    is_Some (target v n) \/ (v_idx v !! n = None /\ v_ali v !! n = None) ->
    Exists (fun c => ~ alias_only c) cs ->
    ralways (RPut cs n d) s (fun res => res = Blocked).
Proof.
  intros ckn tk s v cs n d Hr [HI HA] Hn Hcs. apply (ralways_intro ckn tk s v); [done|..].
  { destruct Hn as [[i Hi]|[_ Hn]]; [apply (proj2 (target_modelled _ _ _ Hi))|]. simpl. rewrite Hn. right. simpl. lia. }
  intros o. cbn [rspec]. unfold rput_spec. rewrite HI. rewrite decide_False by (intros E; by apply E).
  assert (Hrun : forall v0 idx', (exists o1, calls_spec (locked_spec ckn tk) cs v0 o1 /\ match o1 with
     | ODone _ v1 => o = ODone OUnit (MkView idx' (v_ali v1) (v_leakI v1) (v_leakA v1)) | _ => o = OBlock end) -> o = OBlock).
  { intros v0 idx' (o1 & H1 & H2). apply locked_exists in H1; [|done]. by subst. }
  intros Ho. assert (o = OBlock) as ->; [|done].
  destruct Hn as [[i Hi]|[Hn Ha]].
  - rewrite Hi in Ho. by eapply Hrun.
  - unfold target in Ho. rewrite Hn, HA, Ha in Ho. by eapply Hrun.
Qed.
Print Assumptions C75_tokenizer_hangs.

(** One that only asks about aliases does no harm: Put does what it always does. *)
Theorem C75_asking_for_aliases :
  forall ckn tk s v cs n d v',
    rreach ckn tk s v -> unblocked v ->
    is_Some (target v n) \/ (v_idx v !! n = None /\ v_ali v !! n = None) ->
    Forall (fun c => alias_only c /\ looks c) cs ->
    spec ckn tk (CPut n d) v (ODone OUnit v') ->
    ralways (RPut cs n d) s (fun res => exists s', res = Done RUnit s' /\ rreach ckn tk s' v').
Proof.
  intros ckn tk s v cs n d v' Hr [HI HA] Hn Hcs Hput. apply (ralways_intro ckn tk s v); [done|..].
  { destruct Hn as [[i Hi]|[_ Hn]]; [apply (proj2 (target_modelled _ _ _ Hi))|]. simpl. rewrite Hn. right. simpl. lia. }
  intros o. cbn [rspec]. unfold rput_spec. rewrite HI. rewrite decide_False by (intros E; by apply E).
  assert (Hc : forall v0 o1, v_leakA v0 = false -> calls_spec (locked_spec ckn tk) cs v0 o1 -> o1 = ODone OUnit v0).
  { clear -Hcs. induction Hcs as [|c cs [Hc Hl] _ IH]; intros v0 o1 HA; simpl; [done|].
    intros (o2 & H1 & H2). unfold locked_spec in H1. rewrite decide_True in H1 by done.
    destruct (looks_spec _ _ _ _ _ Hl HA H1) as [b ->]. by apply IH. }
  cbn [spec] in Hput. rewrite HI, HA in Hput. rewrite decide_False in Hput by (intros E; by apply E).
  destruct v as [idx ali lI lA]. cbn [v_idx v_ali v_leakI v_leakA] in *. subst lI lA.
  assert (Hend : forall idx0 idx', v' = MkView idx' ali 0 false ->
     (exists o1, calls_spec (locked_spec ckn tk) cs (MkView idx0 ali 0 false) o1 /\ match o1 with
       | ODone _ v1 => o = ODone OUnit (MkView idx' (v_ali v1) (v_leakI v1) (v_leakA v1)) | _ => o = OBlock end) ->
     match o with
     | ODone b v' => forall r s', see s' r = b -> rreach ckn tk s' v' -> exists s'', Done r s' = Done RUnit s'' /\ rreach ckn tk s'' v'
     | _ => False
     end /\ (exists b, o = ODone b v')).
  { intros idx0 idx' Ev (o1 & H1 & H2). apply Hc in H1; [|done]. subst o1. simpl in H2. subst o. split; [|by subst; eexists].
    intros r s' Es Hr'. destruct r; simplify_eq/=. eauto. }
  assert (Hfin : (match o with
     | ODone b v' => forall r s', see s' r = b -> rreach ckn tk s' v' -> exists s'', Done r s' = Done RUnit s'' /\ rreach ckn tk s'' v'
     | _ => False
     end /\ (exists b, o = ODone b v')) -> match o with
     | ODone b v'0 => forall r s', see s' r = b -> rreach ckn tk s' v'0 -> exists s'0, Done r s' = Done RUnit s'0 /\ rreach ckn tk s'0 v'
     | OPanic v'0 => forall s', rreach ckn tk s' v'0 -> exists s'0, Panicked s' = Done RUnit s'0 /\ rreach ckn tk s'0 v'
     | OCrash => exists s', Crashed = Done RUnit s' /\ rreach ckn tk s' v'
     | OBlock => exists s', Blocked = Done RUnit s' /\ rreach ckn tk s' v' end).
  { intros [H1 [b ->]]. exact H1. }
  intros Ho. apply Hfin. clear Hfin. destruct Hn as [[i Hi]|[Hn Ha]].
  - rewrite Hi in Ho. eapply Hend; [|exact Ho]. unfold target in Hi. cbn [v_idx v_ali v_leakA] in Hi.
    destruct (idx !! n) as [reqs|] eqn:En.
    + simplify_eq. done.
    + destruct (ali !! n) as [[|x [|y l]]|] eqn:Ea; try done. destruct (idx !! x) eqn:Ex; [|done]. simplify_eq.
      destruct (decide (Exists (fun x => idx !! x = None) [i])); [done|]. congruence.
  - unfold target in Ho. cbn [v_idx v_ali v_leakA] in Ho. rewrite Hn, Ha in Ho. rewrite Hn, Ha in Hput.
    eapply Hend; [|exact Ho]. congruence.
Qed.
Print Assumptions C75_asking_for_aliases.

(** An index, an alias of it and a new name; a tokenizer that asks for the indices. *)
Example C75_example :
  unblocked z_view /\ target z_view "q" = Some "q"%string /\ target z_view "z" = Some "p"%string /\
  v_idx z_view !! "n"%string = None /\ v_ali z_view !! "n"%string = None /\
  Exists (fun c => ~ alias_only c) [CHasAlias "z"; CList] /\
  Forall (fun c => alias_only c /\ looks c) [CHasAlias "z"; CListAliases] /\
  spec true letters (CPut "z" dB) z_view (ODone OUnit (MkView (put_each dB ["p"] two_idx) {["z" := ["p"]]} 0 false)).
Proof.
  split_and!; try done.
  - apply Exists_cons. right. apply Exists_cons. left. by intros [].
  - repeat constructor.
Qed.

(** ** C76: what such a closure does to the other users of the repo *)

Lemma pool_lift t s t' s' ts i :
  rtc sstep (t, s) (t', s') -> ts !! i = Some t -> rtc pstep (Pool ts s) (Pool (<[i := t']> ts) s').
Proof.
  intros H. remember (t, s) as a eqn:Ea. remember (t', s') as b eqn:Eb. revert t s ts Ea Eb.
  induction H as [a|a b c Hab Hbc IH]; intros t s ts -> E Hi; simplify_eq.
  - by rewrite list_insert_id.
  - inversion Hab; simplify_eq. eapply rtc_l; [by eapply P_step|].
    eapply rtc_transitive; [apply (IH _ _ _ eq_refl eq_refl); apply list_lookup_insert; by eapply lookup_lt_Some|].
    by rewrite list_insert_insert.
Qed.

(** Calls that need the index table begin by locking it. *)
Lemma needs_table c : ~ alias_only c -> exists k, prog_of c = RLock MI k \/ prog_of c = Lock MI k.
Proof.
  destruct c; simpl; intros H; try (by destruct H).
  all: try (eexists; left; reflexivity); try (eexists; right; reflexivity).
  unfold UnAlias_prog. rewrite decide_False by done. eexists. left. reflexivity.
Qed.
Lemma stuck_on s p :
  (exists k, p = RLock MI k \/ p = Lock MI k) ->
  rw_pending (r_imu s) = true \/ rw_writer (r_imu s) = true -> stuck s (TRun p).
Proof.
  intros [k [->| ->]] H; (split; [by intros []|]); intros x Hx; inversion Hx; simplify_eq; simpl in *; destruct H; congruence.
Qed.

(** An index [n] is searched by an engine that asks the repo about an index, while
    another caller puts to an index: the two can end up waiting for each other, and
    then so does whoever else needs the index table. *)
Theorem C76_engine_and_put_deadlock :
  forall ckn tk s v c cs n q e m d reqs reqs',
    rreach ckn tk s v -> v_idx v !! n = Some reqs -> v_idx v !! m = Some reqs' -> ~ alias_only c ->
    exists t1 t2 s',
      rtc pstep (Pool [TRun (rsearch (c :: cs) n q e); TRun (Put_prog m d)] s) (Pool [t1; t2] s') /\
      stuck s' t1 /\ stuck s' t2 /\
      forall c', ~ alias_only c' -> stuck s' (TRun (prog_of c')).
Proof.
  intros ckn tk s v c cs n q e m d reqs reqs' Hr Hn Hm Hc. apply rreach_shape in Hr as [HI HA Ei Ea].
  assert (exists p, i_map (r_I s) !! n = Some p) as [p Hp].
  { destruct (i_map (r_I s) !! n) eqn:E; [eauto|]. apply (shI_None _ _ _ _ _ HI) in E. congruence. }
  assert (exists p, i_map (r_I s) !! m = Some p) as [p' Hp'].
  { destruct (i_map (r_I s) !! m) eqn:E; [eauto|]. apply (shI_None _ _ _ _ _ HI) in E. congruence. }
  set (s1 := set_mu MI (MkRW (S (v_leakI v)) false false) s).
  set (s2 := set_mu MI (MkRW (S (v_leakI v)) true false) s).
  assert (Ht1 : rtc sstep (TRun (rsearch (c :: cs) n q e), s)
     (TRun (rsearch_tail (c :: cs) [Some p] q e), s1)).
  { eapply rtc_l. { constructor. by apply (S_RLock _ MI _ (r_imu s)); rewrite ?Ei. }
    rewrite Ei. cbn [rw_readers]. fold s1. eapply rtc_l. { constructor. apply S_GetIndex. }
    change (r_I s1) with (r_I s). rewrite Hp. reflexivity. }
  assert (exists k, rtc sstep (TRun (Put_prog m d), s1) (TPend MI k, s2)) as [k Ht2].
  { eexists. eapply rtc_l. { constructor. by apply (S_RLock _ MI _ (r_imu s1)). }
    eapply rtc_l. { constructor. apply S_GetIndex. }
    cbn [r_I set_mu s1]. rewrite Hp'. eapply rtc_l. { constructor. by eapply (S_RUnlock _ MI). }
    eapply rtc_l. { constructor. by eapply (S_Announce _ MI). } reflexivity. }
  exists (TRun (rsearch_tail (c :: cs) [Some p] q e)), (TPend MI k), s2. split_and!.
  - eapply rtc_transitive; [by apply (pool_lift _ _ _ _ _ 0 Ht1)|]. simpl.
    by apply (pool_lift _ _ _ _ [_; _] 1 Ht2).
  - apply stuck_on; [|by left]. unfold rsearch_tail, calls. simpl.
    destruct (needs_table c Hc) as [k1 [-> | ->]]; simpl; eauto.
  - split; [by intros []|]. intros x Hx. by inversion Hx; simplify_eq.
  - intros c' Hc'. apply stuck_on; [by apply needs_table|by left].
Qed.
Print Assumptions C76_engine_and_put_deadlock.

(** One Search whose engine puts to an index is enough. *)
Theorem C76_engine_put_freezes :
  forall ckn tk s v cs n q e m d reqs reqs',
    rreach ckn tk s v -> v_idx v !! n = Some reqs -> v_idx v !! m = Some reqs' ->
    exists t s',
      rtc sstep (TRun (rsearch (CPut m d :: cs) n q e), s) (t, s') /\ stuck s' t /\
      forall c', ~ alias_only c' -> stuck s' (TRun (prog_of c')).
Proof.
  intros ckn tk s v cs n q e m d reqs reqs' Hr Hn Hm. apply rreach_shape in Hr as [HI HA Ei Ea].
  assert (exists p, i_map (r_I s) !! n = Some p) as [p Hp].
  { destruct (i_map (r_I s) !! n) eqn:E; [eauto|]. apply (shI_None _ _ _ _ _ HI) in E. congruence. }
  assert (exists p, i_map (r_I s) !! m = Some p) as [p' Hp'].
  { destruct (i_map (r_I s) !! m) eqn:E; [eauto|]. apply (shI_None _ _ _ _ _ HI) in E. congruence. }
  set (s1 := set_mu MI (MkRW (S (v_leakI v)) false false) s).
  set (s2 := set_mu MI (MkRW (S (v_leakI v)) true false) s).
  assert (exists k, rtc sstep (TRun (rsearch (CPut m d :: cs) n q e), s) (TPend MI k, s2)) as [k Ht].
  { eexists. eapply rtc_l. { constructor. by apply (S_RLock _ MI _ (r_imu s)); rewrite ?Ei. }
    rewrite Ei. cbn [rw_readers]. fold s1. eapply rtc_l. { constructor. apply S_GetIndex. }
    change (r_I s1) with (r_I s). rewrite Hp. unfold rsearch_tail. simpl.
    eapply rtc_l. { constructor. by apply (S_RLock _ MI _ (r_imu s1)). }
    eapply rtc_l. { constructor. apply S_GetIndex. }
    cbn [r_I set_mu s1]. rewrite Hp'. simpl. eapply rtc_l. { constructor. by eapply (S_RUnlock _ MI). }
    eapply rtc_l. { constructor. by eapply (S_Announce _ MI). } reflexivity. }
  exists (TPend MI k), s2. split_and!; [done| |].
  - split; [by intros []|]. intros x Hx. by inversion Hx; simplify_eq.
  - intros c' Hc'. apply stuck_on; [by apply needs_table|by left].
Qed.
Print Assumptions C76_engine_put_freezes.

(** So is one Put whose tokenizer asks about an index. *)
Theorem C76_tokenizer_freezes :
  forall ckn tk s v c cs n d reqs,
    rreach ckn tk s v -> v_leakI v = 0 -> v_idx v !! n = Some reqs -> ~ alias_only c ->
    exists t s',
      rtc sstep (TRun (rput (c :: cs) n d), s) (t, s') /\ stuck s' t /\
      forall c', ~ alias_only c' -> stuck s' (TRun (prog_of c')).
Proof.
  intros ckn tk s v c cs n d reqs Hr Hl Hn Hc. apply rreach_shape in Hr as [HI HA Ei Ea]. rewrite Hl in Ei.
  destruct s as [I A im am]. cbn [r_I r_A r_imu r_amu] in *. subst im.
  assert (exists p, i_map I !! n = Some p) as [p Hp].
  { destruct (i_map I !! n) eqn:E; [eauto|]. apply (shI_None _ _ _ _ _ HI) in E. congruence. }
  set (s2 := MkRepo I A (MkRW 0 false true) am).
  assert (rtc sstep (TRun (rput (c :: cs) n d), MkRepo I A (MkRW 0 false false) am)
    (TRun (calls (c :: cs) (GoPut [Some p] d (Unlock MI (Ret RUnit))) (GoPut [None] d Throw)), s2)) as Ht.
  { eapply rtc_l. { constructor. by eapply (S_RLock _ MI). }
    eapply rtc_l. { constructor. apply S_GetIndex. }
    cbn [r_I set_mu]. rewrite Hp. eapply rtc_l. { constructor. by eapply (S_RUnlock _ MI). }
    eapply rtc_l. { constructor. eapply (S_Announce _ MI); reflexivity. }
    eapply rtc_l. { constructor. by eapply (S_Acquire _ MI). } reflexivity. }
  eexists _, s2. split_and!; [exact Ht| |].
  - apply stuck_on; [|by right]. simpl. destruct (needs_table c Hc) as [k1 [-> | ->]]; simpl; eauto.
  - intros c' Hc'. apply stuck_on; [by apply needs_table|by right].
Qed.
Print Assumptions C76_tokenizer_freezes.

(** Searching "p" with an engine that asks whether "q" exists. *)
Example C76_example :
  (exists s, rreach true letters s z_view) /\ v_idx z_view !! "p"%string = Some [dA] /\ v_idx z_view !! "q"%string = Some [dB] /\
  v_leakI z_view = 0 /\ ~ alias_only (CHas "q").
Proof. split_and!; [apply C74_example|done..|by intros []]. Qed.
