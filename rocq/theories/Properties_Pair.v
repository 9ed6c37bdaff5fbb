(** * Property C94: exactly which two calls get in each other's way. *)
From Coq Require Import Lia.
From stdpp Require Import gmap list.
From Verif Require Import Entities Search SpecSearch ProofSearch Properties_Search Repo Sem RepoWp SpecRepo
  ProofRepo ProofTotal ProofReach Properties_Repo SpecConc Locks Race ProofRace Reduce ProofConc ProofSim Run
  Properties_Conc SpecLin ProofMachine ProofLin Properties_Lin SpecHelp Properties_Help Properties_Puts
  SpecLook ProofLook SpecExact ProofWhole Properties_Exact ProofExact Reenter Properties_Reenter Properties_Clash SpecPair ProofPair.
Open Scope nat_scope.

(** ** Serializability of two calls *)

Definition ends (p : prog) (s : repo) (a : answer) : Prop :=
  match p with Ret r => a = Returned (see s r) | _ => p = Throw /\ a = Threw end.
Definition in_order2 ckn tk (c c' : call) (a a' : answer) (v v' : view) : Prop :=
  exists v1, explained ckn tk c a v v1 /\ explained ckn tk c' a' v1 v'.

Lemma serial_two ckn tk v c c' p p' s' :
  serializable ckn tk v [c; c'] [TRun p; TRun p'] s' <->
  exists a a' v', shows tk s' v' /\ ends p s' a /\ ends p' s' a' /\
    (in_order2 ckn tk c c' a a' v v' \/ in_order2 ckn tk c' c a' a v v').
Proof.
  split.
  - intros (log & v' & Hp & Hc & Hsh & Ht).
    pose proof (Permutation_length Hp) as Hl. rewrite !fmap_length, seq_length in Hl. simpl in Hl.
    destruct log as [|[[i vb] va] [|[[j vb'] va'] [|? ?]]]; try done. simpl in Hp.
    inversion Hc as [|? ? ? ? ? Hc2]; subst. inversion Hc2 as [|? ? ? ? ? Hc3]; subst. inversion Hc3; subst. clear Hc Hc2 Hc3 Hl.
    destruct (Ht 0 p eq_refl) as (c1 & a & x & y & E1 & Hin & He & Hp1). injection E1 as <-.
    destruct (Ht 1 p' eq_refl) as (c2 & a' & x' & y' & E2 & Hin' & He' & Hp2). injection E2 as <-.
    exists a, a', v'. split_and!; [done..|].
    assert (Hij : (i = 0 /\ j = 1) \/ (i = 1 /\ j = 0)).
    { assert (Hi : i ∈ [0; 1]) by (rewrite <- Hp; by left). assert (Hj : j ∈ [0; 1]) by (rewrite <- Hp; right; by left).
      assert (Hn : NoDup [i; j]) by (rewrite Hp; repeat constructor; set_solver).
      apply NoDup_cons in Hn as [Hn _]. set_solver. }
    destruct Hij as [[-> ->]|[-> ->]].
    + left. repeat setoid_rewrite elem_of_cons in Hin. repeat setoid_rewrite elem_of_cons in Hin'.
      destruct Hin as [Hin|[Hin|Hin]]; [|done|by apply elem_of_nil in Hin]. destruct Hin' as [Hin'|[Hin'|Hin']]; [done| |by apply elem_of_nil in Hin'].
      simplify_eq. by eexists.
    + right. repeat setoid_rewrite elem_of_cons in Hin. repeat setoid_rewrite elem_of_cons in Hin'.
      destruct Hin as [Hin|[Hin|Hin]]; [done| |by apply elem_of_nil in Hin]. destruct Hin' as [Hin'|[Hin'|Hin']]; [|done|by apply elem_of_nil in Hin'].
      simplify_eq. by eexists.
  - intros (a & a' & v' & Hsh & He & He' & [(v1 & H1 & H2)|(v1 & H1 & H2)]).
    + exists [(0, v, v1); (1, v1, v')], v'. split_and!; [done|by repeat constructor|done|].
      intros [|[|i]] q Hq; simplify_eq/=.
      * exists c, a, v, v1. split_and!; [done|by left|done|done].
      * exists c', a', v1, v'. split_and!; [done|right; by left|done|done].
    + exists [(1, v, v1); (0, v1, v')], v'. split_and!; [by constructor|by repeat constructor|done|].
      intros [|[|i]] q Hq; simplify_eq/=.
      * exists c, a, v1, v'. split_and!; [done|right; by left|done|done].
      * exists c', a', v, v1. split_and!; [done|by left|done|done].
Qed.

(** ** From the code to two calls taking turns *)
Lemma code_turns ckn tk s v c c' ts s' :
  tracks ckn tk s v -> unblocked v -> separate [c; c'] -> quiet (Todo c) -> quiet (Todo c') ->
  rtc pstep (Pool (start [c; c']) s) (Pool ts s') -> Forall finished ts ->
  exists w a a' w' p p', wfC w /\ view_of w = v /\ ts = [TRun p; TRun p'] /\ answers p a /\ answers p' a' /\
    shows tk s' (view_of w') /\ shows_indices tk s' w' /\ shows_aliases s' w' /\
    rtc (turn ckn tk) (Todo c, Todo c', w) (Answered a, Answered a', w').
Proof.
  intros Ht Hu Hs Hq Hq' Hr Hf.
  destruct (in_machine ckn tk s v [c; c'] Ht Hu Hs (fun l w => exists w0, wfC w0 /\ view_of w0 = v /\ turns_inv ckn tk (Todo c) (Todo c') w0 l w))
    with (ts := ts) (s' := s') as (l & w & rows & HA & (w0 & Hw0 & Hv0 & t & u & x & y & -> & Hx & Hy & _ & _ & Hrun) & _); [| |done|].
  - intros w Hw Hv. exists w. split_and!; [done..|]. exists (Between (Todo c)), (Between (Todo c')), (Todo c), (Todo c'). split_and!; try done; by left.
  - intros l w l' w' (w0 & ? & ? & HI) Hst. exists w0. split_and!; [done..|]. by eapply turns_step.
  - pose proof (ag_len _ _ _ _ _ _ HA) as Hl. destruct ts as [|t1 [|t2 [|? ?]]]; try done.
    inversion Hf as [|? ? F1 F2]; subst. inversion F2 as [|? ? F3 _]; subst.
    destruct t1 as [p| | |]; try done. destruct t2 as [p'| | |]; try done.
    destruct (ag_answer _ _ _ _ _ _ HA 0 p eq_refl F1) as (a & [= ->] & Ha).
    destruct (ag_answer _ _ _ _ _ _ HA 1 p' eq_refl F3) as (a' & [= ->] & Ha').
    destruct Hx as [[= <-]|?]; [|done]. destruct Hy as [[= <-]|?]; [|done].
    exists w0, a, a', w, p, p'. split_and!; try done.
    + eapply agrees_shows; [exact HA|by right].
    + apply (ag_indices _ _ _ _ _ _ HA). by right.
    + apply (ag_aliases _ _ _ _ _ _ HA). by right.
Qed.

Lemma answers_end c p a s v v1 ckn tk :
  answers p a -> explained ckn tk c a v v1 -> c <> CListAliases -> ends p s a.
Proof.
  intros Ha He Hc. destruct p; try done.
  - destruct r; destruct a as [o|]; try done; simpl in Ha |- *; try (by rewrite <- (Ha s)).
    destruct o; try done. by apply rows_call in He.
  - by destruct a.
Qed.

Lemma ordered_serial ckn tk w c c' a a' w' p p' s' :
  wfC w -> c <> CListAliases -> c' <> CListAliases -> ordered ckn tk c c' w a a' w' ->
  answers p a -> answers p' a' -> shows tk s' (view_of w') -> serializable ckn tk (view_of w) [c; c'] [TRun p; TRun p'] s'.
Proof.
  intros Hw Hc Hc' Ho Ha Ha' Hsh. apply serial_two. exists a, a', (view_of w').
  assert (H : (in_order2 ckn tk c c' a a' (view_of w) (view_of w') \/ in_order2 ckn tk c' c a' a (view_of w) (view_of w')) /\
    (exists vb va, explained ckn tk c a vb va) /\ (exists vb va, explained ckn tk c' a' vb va)).
  { destruct Ho as [(w1 & H1 & H2)|(w1 & H1 & H2)]; apply whole_explained in H1 as [H1 Hw1]; try done; apply whole_explained in H2 as [H2 Hw2]; try done.
    - split_and!; [left; by eexists|by eexists _, _|by eexists _, _].
    - split_and!; [right; by eexists|by eexists _, _|by eexists _, _]. }
  destruct H as (Ho' & (? & ? & He) & (? & ? & He')).
  split_and!; [done|by eapply answers_end|by eapply answers_end|done].
Qed.

(** ** No index is ever empty *)
Definition filled (v : view) : Prop := forall n reqs, v_idx v !! n = Some reqs -> reqs <> [].

Definition filledC (w : cview) : Prop := forall n p, c_idx w !! n = Some p -> exists nm reqs, c_obj w !! p = Some (nm, reqs) /\ reqs <> [].
Lemma filledC_section ckn tk x w b w' : filledC w -> section ckn tk x w b w' -> filledC w'.
Proof.
  intros H Hs. destruct x as [c|n d [ps|]|n|a i|a]; cbn [section] in Hs.
  - destruct c; repeat case_decide;
      try (destruct Hs as (? & _ & _ & ->); done); try (destruct Hs as (_ & ->); done);
      try (destruct Hs as (-> & _); done).
    destruct (c_idx w !! old) as [p|] eqn:E; destruct Hs as [_ ->]; [|done].
    intros n q. cbn [c_idx c_obj]. rewrite lookup_delete_Some, lookup_insert_Some. intros [_ [[_ <-]|[_ Hq]]]; eauto.
  - destruct Hs as (_ & _ & ->). intros m p Hm. cbn [c_idx c_obj] in *. destruct (H _ _ Hm) as (nm & reqs & E & Hne).
    rewrite put_objs_lookup, E. simpl. eexists _, _. split; [done|]. by destruct reqs.
  - destruct Hs as (p & Hp & _ & ->). intros m q. cbn [c_idx c_obj]. rewrite lookup_insert_Some. intros [[<- <-]|[Hne Hq]].
    + rewrite lookup_insert. by eexists _, _.
    + destruct (H _ _ Hq) as (nm & reqs & E & Hn). rewrite lookup_insert_ne by congruence. eauto.
  - destruct Hs as [_ ->]. intros m q. cbn [c_idx c_obj]. rewrite lookup_delete_Some. intros [_ Hq]. eauto.
  - destruct (c_ali w !! a); destruct Hs as [_ ->]; done.
  - done.
Qed.

Lemma put_each_filled d l idx : (forall n reqs, idx !! n = Some reqs -> reqs <> []) -> forall n reqs, put_each d l idx !! n = Some reqs -> reqs <> [].
Proof.
  intros H n reqs. rewrite put_each_lookup. destruct (idx !! n) as [r|] eqn:E; [|done]. simpl. intros [= <-].
  specialize (H _ _ E). by destruct r.
Qed.
Lemma filled_spec ckn tk c v o : filled v -> spec ckn tk c v o -> match o with ODone _ v' | OPanic v' => filled v' | _ => True end.
Proof.
  intros Hf Hs. destruct o as [r v'|v'| |]; [..|done|done].
  - destruct c; cbn [spec] in Hs.
    all: repeat first [case_decide|case_match]; try done; destruct_and?; simplify_eq; try done.
    all: try (destruct Hs as (? & _ & ?); simplify_eq; done).
    all: try (by destruct Hs as (? & ?); simplify_eq).
    all: try (destruct Hs as [(? & ? & ? & ? & ?)|[? ?]]; simplify_eq; done).
    all: try (unfold filled; cbn [v_idx]; apply put_each_filled; exact Hf).
    + exact (put_each_filled doc [index] (v_idx v) Hf).
    + intros m reqs. cbn [v_idx]. rewrite lookup_insert_Some. intros [[_ <-]|[_ ?]]; [done|by eapply Hf].
    + intros m reqs. cbn [v_idx]. rewrite lookup_delete_Some, lookup_insert_Some. intros [_ [[_ <-]|[_ ?]]]; by eapply Hf.
    + intros m reqs. cbn [v_idx]. rewrite lookup_delete_Some. intros [_ ?]; by eapply Hf.
  - destruct c; cbn [spec] in Hs.
    all: repeat first [case_decide|case_match]; try done; destruct_and?; simplify_eq; try done.
    all: try (destruct Hs as (? & _ & ?); simplify_eq; done).
    all: try (by destruct Hs as (? & ?); simplify_eq).
    all: try (destruct Hs as [(? & ? & ? & ? & ?)|[? ?]]; simplify_eq; done).
Qed.

(** Every index holds at least one document. *)
Theorem C94_no_empty_index :
  forall ckn tk s v n, tracks ckn tk s v -> v_idx v !! n <> Some [].
Proof.
  intros ckn tk s v n Ht. cut (filled v); [intros Hf E; by eapply Hf|]. revert Ht.
  induction 1 as [|s v c r s' v' Ht IH _ Hr Hs|s v c s' v' Ht IH _ Hr Hs|s v cs ts s' v' Ht IH _ Hu Hsep Hr Hfin Hst].
  - intros m reqs. change (v_idx new_view) with (∅ : gmap string (list DocRequest)). by rewrite lookup_empty.
  - exact (filled_spec _ _ _ _ _ IH Hs).
  - exact (filled_spec _ _ _ _ _ IH Hs).
  - destruct (in_machine ckn tk s v cs Ht Hu Hsep (fun l w => filledC w)) with (ts := ts) (s' := s') as (l & w & rows & HA & HF & _); [| |done|].
    + intros w Hw <- m p Hm. destruct (wf_obj _ Hw _ _ Hm) as [[nm reqs] Ho]. exists nm, reqs. split; [done|].
      apply (IH m). by rewrite view_idx, Hm; simpl; rewrite Ho.
    + intros l w l' w' HF Hs. inversion Hs; simplify_eq; [by eapply filledC_section|done].
    + intros m reqs Hm. pose proof (ag_indices _ _ _ _ _ _ HA ltac:(by right)) as [Ei Eh].
      pose proof (st_idx _ _ _ Hst m) as Hx. destruct (i_map (r_I s') !! m) as [p|] eqn:Ep; [|congruence].
      destruct Hx as (nm & reqs' & E1 & E2). rewrite Hm in E1. injection E1 as <-. rewrite Ei in Ep.
      destruct (Eh _ _ Ep) as (nm2 & reqs2 & E3 & E4). destruct (HF _ _ Ep) as (nm3 & reqs3 & E5 & Hne). rewrite E3 in E5. injection E5 as <- <-.
      rewrite E2 in E4. injection E4 as E4. apply (f_equal mi_Docs) in E4.
      rewrite (rep_docs _ _ _ (rep_index_after nm tk reqs)), (rep_docs _ _ _ (rep_index_after nm2 tk reqs2)) in E4.
      intros ->. by destruct reqs2.
Qed.
Print Assumptions C94_no_empty_index.

(** ** Pairs that do not clash *)
Definition awkward (v : view) (c c' : call) : Prop :=
  match c, c' with
  | CPut n _, (CAlias _ _ | CUnAlias _ _ | CDrop _ | CRename _ _) =>
      (v_idx v !! n = None -> v_ali v !! n <> None) \/ makes n c'
  | CDrop n, CDrop m => m = n
  | CDrop n, CRename old _ => old = n
  | CUnAlias _ i, CDrop m => m = i
  | _, _ => False
  end.

Lemma gentle_two v c c' : bears v [c; c'] 0 c c' -> bears v [c; c'] 1 c' c -> gentle v [c; c'].
Proof. intros H1 H2 [|[|i]] [|[|j]] x y Hij Hi Hj; simplify_eq/=; done. Qed.

Lemma pair_cases v c c' :
  comparable c c' -> comparable c' c -> gentle v [c; c'] \/ awkward v c c' \/ awkward v c' c \/
  exists n d d', c = CPut n d /\ c' = CPut n d' /\ v_idx v !! n = None /\ v_ali v !! n = None.
Proof.
  intros Hc Hc'.
  assert (Hput : forall n d c0, match c0 with CAlias _ _ | CUnAlias _ _ | CDrop _ | CRename _ _ => True | _ => False end ->
    awkward v (CPut n d) c0 \/ (v_idx v !! n = None /\ v_ali v !! n = None /\ ~ makes n c0)).
  { intros n d c0 H0. destruct (v_idx v !! n) eqn:E1; [left; destruct c0; try done; left; by rewrite E1|].
    destruct (v_ali v !! n) eqn:E2; [left; destruct c0; try done; left; by rewrite E2|].
    destruct c0; try done; cbn [makes awkward].
    - destruct (decide (alias = n)); [left; by right|by right].
    - right; split_and!; try done; by intros ?.
    - destruct (decide (new = n)); [left; by right|by right].
    - right; split_and!; try done; by intros ?. }
  assert (Hb : forall cs k n d c0, v_idx v !! n = None -> v_ali v !! n = None -> ~ makes n c0 -> bears v cs k (CPut n d) c0).
  { intros cs k n d c0 E1 E2 H0. cbn [bears]. by rewrite E1, E2. }
  assert (Hr : forall cs k n d c0, match c0 with CAlias _ _ | CUnAlias _ _ | CDrop _ | CRename _ _ | CPut _ _ => False | _ => True end ->
    bears v cs k (CPut n d) c0).
  { intros cs k n d c0 H0. cbn [bears]. repeat case_match; done || (by intros ?). }
  destruct c, c'; try (left; apply gentle_two; first [done|by apply Hr|by intros ?]); try done.
  - destruct (Hput index0 doc (CAlias alias index) I) as [H|(H1 & H2 & H3)]; [by auto|left]. apply gentle_two; [done|by apply Hb].
  - destruct (Hput index0 doc (CUnAlias alias index) I) as [H|(H1 & H2 & H3)]; [by auto|left]. apply gentle_two; [done|by apply Hb].
  - destruct (decide (index0 = index)) as [->|]; [right; by left|left; by apply gentle_two].
  - destruct (Hput index doc (CAlias alias index0) I) as [H|(H1 & H2 & H3)]; [by auto|left]. apply gentle_two; [by apply Hb|done].
  - destruct (Hput index doc (CUnAlias alias index0) I) as [H|(H1 & H2 & H3)]; [by auto|left]. apply gentle_two; [by apply Hb|done].
  - destruct (decide (index0 = index)) as [->|Hne].
    2:{ left. apply gentle_two; cbn [bears]; repeat case_match; try done; cbn [makes]; congruence. }
    destruct (v_idx v !! index) eqn:E1; [left; apply gentle_two; cbn [bears]; by rewrite E1|].
    destruct (v_ali v !! index) eqn:E2; [left; apply gentle_two; cbn [bears]; by rewrite E1, E2|].
    do 3 right. by exists index, doc, doc0.
  - destruct (Hput index doc (CRename old new) I) as [H|(H1 & H2 & H3)]; [by auto|left]. apply gentle_two; [by apply Hb|done].
  - destruct (Hput index doc (CDrop index0) I) as [H|(H1 & H2 & H3)]; [by auto|left]. apply gentle_two; [by apply Hb|done].
  - destruct (Hput index doc (CRename old new) I) as [H|(H1 & H2 & H3)]; [by auto|left]. apply gentle_two; [done|by apply Hb].
  - destruct (decide (index = old)) as [->|]; [right; right; by left|left; apply gentle_two; [done|simpl; intros; congruence]].
  - destruct (decide (index = index0)) as [->|]; [right; right; by left|left; apply gentle_two; [done|simpl; intros; congruence]].
  - destruct (Hput index0 doc (CDrop index) I) as [H|(H1 & H2 & H3)]; [by auto|left]. apply gentle_two; [done|by apply Hb].
  - destruct (decide (old = index)) as [->|]; [right; by left|left; apply gentle_two; [simpl; intros; congruence|done]].
  - destruct (decide (index0 = index)) as [->|]; [right; by left|left; apply gentle_two; [simpl; intros; congruence|simpl; intros; congruence]].
Qed.

Lemma same_index nm tk r1 r2 : Forall2 (same_doc tk) r1 r2 -> index_after nm tk r1 = index_after nm tk r2.
Proof.
  intros H. pose proof (rep_index_after nm tk r1) as [T1 D1 I1]. pose proof (rep_index_after nm tk r2) as [T2 D2 I2].
  assert (N : forall r, mi_name (index_after nm tk r) = nm).
  { intros r. unfold index_after. assert (forall mi, mi_name (fold_left Put r mi) = mi_name mi) as E; [|by rewrite E].
    induction r as [|x l IH]; intros mi; [done|]. simpl. by rewrite IH. }
  pose proof (N r1) as N1. pose proof (N r2) as N2.
  assert (E : mi_Inverted (index_after nm tk r1) = mi_Inverted (index_after nm tk r2)).
  { apply map_eq. intros t. by rewrite I1, I2, (same_doc_positions _ t _ _ H). }
  rewrite (same_doc_docs _ _ _ H) in D1.
  destruct (index_after nm tk r1), (index_after nm tk r2); simpl in *. congruence.
Qed.

(** A Put under a new name, while an index that holds just the same document is
    renamed to it: as if the Put had come first. *)
Lemma lucky_rename ckn tk n d old w w' s' p p' q r :
  wfC w -> targets w n = None -> c_idx w !! old = Some q -> c_obj w !! r = None ->
  w' = MkC (<[n := r]> (delete old (<[n := q]> (c_idx w)))) (<[r := (n, [d])]> (c_obj w)) (map (renamed old n) <$> c_ali w) ->
  ~ at_odds tk (view_of w) (CPut n d) (CRename old n) ->
  answers p (Returned OUnit) -> answers p' (Returned (OBool true)) -> shows_indices tk s' w' -> shows_aliases s' w' ->
  exists v', shows tk s' v' /\ ends p s' (Returned OUnit) /\ ends p' s' (Returned (OBool true)) /\
    in_order2 ckn tk (CPut n d) (CRename old n) (Returned OUnit) (Returned (OBool true)) (view_of w) v'.
Proof.
  intros Hw Ht Hq Hr -> Hno Ha Ha' [Hs1 Hs2] Hsa. destruct (unused _ _ Ht) as [Hn Hal].
  destruct (wf_obj _ Hw _ _ Hq) as [[nm reqs] Hreqs]. assert (Hne : old <> n) by (intros ->; congruence).
  assert (Hvo : v_idx (view_of w) !! old = Some reqs) by (rewrite view_idx, Hq; simpl; by rewrite Hreqs).
  assert (Hvn : v_idx (view_of w) !! n = None) by (by rewrite view_idx, Hn).
  assert (Hsame : reqs = [d] \/ Forall2 (same_doc tk) reqs [d]).
  { destruct reqs as [|x [|y l]].
    - exfalso. apply Hno. cbn. split_and!; try done. exists []. split; [done|]. by intros H%Forall2_length.
    - right. assert (Hdec : Forall2 (same_doc tk) [x] [d] \/ ~ Forall2 (same_doc tk) [x] [d]).
      { destruct (decide (req_Name x = req_Name d)) as [E1|E1]; [|right; intros H; inversion H as [|? ? ? ? (? & _)]; congruence].
        destruct (decide (req_Content x = req_Content d)) as [E2|E2]; [|right; intros H; inversion H as [|? ? ? ? (_ & ? & _)]; congruence].
        destruct (decide (Forall (fun t => t ∈ tk (req_statement d)) (tk (req_statement x)) /\ Forall (fun t => t ∈ tk (req_statement x)) (tk (req_statement d))))
          as [[F1 F2]|F].
        - left. constructor; [|constructor]. split_and!; [done..|]. intros t. rewrite Forall_forall in F1, F2. split; auto.
        - right. intros H. inversion H as [|? ? ? ? (_ & _ & Hx)]; subst. apply F. split; apply Forall_forall; intros t; by apply Hx. }
      destruct Hdec as [|Hd]; [done|]. exfalso. apply Hno. cbn. split_and!; try done. by exists [x].
    - exfalso. apply Hno. cbn. split_and!; try done. exists (x :: y :: l). split; [done|]. by intros H%Forall2_length. }
  assert (Hidx : forall m, index_after m tk [d] = index_after m tk reqs).
  { intros m. destruct Hsame as [->|H]; [done|]. symmetry. by apply same_index. }
  set (v1 := MkView (<[n := [d]]> (v_idx (view_of w))) (c_ali w) 0 false).
  set (v2 := MkView (delete old (<[n := reqs]> (v_idx v1))) (map (renamed old n) <$> c_ali w) 0 false).
  exists v2. split_and!.
  - exists (MkC (<[n := r]> (delete old (<[n := q]> (c_idx w)))) (<[r := (n, reqs)]> (c_obj w)) (map (renamed old n) <$> c_ali w)).
    split_and!; [|split; [exact Hs1|]|exact Hsa].
    + unfold view_of at 1. cbn [c_idx c_obj c_ali]. unfold v2. f_equal. apply map_eq. intros m. rewrite lookup_omap.
      destruct (decide (m = n)) as [->|Hmn].
      * rewrite lookup_insert, lookup_delete_ne, lookup_insert by done. cbn. by rewrite lookup_insert.
      * rewrite lookup_insert_ne by done. destruct (decide (m = old)) as [->|Hmo]; [by rewrite !lookup_delete|].
        rewrite !lookup_delete_ne, !lookup_insert_ne by done. unfold v1. cbn [v_idx]. rewrite lookup_insert_ne, view_idx by done.
        destruct (c_idx w !! m) as [x|] eqn:Ex; [|done]. cbn. destruct (wf_obj _ Hw _ _ Ex) as [y Hy]. by rewrite lookup_insert_ne by congruence.
    + intros m x Hm. cbn [c_idx c_obj] in *. destruct (Hs2 _ _ Hm) as (nm' & reqs' & E1 & E2).
      destruct (decide (x = r)) as [->|Hx].
      * rewrite lookup_insert in E1. injection E1 as <- <-. exists n, reqs. rewrite lookup_insert. split; [done|]. by rewrite <- Hidx.
      * rewrite lookup_insert_ne in E1 by done. exists nm', reqs'. by rewrite lookup_insert_ne by done.
  - eapply (answers_end (CPut n d) p _ s' (view_of w) v1 ckn tk); [done| |done].
    exists v1. split; [|done]. cbn [spec]. rewrite Hvn. cbn [view_of v_leakA v_leakI v_ali]. rewrite Hal. done.
  - eapply (answers_end (CRename old n) p' _ s' v1 v2 ckn tk); [done| |done].
    exists v2. split; [|done]. cbn [spec]. unfold v1. cbn [v_idx v_leakI]. rewrite lookup_insert_ne, Hvo by done. done.
  - exists v1. split.
    + exists v1. split; [|done]. cbn [spec]. rewrite Hvn. cbn [view_of v_leakA v_leakI v_ali]. rewrite Hal. done.
    + exists v2. split; [|done]. cbn [spec]. unfold v1. cbn [v_idx v_leakI]. rewrite lookup_insert_ne, Hvo by done. done.
Qed.

Lemma awkward_serial ckn tk c c' w a a' w' p p' s' :
  wfC w -> awkward (view_of w) c c' -> ~ at_odds tk (view_of w) c c' ->
  answers p a -> answers p' a' -> shows_indices tk s' w' -> shows_aliases s' w' ->
  rtc (turn ckn tk) (Todo c, Todo c', w) (Answered a, Answered a', w') ->
  exists v', shows tk s' v' /\ ends p s' a /\ ends p' s' a' /\
    (in_order2 ckn tk c c' a a' (view_of w) v' \/ in_order2 ckn tk c' c a' a (view_of w) v').
Proof.
  intros Hw Hk Hno Ha Ha' Hs1 Hs2 Hr.
  assert (Hord : ordered ckn tk c c' w a a' w' -> c <> CListAliases -> c' <> CListAliases ->
    exists v', shows tk s' v' /\ ends p s' a /\ ends p' s' a' /\
    (in_order2 ckn tk c c' a a' (view_of w) v' \/ in_order2 ckn tk c' c a' a (view_of w) v')).
  { intros Ho H1 H2. assert (Hsh : shows tk s' (view_of w')) by (by exists w').
    pose proof (ordered_serial ckn tk w c c' a a' w' p p' s' Hw H1 H2 Ho Ha Ha' Hsh) as Hser.
    exists (view_of w'). split; [done|].
    assert (H : (in_order2 ckn tk c c' a a' (view_of w) (view_of w') \/ in_order2 ckn tk c' c a' a (view_of w) (view_of w'))).
    { destruct Ho as [(w1 & X1 & X2)|(w1 & X1 & X2)]; apply whole_explained in X1 as [X1 Hw1]; try done; apply whole_explained in X2 as [X2 Hw2]; try done;
        [left|right]; by eexists. }
    split_and!; [| |done]; destruct H as [(? & ? & ?)|(? & ? & ?)]; by eapply answers_end. }
  assert (Hunused : forall n, targets w n = None -> v_idx (view_of w) !! n = None /\ v_ali (view_of w) !! n = None).
  { intros n Ht. destruct (unused _ _ Ht) as [E1 E2]. split; [by rewrite view_idx, E1|exact E2]. }
  destruct c, c'; try done; cbn [awkward] in Hk.
  - subst. apply Hord; [|done|done]. by apply unalias_drop.
  - destruct (put_mover ckn tk index doc (CAlias alias index0) w a a' w' I Hw Hr) as [Ho|(Ht & _)]; [by apply Hord|].
    destruct (Hunused _ Ht) as [E1 E2]. destruct Hk as [Hk|Hk]; [by destruct (Hk E1)|]. cbn in Hk. subst.
    apply Hord; [|done|done]. by apply put_alias.
  - destruct (put_mover ckn tk index doc (CUnAlias alias index0) w a a' w' I Hw Hr) as [Ho|(Ht & _)]; [by apply Hord|].
    destruct (Hunused _ Ht) as [E1 E2]. destruct Hk as [Hk|Hk]; [by destruct (Hk E1)|done].
  - destruct (put_mover ckn tk index doc (CRename old new) w a a' w' I Hw Hr) as [Ho|(Ht & _)]; [by apply Hord|].
    destruct (Hunused _ Ht) as [E1 E2]. destruct Hk as [Hk|Hk]; [by destruct (Hk E1)|]. cbn in Hk. subst.
    destruct (put_rename ckn tk index doc old w a a' w' Hw Hr) as [Ho|(_ & -> & -> & r & q & Hq & Hr' & ->)]; [by apply Hord|].
    destruct (lucky_rename ckn tk index doc old w _ s' p p' q r Hw Ht Hq Hr' eq_refl Hno Ha Ha' Hs1 Hs2) as (v' & H1 & H2 & H3 & H4).
    exists v'. split_and!; try done. by left.
  - destruct (put_mover ckn tk index doc (CDrop index0) w a a' w' I Hw Hr) as [Ho|(Ht & _)]; [by apply Hord|].
    destruct (Hunused _ Ht) as [E1 E2]. destruct Hk as [Hk|Hk]; [by destruct (Hk E1)|done].
  - subst. apply Hord; [|done|done]. destruct (c_idx w !! index) as [x|] eqn:E.
    + exfalso. apply Hno. cbn. split; [done|]. apply view_idx_is_Some; [done|]. by rewrite E.
    + eapply (still ckn tk _ _ w (Returned (OBool false)) (Returned (OBool false))); [| |exact Hr]; intros y w1; [by apply drop_missing|by apply rename_missing].
  - subst. apply Hord; [|done|done]. destruct (c_idx w !! index) as [x|] eqn:E.
    + exfalso. apply Hno. cbn. split; [done|]. apply view_idx_is_Some; [done|]. by rewrite E.
    + eapply (still ckn tk _ _ w (Returned (OBool false)) (Returned (OBool false))); [| |exact Hr]; intros y w1; by apply drop_missing.
Qed.

Lemma comparable_separate c c' : comparable c c' -> comparable c' c -> separate [c; c'].
Proof.
  intros H1 H2. unfold separate, without_rename, without_unalias. destruct c, c'; try done;
    first [by left; intros ? ?; rewrite !elem_of_cons, elem_of_nil; intros [?|[?|?]]|by right; intros ? ?; rewrite !elem_of_cons, elem_of_nil; intros [?|[?|?]]].
Qed.

Theorem C94_others_do_not_clash :
  forall ckn tk s v c c' ts s',
    tracks ckn tk s v -> unblocked v -> comparable c c' -> comparable c' c -> ~ clashing tk v c c' ->
    rtc pstep (Pool (start [c; c']) s) (Pool ts s') -> Forall finished ts -> serializable ckn tk v [c; c'] ts s'.
Proof.
  intros ckn tk s v c c' ts s' Ht Hu Hc Hc' Hno Hr Hf.
  assert (Hcases : gentle v [c; c'] \/ awkward v c c' \/ awkward v c' c).
  { destruct (pair_cases v c c' Hc Hc') as [?|[?|[?|(n & d & d' & -> & -> & E1 & E2)]]]; auto. exfalso. apply Hno. left. by cbn. }
  destruct Hcases as [Hg|Ha]; [by eapply C83_serializable|].
  assert (Hq : quiet (Todo c) /\ quiet (Todo c')) by (destruct Ha as [Ha|Ha]; by destruct c, c').
  destruct Hq as [Hq Hq'].
  destruct (code_turns ckn tk s v c c' ts s' Ht Hu (comparable_separate _ _ Hc Hc') Hq Hq' Hr Hf)
    as (w & a & a' & w' & p & p' & Hw & <- & -> & H1 & H2 & _ & H3 & H4 & Hturn).
  apply serial_two. exists a, a'. destruct Ha as [Ha|Ha].
  - eapply (awkward_serial ckn tk c c' w a a' w'); try done. intros Ho. apply Hno. by left.
  - apply turn_swap in Hturn. destruct (awkward_serial ckn tk c' c w a' a w' p' p s' Hw Ha) as (v' & X1 & X2 & X3 & X4); try done.
    + intros Ho. apply Hno. by right.
    + exists v'. split_and!; try done. destruct X4; [by right|by left].
Qed.
Print Assumptions C94_others_do_not_clash.

(** ** Pairs that clash *)
Lemma turns_run ckn tk x y w x' y' w' :
  rtc (turn ckn tk) (x, y, w) (x', y', w') ->
  rtc (cstep ckn tk) (APool [Between x; Between y] w) (APool [Between x'; Between y'] w').
Proof.
  intros Hr.
  refine (rtc_ind_r (R := turn ckn tk) (fun q => rtc (cstep ckn tk) (APool [Between x; Between y] w) (APool [Between q.1.1; Between q.1.2] q.2)) _ _ _ _ Hr); [done|].
  intros q1 q2 _ Hs IH. etrans; [exact IH|]. inversion Hs as [x1 x2 y1 w1 w2 H|x1 y1 y2 w1 w2 H]; subst; cbn [fst snd].
  - eapply rtc_l; [by apply (as_commit _ _ _ _ _ _ 0 x1 (Next x2) w2)|].
    eapply rtc_l; [by apply (as_return _ _ _ _ _ _ 0 (Next x2) x2)|]. done.
  - eapply rtc_l; [by apply (as_commit _ _ _ _ _ _ 1 y1 (Next y2) w2)|].
    eapply rtc_l; [by apply (as_return _ _ _ _ _ _ 1 (Next y2) y2)|]. done.
Qed.

Definition unexplained ckn tk (c c' : call) (w : cview) (a a' : answer) (w' : cview) : Prop :=
  forall s' v', stored s' = m_stored tk w' -> shows tk s' v' ->
    ~ (in_order2 ckn tk c c' a a' (view_of w) v' \/ in_order2 ckn tk c' c a' a (view_of w) v').

(** What [shows] says about the documents under a name. *)
Lemma shows_stored tk s v n : shows tk s v ->
  match v_idx v !! n with
  | Some reqs => exists nm, stored s !! n = Some (index_after nm tk reqs)
  | None => stored s !! n = None
  end.
Proof.
  intros (w & <- & [H1 H2] & _). rewrite view_idx. unfold stored. rewrite lookup_omap, H1.
  destruct (c_idx w !! n) as [p|] eqn:E; [|done]. cbn. destruct (H2 _ _ E) as (nm & reqs & -> & ->). cbn. by exists nm.
Qed.
Lemma index_docs nm tk r : mi_Docs (index_after nm tk r) = map doc_of r.
Proof. exact (rep_docs _ _ _ (rep_index_after nm tk r)). Qed.
Lemma index_same nm1 nm2 tk r d : index_after nm1 tk r = index_after nm2 tk [d] -> Forall2 (same_doc tk) r [d].
Proof.
  intros E. pose proof (rep_index_after nm1 tk r) as [_ D1 I1]. pose proof (rep_index_after nm2 tk [d]) as [_ D2 I2].
  rewrite E in D1, I1. rewrite D2 in D1. destruct r as [|x [|y r]]; try done. simpl in D1. unfold doc_of in D1. simplify_eq.
  constructor; [|constructor]. split_and!; [done..|]. intros t. specialize (I1 t). rewrite I2 in I1. simpl in I1.
  unfold contains in I1. split; intros Hin; apply dec_stable; intros Hout.
  - rewrite (bool_decide_eq_false_2 (t ∈ tk (req_statement d))) in I1 by done. by rewrite (bool_decide_eq_true_2 (t ∈ tk (req_statement x))) in I1.
  - rewrite (bool_decide_eq_true_2 (t ∈ tk (req_statement d))) in I1 by done. by rewrite (bool_decide_eq_false_2 (t ∈ tk (req_statement x))) in I1.
Qed.

(** What the sequential machine does on the calls in question. *)
Lemma spec_put_new ckn tk n d v a va :
  v_idx v !! n = None -> v_ali v !! n = None -> explained ckn tk (CPut n d) a v va ->
  va = MkView (<[n := [d]]> (v_idx v)) (v_ali v) 0 false.
Proof.
  intros H1 H2 He. destruct a as [o|]; destruct He as (v1 & Hs & ->); cbn [spec] in Hs; rewrite H1 in Hs;
    (destruct (v_leakA v); [done|]); (case_decide; [done|]); rewrite H2 in Hs; by simplify_eq.
Qed.
Lemma spec_put_old ckn tk n d v a va reqs :
  v_idx v !! n = Some reqs -> explained ckn tk (CPut n d) a v va ->
  va = MkView (<[n := reqs ++ [d]]> (v_idx v)) (v_ali v) 0 false.
Proof.
  intros H1 He. destruct a as [o|]; destruct He as (v1 & Hs & ->); cbn [spec] in Hs; rewrite H1 in Hs;
    (case_decide; [done|]); simplify_eq. unfold forget. cbn. f_equal.
  apply map_eq. intros m. destruct (decide (m = n)) as [->|Hne].
  - by rewrite lookup_alter, lookup_insert, H1.
  - by rewrite lookup_alter_ne, lookup_insert_ne.
Qed.
Lemma spec_drop_true ckn tk n v va :
  explained ckn tk (CDrop n) (Returned (OBool true)) v va -> is_Some (v_idx v !! n) /\ v_idx va = delete n (v_idx v).
Proof.
  intros (v1 & Hs & ->). cbn [spec] in Hs. case_decide as Hd; [by simplify_eq|]. case_decide; [done|]. destruct (v_leakA v); [done|].
  simplify_eq. split; [by apply not_eq_None_Some|done].
Qed.
Lemma spec_rename_true ckn tk old new v va :
  explained ckn tk (CRename old new) (Returned (OBool true)) v va ->
  exists reqs, v_idx v !! old = Some reqs /\ v_idx va = delete old (<[new := reqs]> (v_idx v)) /\ v_ali va = (map (renamed old new) <$> v_ali v).
Proof.
  intros (v1 & Hs & ->). cbn [spec] in Hs. case_decide; [done|]. destruct (v_idx v !! old) as [reqs|]; simplify_eq. by exists reqs.
Qed.

Lemma rev2 {A} (R : A -> A -> Prop) x1 x2 x3 x4 x5 : R x1 x2 -> R x2 x3 -> R x3 x4 -> R x4 x5 -> rtc R x1 x5.
Proof. intros. by do 4 (eapply rtc_l; [eassumption|]). Qed.

Lemma at_odds_run ckn tk c c' w :
  wfC w -> filled (view_of w) -> at_odds tk (view_of w) c c' ->
  exists o o' w', rtc (turn ckn tk) (Todo c, Todo c', w) (Answered (Returned o), Answered (Returned o'), w') /\
    (forall l, o <> ORows l) /\ (forall l, o' <> ORows l) /\ unexplained ckn tk c c' w (Returned o) (Returned o') w'.
Proof.
  intros Hw Hfill Ho.
  destruct c as [| | | | | |n d| | |n| ]; try done; destruct c' as [| | | | | |m d'| |old new|m| ]; try done; cbn [at_odds] in Ho.
  - destruct Ho as (-> & Hn & Ha).
    assert (Hi : c_idx w !! n = None) by (by apply view_idx_None). assert (Ht : targets w n = None) by (unfold targets; rewrite Hi; cbn in Ha; by rewrite Ha).
    set (p1 := base.fresh (dom (c_obj w))).
    assert (Hp1 : c_obj w !! p1 = None) by (apply not_elem_of_dom, is_fresh).
    set (p2 := base.fresh (dom (c_obj w) ∪ {[p1]})).
    assert (Hp2 : p2 ∉ dom (c_obj w) ∪ {[p1]}) by apply is_fresh.
    apply not_elem_of_union in Hp2 as [Hp2 Hne]. apply not_elem_of_dom in Hp2. apply not_elem_of_singleton in Hne.
    set (w1 := MkC (<[n := p1]> (c_idx w)) (<[p1 := (n, [d])]> (c_obj w)) (c_ali w)).
    set (w2 := MkC (<[n := p2]> (c_idx w1)) (<[p2 := (n, [d'])]> (c_obj w1)) (c_ali w)).
    exists OUnit, OUnit, w2. split_and!; [|done|done|].
    + eapply rev2.
      * apply (turn_l ckn tk (Todo (CPut n d)) (PutAt n d None) (Todo (CPut n d')) w w). cbn [section]. by rewrite Ht.
      * apply (turn_r ckn tk _ (Todo (CPut n d')) (PutAt n d' None) w w). cbn [section]. by rewrite Ht.
      * apply (turn_l ckn tk (PutAt n d None) (Answered (Returned OUnit)) _ w w1). cbn [section]. by exists p1.
      * apply (turn_r ckn tk _ (PutAt n d' None) (Answered (Returned OUnit)) w1 w2). cbn [section]. exists p2. split_and!; try done.
        unfold w1. cbn [c_obj]. by rewrite lookup_insert_ne.
    + intros s' v' Hst Hsh Hord. pose proof (shows_stored tk s' v' n Hsh) as Hx. rewrite Hst in Hx. unfold m_stored, w2, w1 in Hx. cbn [c_idx c_obj] in Hx.
      rewrite lookup_omap, !lookup_insert in Hx. cbn in Hx. rewrite lookup_insert in Hx. cbn in Hx.
      assert (Hlen : exists x y, v_idx v' !! n = Some [x; y]).
      { destruct Hord as [(v1 & H1 & H2)|(v1 & H1 & H2)]; apply spec_put_new in H1; try done; subst v1;
          eapply spec_put_old in H2; [|cbn [v_idx]; apply lookup_insert| |cbn [v_idx]; apply lookup_insert]; subst v'; cbn [v_idx]; rewrite lookup_insert; simpl; eauto. }
      destruct Hlen as (x & y & E). rewrite E in Hx. destruct Hx as [nm Hx]. apply Some_inj in Hx. apply (f_equal mi_Docs) in Hx. by rewrite !index_docs in Hx.
  - destruct Ho as (-> & Hn & Ha & reqs & Hold & Hdiff).
    assert (Hi : c_idx w !! n = None) by (by apply view_idx_None). assert (Ht : targets w n = None) by (unfold targets; rewrite Hi; cbn in Ha; by rewrite Ha).
    destruct (c_idx w !! old) as [q|] eqn:Eq; [|rewrite view_idx, Eq in Hold; done].
    assert (Hne : old <> n) by (intros ->; congruence).
    set (p1 := base.fresh (dom (c_obj w))).
    assert (Hp1 : c_obj w !! p1 = None) by (apply not_elem_of_dom, is_fresh).
    set (w1 := MkC (delete old (<[n := q]> (c_idx w))) (c_obj w) (map (renamed old n) <$> c_ali w)).
    set (w2 := MkC (<[n := p1]> (c_idx w1)) (<[p1 := (n, [d])]> (c_obj w)) (c_ali w1)).
    exists OUnit, (OBool true), w2. split_and!; [|done|done|].
    + eapply rtc_l; [apply (turn_l ckn tk (Todo (CPut n d)) (PutAt n d None) (Todo (CRename old n)) w w); cbn [section]; by rewrite Ht|].
      eapply rtc_l; [apply (turn_r ckn tk _ (Todo (CRename old n)) (Answered (Returned (OBool true))) w w1); cbn [section]; by rewrite Eq|].
      eapply rtc_l; [apply (turn_l ckn tk (PutAt n d None) (Answered (Returned OUnit)) _ w1 w2); cbn [section]; by exists p1|]. done.
    + intros s' v' Hst Hsh Hord. pose proof (shows_stored tk s' v' n Hsh) as Hx. rewrite Hst in Hx. unfold m_stored, w2, w1 in Hx. cbn [c_idx c_obj] in Hx.
      rewrite lookup_omap, !lookup_insert in Hx. cbn in Hx. rewrite lookup_insert in Hx. cbn in Hx.
      destruct Hord as [(v1 & H1 & H2)|(v1 & H1 & H2)].
      * apply spec_put_new in H1; try done. subst v1. apply spec_rename_true in H2 as (r & Hr & Hv & _). cbn [v_idx] in Hr, Hv.
        rewrite lookup_insert_ne, Hold in Hr by done. injection Hr as <-. rewrite Hv, lookup_delete_ne, lookup_insert in Hx by done.
        destruct Hx as [nm Hx]. apply Some_inj in Hx. apply Hdiff. by eapply index_same.
      * apply spec_rename_true in H1 as (r & Hr & Hv & _). rewrite Hold in Hr. injection Hr as <-.
        eapply spec_put_old in H2; [|rewrite Hv, lookup_delete_ne by done; apply lookup_insert]. subst v'. cbn [v_idx] in Hx.
        rewrite lookup_insert in Hx. destruct Hx as [nm Hx]. apply Some_inj in Hx. apply (f_equal mi_Docs) in Hx. rewrite !index_docs, map_app in Hx.
        apply (f_equal length) in Hx. rewrite app_length, map_length in Hx. simpl in Hx. destruct reqs; [by eapply Hfill|simpl in Hx; lia].
  - destruct Ho as (-> & Hn). apply view_idx_is_Some in Hn; [|done]. destruct Hn as [q Eq].
    set (w1 := MkC (delete n (<[new := q]> (c_idx w))) (c_obj w) (map (renamed n new) <$> c_ali w)).
    set (w2 := MkC (delete n (c_idx w1)) (c_obj w) (omap (drop_from n) (c_ali w1))).
    exists (OBool true), (OBool true), w2. split_and!; [|done|done|].
    + eapply rtc_l; [apply (turn_l ckn tk (Todo (CDrop n)) (DropAt n) (Todo (CRename n new)) w w); cbn [section]; by rewrite decide_False by congruence|].
      eapply rtc_l; [apply (turn_r ckn tk _ (Todo (CRename n new)) (Answered (Returned (OBool true))) w w1); cbn [section]; by rewrite Eq|].
      eapply rtc_l; [by apply (turn_l ckn tk (DropAt n) (Answered (Returned (OBool true))) _ w1 w2); cbn [section]|]. done.
    + intros s' v' Hst Hsh [(v1 & H1 & H2)|(v1 & H1 & H2)].
      * apply spec_drop_true in H1 as [_ Hv]. apply spec_rename_true in H2 as (r & Hr & _). by rewrite Hv, lookup_delete in Hr.
      * apply spec_rename_true in H1 as (r & Hr & Hv & _). apply spec_drop_true in H2 as [[x Hx] _]. by rewrite Hv, lookup_delete in Hx.
  - destruct Ho as (-> & Hn). apply view_idx_is_Some in Hn; [|done]. destruct Hn as [q Eq].
    set (w1 := MkC (delete n (c_idx w)) (c_obj w) (omap (drop_from n) (c_ali w))).
    set (w2 := MkC (delete n (c_idx w1)) (c_obj w) (omap (drop_from n) (c_ali w1))).
    exists (OBool true), (OBool true), w2. split_and!; [|done|done|].
    + eapply rev2.
      * apply (turn_l ckn tk (Todo (CDrop n)) (DropAt n) (Todo (CDrop n)) w w). cbn [section]. by rewrite decide_False by congruence.
      * apply (turn_r ckn tk _ (Todo (CDrop n)) (DropAt n) w w). cbn [section]. by rewrite decide_False by congruence.
      * by apply (turn_l ckn tk (DropAt n) (Answered (Returned (OBool true))) _ w w1); cbn [section].
      * by apply (turn_r ckn tk _ (DropAt n) (Answered (Returned (OBool true))) w1 w2); cbn [section].
    + intros s' v' Hst Hsh [(v1 & H1 & H2)|(v1 & H1 & H2)];
        apply spec_drop_true in H1 as [_ Hv]; apply spec_drop_true in H2 as [[x Hx] _]; by rewrite Hv, lookup_delete in Hx.
Qed.

Lemma answers_ends p o s b : answers p (Returned o) -> (forall l, o <> ORows l) -> ends p s b -> b = Returned o.
Proof.
  intros Ha Ho He. destruct p; try done. simpl in He. subst b. f_equal. destruct r; try (by rewrite <- (Ha s)).
  simpl in Ha. destruct o as [| | |lr| | |]; try done. by destruct (Ho lr).
Qed.

(** Each of these pairs can clash, whatever else is in the repo. *)
Theorem C94_these_clash :
  forall ckn tk s v c c',
    tracks ckn tk s v -> unblocked v -> clashing tk v c c' ->
    exists ts s', rtc pstep (Pool (start [c; c']) s) (Pool ts s') /\ Forall finished ts /\
      ~ serializable ckn tk v [c; c'] ts s'.
Proof.
  intros ckn tk s v c c' Ht Hu Hcl.
  destruct (C93_picture _ _ _ _ Ht Hu) as (w & Hp & Hv).
  assert (Hfill : filled v) by (intros n reqs E ->; by eapply C94_no_empty_index).
  assert (Hw : wfC w).
  { destruct (pictures_shC _ _ _ _ _ (reach_shape _ _ _ _ _ Ht) Hu Hp) as (Hsh & _). by eapply shC_wf. }
  assert (Hrun : exists o o' w', rtc (turn ckn tk) (Todo c, Todo c', w) (Answered (Returned o), Answered (Returned o'), w') /\
    (forall l, o <> ORows l) /\ (forall l, o' <> ORows l) /\ unexplained ckn tk c c' w (Returned o) (Returned o') w').
  { rewrite <- Hv in Hcl, Hfill. destruct Hcl as [Ho|Ho]; destruct (at_odds_run ckn tk _ _ w Hw Hfill Ho) as (o & o' & w' & H1 & H2 & H3 & H4).
    - by exists o, o', w'.
    - exists o', o, w'. split_and!; [by apply turn_swap|done..|]. intros s' v' X1 X2 X3. eapply H4; [done|done|]. tauto. }
  destruct Hrun as (o & o' & w' & H1 & H2 & H3 & H4).
  assert (Hnu : forall a i, CUnAlias a i ∉ [c; c']).
  { intros a i Hin. rewrite !elem_of_cons, elem_of_nil in Hin. destruct Hcl as [Ho|Ho]; destruct c, c'; try done; by destruct Hin as [?|[?|?]]. }
  destruct (proj2 (C93_exactly ckn tk s v [c; c'] w [Returned o; Returned o'] (m_stored tk w') (c_ali w') Ht Hu Hp ltac:(by right) (kept_without _ _ Hnu)))
    as (ts & s' & Hr & Hts & Hst & Hli).
  - exists [Returned o; Returned o'], w'. split_and!; try done.
    + by apply turns_run in H1.
    + assert (Hsame : forall x, same_answer [c; c'] x x) by (by intros [[]|]).
      by repeat constructor.
  - inversion Hts as [|t ? ts1 ? (p & -> & Ha & _) Hts1]; subst. inversion Hts1 as [|t' ? ts2 ? (p' & -> & Ha' & _) Hts2]; subst.
    inversion Hts2; subst. exists [TRun p; TRun p'], s'. split_and!; [done| |].
    + repeat constructor; [by destruct p|by destruct p'].
    + intros (a & a' & v' & X1 & X2 & X3 & X4)%serial_two.
      apply (answers_ends p o) in X2 as ->; [|done|done]. apply (answers_ends p' o') in X3 as ->; [|done|done].
      by eapply H4.
Qed.
Print Assumptions C94_these_clash.

(** So two calls on a repo with any history are always explained by issuing them one
    after the other if and only if they are not one of these pairs. *)
Theorem C94_exactly :
  forall ckn tk s v c c',
    tracks ckn tk s v -> unblocked v -> comparable c c' -> comparable c' c ->
    (forall ts s', rtc pstep (Pool (start [c; c']) s) (Pool ts s') -> Forall finished ts -> serializable ckn tk v [c; c'] ts s') <->
    ~ clashing tk v c c'.
Proof.
  intros ckn tk s v c c' Ht Hu Hc Hc'. split.
  - intros H Hcl. destruct (C94_these_clash ckn tk s v c c' Ht Hu Hcl) as (ts & s' & Hr & Hf & Hno). by apply Hno, H.
  - intros Hno ts s' Hr Hf. by eapply C94_others_do_not_clash.
Qed.
Print Assumptions C94_exactly.

(** ** Two calls that kill the process *)
Lemma put_stays ckn tk n d t y w ps y' w' m d' :
  rtc (turn ckn tk) (PutAt n d t, y, w) (PutAt m d' ps, y', w') -> t = ps /\ m = n /\ d' = d.
Proof.
  intros Hr.
  assert (H : forall q, rtc (turn ckn tk) (PutAt n d t, y, w) q ->
    match q.1.1 with PutAt m d' ps => t = ps /\ m = n /\ d' = d | Answered _ => True | _ => False end).
  { clear. intros q Hr.
    refine (rtc_ind_r (R := turn ckn tk) (fun q => match q.1.1 with PutAt m d' ps => t = ps /\ m = n /\ d' = d | Answered _ => True | _ => False end) _ _ _ _ Hr); [done|].
    intros p q1 _ Hs IH. inversion Hs as [x x' ? ? ? H1|]; subst; [|done]. cbn [fst snd] in *.
    destruct x as [|n0 d0 [ps|]| | |]; try done; cbn [section] in H1.
    - destruct H1 as (_ & E & _). unfold ret_obs in E. by simplify_eq.
    - destruct H1 as (? & _ & E & _). unfold ret_obs in E. by simplify_eq. }
  exact (H _ Hr).
Qed.

(** The stages a call goes through. *)
Definition of_call (c : call) (x : stage) : Prop :=
  match x with
  | Todo c1 => c1 = c
  | PutAt n d _ => c = CPut n d
  | _ => True
  end.
Lemma of_turns ckn tk c c' w x y w' :
  rtc (turn ckn tk) (Todo c, Todo c', w) (x, y, w') -> of_call c x /\ of_call c' y.
Proof.
  intros Hr.
  assert (Hsec : forall c x w x' w', of_call c x -> section ckn tk x w (Next x') w' -> of_call c x').
  { clear. intros c x w x' w' Hx Hs. destruct x as [c0|n d [ps|]|n|a i|a]; cbn [section of_call] in Hs, Hx; subst.
    - destruct c; repeat case_decide; try (destruct (c_idx w !! old)); unfold ret_obs in Hs;
        first [destruct Hs as (? & _ & E & _); by simplify_eq|destruct Hs as (E & _); by simplify_eq|destruct Hs as (_ & E)].
      repeat case_match; by simplify_eq.
    - destruct Hs as (_ & E & _). unfold ret_obs in E. by simplify_eq.
    - destruct Hs as (? & _ & E & _). unfold ret_obs in E. by simplify_eq.
    - destruct Hs as (E & _). unfold ret_obs in E. by simplify_eq.
    - destruct (c_ali w !! a); destruct Hs as (E & _); unfold ret_obs in E; by simplify_eq.
    - done. }
  refine (rtc_ind_r (R := turn ckn tk) (fun q => of_call c q.1.1 /\ of_call c' q.1.2) _ _ _ _ Hr); [done|].
  intros q1 q2 _ Hs [H1 H2]. inversion Hs; subst; cbn [fst snd] in *; split; eauto.
Qed.

Lemma put_kills ckn tk n d w ps : wfC w -> targets w n = Some ps -> None ∈ ps -> spec ckn tk (CPut n d) (view_of w) OCrash.
Proof.
  intros Hw Ht Hin. unfold targets in Ht. cbn [spec]. rewrite view_idx.
  destruct (c_idx w !! n) as [p|] eqn:E; [apply Some_inj in Ht as <-; by apply elem_of_list_singleton in Hin|].
  destruct (c_ali w !! n) as [l|] eqn:El; [|done]. apply Some_inj in Ht as <-.
  change (v_ali (view_of w)) with (c_ali w). change (v_leakI (view_of w)) with 0. change (v_leakA (view_of w)) with false.
  rewrite El. cbn [mbind option_bind]. rewrite (decide_False (P := 0 <> 0)) by (intros X; by apply X). rewrite decide_True; [done|]. apply elem_of_list_fmap in Hin as (x & Ex & Hx).
  apply Exists_exists. exists x. split; [done|]. by apply view_idx_None.
Qed.

Lemma turns_kill ckn tk c c' w n d ps y w' :
  wfC w -> (mover c' \/ exists d', c' = CPut n d' /\ targets w n = None) -> rtc (turn ckn tk) (Todo c, Todo c', w) (PutAt n d (Some ps), y, w') -> None ∈ ps ->
  deadly_turns ckn tk (view_of w) c c' \/ deadly_turns ckn tk (view_of w) c' c.
Proof.
  intros Hw Hm Hr Hin. destruct (of_turns _ _ _ _ _ _ _ _ Hr) as [-> _].
  destruct (put_looks ckn tk n d _ _ _ _ _ Hr ltac:(done)) as (y1 & w2 & Hr1 & Hr2).
  destruct (put_stays _ _ _ _ _ _ _ _ _ _ _ _ Hr2) as (Et & _ & _).
  destruct Hm as [Hm|(d' & -> & Eun)].
  - destruct (solo_stage ckn tk _ _ _ _ Hm Hw Hr1) as [(_ & ->)|[(_ & _ & _ & ->)|(a & -> & Hwh)]].
    + left. left. by eapply put_kills.
    + left. left. by eapply put_kills.
    + right. right. destruct (whole_explained _ _ _ _ _ _ Hw Hwh) as [He Hw2]. exists a, (view_of w2). split; [done|]. by eapply put_kills.
  - exfalso. assert (H : match y1 with Todo c => c = CPut n d' | PutAt m _ _ => m = n | Answered _ => True | _ => False end /\ c_ali w2 !! n = None).
    { refine (rtc_ind_r (R := fun p q => section ckn tk p.1 p.2 (Next q.1) q.2)
        (fun q => match q.1 with Todo c => c = CPut n d' | PutAt m _ _ => m = n | Answered _ => True | _ => False end /\ c_ali q.2 !! n = None) _ _ _ _ Hr1).
      - split; [done|]. cbn [snd]. unfold targets in Eun. destruct (c_idx w !! n); [done|]. by destruct (c_ali w !! n).
      - intros [x wx] [x' wx'] _ Hs [H1 H2]. cbn [fst snd] in *. destruct x as [c0|m d0 [qs|]| | |]; try done; subst; cbn [section] in Hs.
        + destruct Hs as (E & ->). by simplify_eq.
        + destruct Hs as (_ & E & ->). unfold ret_obs in E. by simplify_eq.
        + destruct Hs as (p & _ & E & ->). unfold ret_obs in E. by simplify_eq. }
    destruct H as [_ H]. unfold targets in Et. destruct (c_idx w2 !! n); [|by rewrite H in Et].
    simplify_eq. by apply elem_of_list_singleton in Hin.
Qed.

Lemma explained_unblocked ckn tk c a v v1 :
  unblocked v -> explained ckn tk c a v v1 ->
  v1 = v \/ exists o, spec ckn tk c v o /\ unblocked v1 /\ match o with ODone _ v2 | OPanic v2 => v2 = v1 | _ => False end.
Proof.
  intros [E1 E2] He. destruct v as [idx ali lI lA]. cbn in E1, E2. subst lI lA.
  assert (Hx : exists o, spec ckn tk c (MkView idx ali 0 false) o /\ match o with ODone _ v2 | OPanic v2 => v1 = forget v2 | _ => False end).
  { destruct a as [b|]; destruct He as (v2 & Hsp & ->); [by exists (ODone b v2)|by exists (OPanic v2)]. }
  clear He. destruct Hx as (o & Hsp & Ho).
  assert (Hd : (exists v2, (o = OPanic v2 \/ exists b, o = ODone b v2) /\ (unblocked v2 \/ forget v2 = MkView idx ali 0 false))).
  { destruct o as [b v2|v2| |]; try done; exists v2; (split; [by eauto|]).
    all: destruct c; cbn [spec v_idx v_ali v_leakI v_leakA] in Hsp; unfold search_many in Hsp; repeat (case_decide || case_match);
      try (destruct Hsp as (? & ? & Hsp)); try (destruct Hsp as (? & Hsp));
      try (destruct Hsp as [(? & ? & ? & ? & Hsp)|(? & Hsp)]); simplify_eq; try (by left); by right. }
  destruct Hd as (v2 & Hov & [Hu|Hf]).
  - right. exists o. split; [done|]. assert (forget v2 = v2) as Ef by (destruct v2, Hu; cbn in *; by subst).
    destruct Hov as [->|(b & ->)]; rewrite Ef in Ho; by subst.
  - left. destruct Hov as [->|(b & ->)]; by rewrite Hf in Ho.
Qed.

Lemma crash_lift c s ts i : ts !! i = Some (TRun (prog_of c)) -> call_result c s Crashed -> rtc pstep (Pool ts s) PCrashed.
Proof.
  intros Hi Hr. inversion Hr as [| |t' s' Hrun Hcr|]; subst.
  eapply rtc_r; [by eapply pool_lift|]. eapply P_crash; [|exact Hcr]. apply list_lookup_insert. by eapply lookup_lt_Some.
Qed.

Lemma deadly_run ckn tk s v c c' ts i j :
  tracks ckn tk s v -> unblocked v -> ts !! i = Some (TRun (prog_of c)) -> ts !! j = Some (TRun (prog_of c')) -> i <> j ->
  deadly_turns ckn tk v c c' -> rtc pstep (Pool ts s) PCrashed.
Proof.
  intros Ht Hu Hi Hj Hij Hd. pose proof (reach_shape _ _ _ _ _ Ht) as Hsh.
  assert (Hstr : forall c, (exists show, c = CString show) \/ forall show, c <> CString show) by (intros []; eauto; by right).
  assert (Hns : forall c v, spec ckn tk c v OCrash -> forall show, c <> CString show) by (intros ? ? Hx ? ->; by destruct Hx).
  destruct Hd as [Hx|(a & v1 & He & Hx)].
  { eapply crash_lift; [exact Hi|]. exact (spec_exact ckn tk c s v OCrash (Hns _ _ Hx) Hsh Hx). }
  assert (Hsame : v1 = v -> rtc pstep (Pool ts s) PCrashed).
  { intros ->. eapply crash_lift; [exact Hj|]. exact (spec_exact ckn tk c' s v OCrash (Hns _ _ Hx) Hsh Hx). }
  destruct (Hstr c) as [(show & ->)|Hc].
  { apply Hsame. destruct a; destruct He as (v2 & (t & E) & ->); [|done]. simplify_eq. destruct v, Hu; cbn in *; by subst. }
  destruct (explained_unblocked _ _ _ _ _ _ Hu He) as [->|(o & Hsp & Hu1 & Ho)]; [by apply Hsame|].
  pose proof (spec_exact ckn tk c s v o Hc Hsh Hsp) as Hex.
  assert (Hrun : exists t s', rtc sstep (TRun (prog_of c), s) (t, s') /\ shape ckn tk s' v1).
  { destruct o as [b v2|v2| |]; try done; subst; cbn in Hex.
    - destruct Hex as (r & s' & Hres & _ & Hsh'). inversion Hres; subst. eauto.
    - destruct Hex as (s' & Hres & Hsh'). inversion Hres; subst. eauto. }
  destruct Hrun as (t & s' & Hrun & Hsh'). etrans; [by eapply pool_lift|].
  eapply (crash_lift c' s' _ j); [by rewrite list_lookup_insert_ne|]. exact (spec_exact ckn tk c' s' v1 OCrash (Hns _ _ Hx) Hsh' Hx).
Qed.

Theorem C94_death :
  forall ckn tk s v c c',
    tracks ckn tk s v -> unblocked v -> comparable c c' -> comparable c' c ->
    (rtc pstep (Pool (start [c; c']) s) PCrashed <-> deadly_turns ckn tk v c c' \/ deadly_turns ckn tk v c' c).
Proof.
  intros ckn tk s v c c' Ht Hu Hc Hc'. split.
  2:{ intros [Hd|Hd].
    - by eapply (deadly_run ckn tk s v c c' _ 0 1).
    - by eapply (deadly_run ckn tk s v c' c _ 1 0). }
  intros Hr. destruct (pair_cases v c c' Hc Hc') as [Hg|Ha].
  - destruct (C83_death ckn tk s v _ Ht Hu Hg Hr) as (log & v1 & i & c0 & Hch & Hex & Hnd & Hi & Hsp).
    inversion Hch as [|j ? v2 log' ? Hch']; subst.
    + destruct i as [|[|i]]; simplify_eq/=; [left|right]; by left.
    + destruct (Hex j v v2 ltac:(left)) as (c1 & a & Hj & He).
      inversion Hch' as [|k ? v3 log'' ? Hch'']; subst.
      * simpl in Hnd. apply NoDup_cons in Hnd as [Hne _].
        destruct i as [|[|i]], j as [|[|j]]; simplify_eq/=; try (by exfalso; apply Hne; left); [right|left]; right; eauto.
      * exfalso. destruct (Hex k v2 v3 ltac:(right; left)) as (c2 & a' & Hk & _).
        simpl in Hnd. apply NoDup_cons in Hnd as [Hne Hnd]. apply NoDup_cons in Hnd as [Hne2 _].
        apply lookup_lt_Some in Hi, Hj, Hk. simpl in Hi, Hj, Hk. rewrite elem_of_cons, elem_of_app, elem_of_list_singleton in Hne.
        rewrite elem_of_app, elem_of_list_singleton in Hne2. destruct (decide (j = k)), (decide (j = i)), (decide (k = i)); try tauto. lia.
  - assert (Hq : quiet (Todo c) /\ quiet (Todo c')).
    { destruct Ha as [Ha|[Ha|(? & ? & ? & -> & -> & _)]]; [by destruct c, c'..|done]. }
    destruct Hq as [Hq Hq'].
    destruct (crash_in_machine ckn tk s v [c; c'] Ht Hu (comparable_separate _ _ Hc Hc')
      (fun l w => exists w0, wfC w0 /\ view_of w0 = v /\ turns_inv ckn tk (Todo c) (Todo c') w0 l w)) as (l & w & (w0 & Hw & <- & Hti) & Hs); [| |done|].
    { intros w Hw Hv. exists w. split_and!; [done..|]. eapply turns_of_run; [done..|]. constructor. }
    { intros l w l' w' (w0 & Hw & Hv & Hti) Hs. exists w0. split_and!; [done..|]. by eapply turns_step. }
    destruct Hti as (t & u & x & y & -> & Hx & Hy & _ & _ & Hturn).
    assert (Hdead : (exists n d ps, x = PutAt n d (Some ps) /\ None ∈ ps) \/ (exists n d ps, y = PutAt n d (Some ps) /\ None ∈ ps)).
    { inversion Hs as [| |? ? i z Hi Hd|? ? i b Hi Hd]; subst.
      - assert (Hz : exists n d ps, z = PutAt n d (Some ps) /\ None ∈ ps) by (destruct z as [|n d [ps|]| | |]; try done; eauto).
        destruct i as [|[|i]]; simplify_eq/=; [left|right].
        + destruct Hx as [Hx|Hx]; by simplify_eq.
        + destruct Hy as [Hy|Hy]; by simplify_eq.
      - exfalso. destruct i as [|[|i]]; simplify_eq/=; [destruct Hx as [Hx|Hx]|destruct Hy as [Hy|Hy]]; by simplify_eq. }
    pose proof (of_turns _ _ _ _ _ _ _ _ Hturn) as [Hox Hoy].
    destruct Hdead as [(n & d & ps & -> & Hin)|(n & d & ps & -> & Hin)]; cbn in Hox, Hoy; subst.
    + eapply turns_kill; [done| |exact Hturn|done].
      destruct Ha as [Ha|[Ha|(? & ? & ? & E & -> & E1 & E2)]]; [destruct c'; try done; by left..|].
      injection E as <- <-. right. eexists. split; [reflexivity|]. apply view_idx_None in E1; [|done].
      unfold targets. rewrite E1. change (c_ali w0 !! n = None) in E2. by rewrite E2.
    + apply or_comm. apply turn_swap in Hturn. eapply turns_kill; [done| |exact Hturn|done].
      destruct Ha as [Ha|[Ha|(? & ? & ? & -> & E & E1 & E2)]]; [destruct c; try done; by left..|].
      injection E as <- <-. right. eexists. split; [reflexivity|]. apply view_idx_None in E1; [|done].
      unfold targets. rewrite E1. change (c_ali w0 !! n = None) in E2. by rewrite E2.
Qed.
Print Assumptions C94_death.

(** The cases occur: with one index, two Drops of it clash, a Put and a Drop of it
    do not; with an alias of it, renaming the index to itself and a Put through the
    alias kill the process only in this order. *)
Example C94_example :
  tracks true letters one_repo one_view /\ unblocked one_view /\
  clashing letters one_view (CDrop "a") (CDrop "a") /\
  clashing letters one_view (CRename "a" "n") (CPut "n" dB) /\
  ~ clashing letters one_view (CRename "a" "n") (CPut "n" dA) /\
  ~ clashing letters one_view (CPut "a" dB) (CDrop "a") /\
  tracks true letters ali_repo ali_view /\ unblocked ali_view /\
  deadly_turns true letters ali_view (CRename "a" "a") (CPut "al" dB) /\
  ~ deadly_turns true letters ali_view (CPut "al" dB) (CRename "a" "a").
Proof.
  split; [apply one_tracks|]. split; [done|]. split; [left; by cbn|]. split.
  { right. cbn. split_and!; [done..|]. exists [dA]. split; [done|]. intros H. inversion H as [|? ? ? ? [E _] _]; subst. by vm_compute in E. }
  split.
  { intros [H|H]; [done|]. cbn in H. destruct H as (_ & _ & _ & reqs & E & H). apply H. vm_compute in E. simplify_eq.
    constructor; [by split_and!|constructor]. }
  split; [by intros [H|H]|]. split; [apply ali_tracks|]. split; [done|]. split.
  { right. eexists (Returned (OBool true)), _. split; [eexists; split; [cbn; reflexivity|reflexivity]|]. by vm_compute. }
  intros [H|(a & v1 & He & H)]; [by vm_compute in H|]. cbn in H. repeat (case_decide || case_match); done.
Qed.
