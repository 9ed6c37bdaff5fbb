(** * Exact characterisations of the four engines on a memory index. *)
From Coq Require Import Lia ZifyBool ZifyNat ZifyN.
From stdpp Require Import sorting.
From Verif Require Import Entities Search SpecSearch ProofSearch.
Open Scope Z_scope.

(** ** Uniqueness of sorted permutations *)
Lemma StronglySorted_unique_on {A} (R : A -> A -> Prop) (l1 l2 : list A) :
  (forall x y, x ∈ l1 -> y ∈ l1 -> R x y -> R y x -> x = y) ->
  StronglySorted R l1 -> StronglySorted R l2 -> l1 ≡ₚ l2 -> l1 = l2.
Proof.
  revert l2. induction l1 as [|x1 l1 IH]; intros l2 HR Hs1 Hs2 HP.
  { by apply Permutation_nil_l in HP. }
  destruct l2 as [|x2 l2]; [by apply Permutation_nil_r in HP|].
  apply StronglySorted_inv in Hs1 as Hs1'. destruct Hs1' as [H1 F1].
  apply StronglySorted_inv in Hs2 as Hs2'. destruct Hs2' as [H2 F2].
  assert (x1 = x2) as ->.
  { assert (In1 : x1 ∈ x2 :: l2) by (rewrite <- HP; set_solver).
    assert (In2 : x2 ∈ x1 :: l1) by (rewrite HP; set_solver).
    apply elem_of_cons in In1 as [->|In1]; [done|].
    apply elem_of_cons in In2 as [->|In2]; [done|].
    rewrite Forall_forall in F1, F2. apply HR; [set_solver|set_solver|auto|auto]. }
  f_equal. apply IH; [|done|done|by apply Permutation.Permutation_cons_inv in HP].
  intros x y Hx Hy. apply HR; set_solver.
Qed.

Lemma asc_ext l1 l2 : asc l1 -> asc l2 -> (forall x, x ∈ l1 <-> x ∈ l2) -> l1 = l2.
Proof.
  intros H1 H2 He.
  assert (Hnd : forall l, asc l -> NoDup l).
  { induction 1 as [|x l Hs IH Hf]; constructor; [|done].
    rewrite Forall_forall in Hf. intros Hin. specialize (Hf _ Hin). lia. }
  apply (StronglySorted_unique_on Z.le); [intros; lia|by apply asc_asc_le|by apply asc_asc_le|].
  apply NoDup_Permutation; auto.
Qed.

(** ** Positions of documents containing all tokens *)
Fixpoint positions_all (tk : Tokenizer) (ts : list string) (i : Z) (reqs : list DocRequest) : list Z :=
  match reqs with
  | [] => []
  | r :: rs => (if contains_all tk ts r then [i] else []) ++ positions_all tk ts (i + 1) rs
  end.

Lemma positions_all_elem tk ts i reqs j :
  j ∈ positions_all tk ts i reqs <->
  i <= j /\ exists r, reqs !! Z.to_nat (j - i) = Some r /\ contains_all tk ts r = true.
Proof.
  revert i. induction reqs as [|r rs IH]; intros i; simpl.
  - split; [intros H; inversion H|intros (_ & r & H & _); done].
  - rewrite elem_of_app, IH. split.
    + intros [H|(Hle & r' & Hl & Hc)].
      * destruct (contains_all tk ts r) eqn:E; [|inversion H].
        apply elem_of_list_singleton in H as ->. split; [lia|]. exists r.
        rewrite Z.sub_diag. done.
      * split; [lia|]. exists r'. split; [|done].
        replace (Z.to_nat (j - i)) with (S (Z.to_nat (j - (i + 1)))) by lia. done.
    + intros (Hle & r' & Hl & Hc). destruct (Z.eq_dec j i) as [->|Hne].
      * left. rewrite Z.sub_diag in Hl. simpl in Hl. injection Hl as ->. rewrite Hc. set_solver.
      * right. split; [lia|]. exists r'. split; [|done].
        replace (Z.to_nat (j - i)) with (S (Z.to_nat (j - (i + 1)))) in Hl by lia. done.
Qed.

Lemma positions_all_asc tk ts i reqs : asc (positions_all tk ts i reqs).
Proof.
  revert i. induction reqs as [|r rs IH]; intros i; simpl; [constructor|].
  destruct (contains_all tk ts r); simpl; [|apply IH].
  constructor; [apply IH|]. apply Forall_forall. intros j Hj.
  apply positions_all_elem in Hj as [Hj _]. lia.
Qed.

Lemma contains_all_app tk ts1 ts2 r :
  contains_all tk (ts1 ++ ts2) r = contains_all tk ts1 r && contains_all tk ts2 r.
Proof. apply forallb_app. Qed.

Lemma positions_all_single tk t i reqs : positions_all tk [t] i reqs = positions tk t i reqs.
Proof.
  revert i. induction reqs as [|r rs IH]; intros i; simpl; [done|].
  by rewrite andb_true_r, IH.
Qed.

Lemma isect_positions tk ts t reqs :
  isect (positions_all tk ts 0 reqs) (positions tk t 0 reqs) = positions_all tk (ts ++ [t]) 0 reqs.
Proof.
  apply asc_ext.
  - apply isect_asc, positions_all_asc.
  - apply positions_all_asc.
  - intros j. rewrite isect_elem by (apply asc_asc_le; auto using positions_all_asc, positions_asc).
    rewrite !positions_all_elem, positions_elem. setoid_rewrite contains_all_app.
    split.
    + intros [(H0 & r & Hr & H1) (_ & r' & Hr' & H2)]. split; [done|]. exists r. split; [done|].
      rewrite Hr in Hr'. injection Hr' as <-. rewrite H1. simpl. by rewrite H2.
    + intros (H0 & r & Hr & H1). apply andb_true_iff in H1 as [H1 H2]. simpl in H2.
      rewrite andb_true_r in H2. eauto 10.
Qed.

Lemma positions_all_prefix_nil tk ts ts' reqs :
  positions_all tk ts 0 reqs = [] -> positions_all tk (ts ++ ts') 0 reqs = [].
Proof.
  intros H. apply elem_of_nil_inv. intros j Hj.
  apply positions_all_elem in Hj as (H0 & r & Hr & Hc).
  rewrite contains_all_app in Hc. apply andb_true_iff in Hc as [Hc _].
  assert (Hin : j ∈ positions_all tk ts 0 reqs) by (apply positions_all_elem; eauto).
  rewrite H in Hin. inversion Hin.
Qed.

Lemma positions_all_filter tk ts reqs :
  omap (fun i => reqs !! Z.to_nat i) (positions_all tk ts 0 reqs) =
  filter (fun r => contains_all tk ts r = true) reqs.
Proof.
  assert (H : forall i l0, length l0 = Z.to_nat i -> 0 <= i ->
     omap (fun j => (l0 ++ reqs) !! Z.to_nat j) (positions_all tk ts i reqs) =
     filter (fun r => contains_all tk ts r = true) reqs).
  { induction reqs as [|r rs IH]; intros i l0 Hl Hi; [done|].
    cbn [positions_all]. rewrite filter_cons.
    assert (Hrest : omap (fun j => (l0 ++ r :: rs) !! Z.to_nat j) (positions_all tk ts (i + 1) rs) =
                    filter (fun r => contains_all tk ts r = true) rs).
    { rewrite cons_middle, app_assoc. apply IH; [|lia]. rewrite app_length; simpl; lia. }
    destruct (contains_all tk ts r) eqn:E; simpl.
    - rewrite lookup_app_r by lia.
      replace (Z.to_nat i - length l0)%nat with 0%nat by lia. simpl.
      f_equal. exact Hrest.
    - exact Hrest. }
  apply (H 0 []); done.
Qed.

(** ** Loops over document indices *)
Lemma ofold_documents {B} tk reqs mi ckn (f : B -> Doc -> outcome B) (l : list Z) acc :
  rep tk reqs mi -> Forall (fun i => 0 <= i < Z.of_nat (length reqs)) l ->
  ofold (fun acc i => obind (ix_Document (indexer_of ckn mi) i) (fun d => f acc d)) acc l =
  ofold (fun acc r => f acc (doc_of r)) acc (omap (fun i => reqs !! Z.to_nat i) l).
Proof.
  intros Hrep HF. revert acc. induction HF as [|i l Hi HF IH]; intros acc; [done|].
  cbn [ofold omap list_omap].
  destruct (lookup_lt_is_Some_2 reqs (Z.to_nat i)) as [r Hr]; [lia|].
  assert (Hd : ix_Document (indexer_of ckn mi) i = Ok (doc_of r)).
  { replace i with (Z.of_nat (Z.to_nat i)) by lia. by eapply rep_Document. }
  rewrite Hd, Hr. cbn [obind ofold]. destruct (f acc (doc_of r)); cbn [obind]; [apply IH|done].
Qed.

Lemma ofold_append_map {A C} (g : A -> C) (l : list A) (acc : list C) :
  ofold (fun acc r => Ok (acc ++ [g r])) acc l = Ok (acc ++ map g l).
Proof.
  revert acc. induction l as [|x l IH]; intros acc; simpl; [by rewrite app_nil_r|].
  rewrite IH, <- app_assoc. done.
Qed.

Lemma upto_omap (reqs : list DocRequest) :
  omap (fun i => reqs !! Z.to_nat i) (upto (Z.of_nat (length reqs))) = reqs.
Proof.
  unfold upto. rewrite Nat2Z.id.
  assert (H : forall l0 l : list DocRequest, omap (fun i => (l0 ++ l) !! Z.to_nat i)
                 (map Z.of_nat (seq (length l0) (length l))) = l).
  { intros l0 l. revert l0. induction l as [|x l IH]; intros l0; [done|].
    cbn [length seq map]. change (omap ?f (?x :: ?l)) with
      (match f x with Some y => y :: omap f l | None => omap f l end). cbn beta.
    rewrite Nat2Z.id, lookup_app_r, Nat.sub_diag by lia. cbn.
    f_equal. specialize (IH (l0 ++ [x])). rewrite <- app_assoc in IH. cbn [app] in IH.
    rewrite app_length in IH. simpl in IH. rewrite Nat.add_1_r in IH. exact IH. }
  apply (H [] reqs).
Qed.

Lemma upto_range n : Forall (fun i => 0 <= i < Z.of_nat n) (upto (Z.of_nat n)).
Proof.
  unfold upto. rewrite Nat2Z.id, Forall_map. apply Forall_forall. intros i Hi.
  apply elem_of_seq in Hi. lia.
Qed.

Lemma positions_all_range tk ts reqs :
  Forall (fun i => 0 <= i < Z.of_nat (length reqs)) (positions_all tk ts 0 reqs).
Proof.
  apply Forall_forall. intros j Hj. apply positions_all_elem in Hj as (H0 & r & Hr & _).
  apply lookup_lt_Some in Hr. lia.
Qed.

Lemma rep_Len tk reqs mi : rep tk reqs mi -> Len mi = Z.of_nat (length reqs).
Proof. intros [_ Hd _]. unfold Len. rewrite Hd, map_length. done. Qed.

(** ** NoopAllSearch *)
Lemma NoopAll_rep tk reqs mi ckn ts :
  rep tk reqs mi ->
  NoopAllSearch ts (indexer_of ckn mi) = Ok (map (fun r => MkSR (doc_of r) 0) reqs).
Proof.
  intros Hrep. unfold NoopAllSearch. cbn [ix_Len indexer_of].
  rewrite (rep_Len _ _ _ Hrep).
  rewrite (ofold_documents tk reqs mi ckn (fun acc d => Ok (acc ++ [MkSR d 0])));
    [|done|apply upto_range].
  rewrite upto_omap, (ofold_append_map (fun r => MkSR (doc_of r) 0)). done.
Qed.

(** ** LinearSearch *)
Lemma linear_loop_rep tk reqs mi ckn ts0 rest :
  rep tk reqs mi ->
  exists od, linear_loop (indexer_of ckn mi) (positions_all tk ts0 0 reqs) rest = Ok od /\
    default [] od = positions_all tk (ts0 ++ rest) 0 reqs.
Proof.
  intros Hrep. revert ts0. induction rest as [|t rest IH]; intros ts0; cbn [linear_loop].
  { eexists; split; [done|]. by rewrite app_nil_r. }
  cbn [ix_Indexed indexer_of].
  rewrite cons_middle, app_assoc.
  destruct (rep_Indexed tk reqs mi ckn t Hrep) as [->|(_ & -> & Hnil)].
  - rewrite intersection_isect. cbn [obind]. rewrite isect_positions.
    destruct (positions_all tk (ts0 ++ [t]) 0 reqs) as [|p ps] eqn:E.
    + simpl. exists None. split; [done|]. simpl.
      by rewrite (positions_all_prefix_nil _ _ _ _ E).
    + rewrite <- E. assert ((length (positions_all tk (ts0 ++ [t]) 0 reqs) =? 0)%nat = false) as ->
        by (rewrite E; done).
      apply IH.
  - exists None. split; [done|]. simpl. symmetry. apply positions_all_prefix_nil.
    rewrite <- isect_positions, Hnil. apply isect_nil_r.
Qed.

Lemma Linear_rep tk reqs mi ckn ts :
  rep tk reqs mi ->
  LinearSearch ts (indexer_of ckn mi) = Ok (and_search tk reqs ts).
Proof.
  intros Hrep. unfold LinearSearch. destruct ts as [|t0 rest]; [done|].
  cbn [ix_Indexed indexer_of].
  destruct (rep_Indexed tk reqs mi ckn t0 Hrep) as [->|(_ & -> & Hnil)].
  - rewrite <- positions_all_single.
    destruct (linear_loop_rep tk reqs mi ckn [t0] rest Hrep) as (od & -> & Hod).
    cbn [obind]. cbn [app] in Hod. unfold and_search.
    set (n := Z.of_nat (length (t0 :: rest))).
    assert (Hres : forall docs, docs = positions_all tk (t0 :: rest) 0 reqs ->
       ofold (fun results docIndex => obind (ix_Document (indexer_of ckn mi) docIndex)
                (fun doc => Ok (results ++ [MkSR doc n]))) [] docs =
       Ok (map (fun r => MkSR (doc_of r) n)
             (filter (fun r => contains_all tk (t0 :: rest) r = true) reqs))).
    { intros docs ->.
      rewrite (ofold_documents tk reqs mi ckn (fun acc d => Ok (acc ++ [MkSR d n])));
        [|done|apply positions_all_range].
      rewrite positions_all_filter.
      rewrite (ofold_append_map (fun r => MkSR (doc_of r) n)). done. }
    destruct od as [docs|]; cbn [default] in Hod.
    + apply Hres. exact Hod.
    + rewrite <- Hres with (docs := []); [done|]. exact Hod.
  - unfold and_search.
    rewrite <- positions_all_filter.
    change (t0 :: rest) with ([t0] ++ rest).
    rewrite positions_all_prefix_nil; [done|]. by rewrite positions_all_single.
Qed.

(** ** HitsSearch: phase 1 *)
Definition bump (m : gmap N SearchResult) (r : DocRequest) : gmap N SearchResult :=
  let key := fnv64 (req_Name r) in
  match m !! key with
  | Some x => <[key := MkSR (sr_Document x) (sr_Hits x + 1)]> m
  | None => <[key := MkSR (doc_of r) 1]> m
  end.

Definition visits (tk : Tokenizer) (reqs : list DocRequest) (ts : list string) : list DocRequest :=
  flat_map (fun t => filter (fun r => contains tk r t = true) reqs) ts.

Lemma ofold_Ok_fold {A B} (f : B -> A -> B) l acc :
  ofold (fun a x => Ok (f a x)) acc l = Ok (fold_left f l acc).
Proof. revert acc. induction l as [|x l IH]; intros acc; simpl; [done|apply IH]. Qed.

Lemma ofold_ext {A B} (f g : B -> A -> outcome B) l acc :
  (forall a x, f a x = g a x) -> ofold f acc l = ofold g acc l.
Proof.
  intros H. revert acc. induction l as [|x l IH]; intros acc; simpl; [done|].
  rewrite H. destruct (g acc x); simpl; [apply IH|done].
Qed.

Lemma positions_range tk t reqs :
  Forall (fun i => 0 <= i < Z.of_nat (length reqs)) (positions tk t 0 reqs).
Proof. rewrite <- positions_all_single. apply positions_all_range. Qed.

Lemma hit_tokens_rep tk reqs mi ckn ts m :
  rep tk reqs mi ->
  ofold (hit_token (indexer_of ckn mi)) m ts = Ok (fold_left bump (visits tk reqs ts) m).
Proof.
  intros Hrep. revert m. induction ts as [|t ts IH]; intros m; cbn [ofold]; [done|].
  assert (Ht : hit_token (indexer_of ckn mi) m t =
               Ok (fold_left bump (filter (fun r => contains tk r t = true) reqs) m)).
  { unfold hit_token. cbn [ix_Indexed indexer_of].
    rewrite <- positions_filter.
    destruct (rep_Indexed tk reqs mi ckn t Hrep) as [->|(_ & -> & Hnil)].
    - unfold hit_doc.
      rewrite (ofold_documents tk reqs mi ckn
        (fun m doc => match m !! Hash doc with
           | Some result => Ok (<[Hash doc := MkSR (sr_Document result) (sr_Hits result + 1)]> m)
           | None => Ok (<[Hash doc := MkSR doc 1]> m) end)); [|done|apply positions_range].
      rewrite <- ofold_Ok_fold. apply ofold_ext. intros a x. unfold bump.
      change (Hash (doc_of x)) with (fnv64 (req_Name x)).
      by destruct (a !! fnv64 (req_Name x)).
    - rewrite Hnil. done. }
  rewrite Ht. cbn [obind]. rewrite IH. unfold visits. cbn [flat_map].
  by rewrite fold_left_app.
Qed.

Lemma bump_fold_lookup l m key :
  fold_left bump l m !! key =
    match m !! key with
    | Some x => Some (MkSR (sr_Document x)
                  (sr_Hits x + Z.of_nat (length (filter (fun r => in_group key r = true) l))))
    | None => match filter (fun r => in_group key r = true) l with
              | [] => None
              | r0 :: rest => Some (MkSR (doc_of r0) (Z.of_nat (S (length rest))))
              end
    end.
Proof.
  revert m. induction l as [|r l IH]; intros m; cbn [fold_left].
  { rewrite filter_nil. destruct (m !! key) as [[d h]|]; [|done]. simpl. by rewrite Z.add_0_r. }
  assert (Hb : bump m r !! key =
    if decide (in_group key r = true)
    then Some (match m !! key with
               | Some x => MkSR (sr_Document x) (sr_Hits x + 1)
               | None => MkSR (doc_of r) 1 end)
    else m !! key).
  { unfold bump, in_group. destruct (N.eqb_spec (fnv64 (req_Name r)) key) as [<-|Hne].
    - rewrite decide_True by done.
      destruct (m !! fnv64 (req_Name r)) as [x|] eqn:E; rewrite lookup_insert; done.
    - rewrite decide_False by done.
      destruct (m !! fnv64 (req_Name r)) as [x|] eqn:E; rewrite lookup_insert_ne by done; done. }
  rewrite IH, Hb, filter_cons.
  destruct (decide (in_group key r = true)); [|done].
  destruct (m !! key) as [x|]; simpl; do 2 f_equal; lia.
Qed.

Lemma group_filter_visits tk reqs ts key :
  filter (fun r => in_group key r = true) (visits tk reqs ts) =
  flat_map (fun t => filter (fun r => in_group key r = true /\ contains tk r t = true) reqs) ts.
Proof.
  unfold visits. induction ts as [|t ts IH]; [done|]. cbn [flat_map].
  rewrite filter_app, IH. f_equal. rewrite list_filter_filter. done.
Qed.

Lemma group_hits_flat tk reqs ts key :
  group_hits tk reqs ts key =
  length (flat_map (fun t => filter (fun r => in_group key r = true /\ contains tk r t = true) reqs) ts).
Proof.
  unfold group_hits. induction ts as [|t ts IH]; [done|].
  cbn [flat_map map list_sum]. rewrite app_length, <- IH. done.
Qed.

(** ** HitsSearch: phase 2 and the whole *)
Lemma ofold_append_flat {A C} (g : A -> list C) (l : list A) (acc : list C) :
  ofold (fun acc r => Ok (acc ++ g r)) acc l = Ok (acc ++ flat_map g l).
Proof.
  revert acc. induction l as [|x l IH]; intros acc; simpl; [by rewrite app_nil_r|].
  rewrite IH, <- app_assoc. done.
Qed.

Lemma Hits_rep srt tk reqs mi ckn ts :
  rep tk reqs mi ->
  HitsSearch srt ts (indexer_of ckn mi) = Ok (srt (hits_rows tk reqs ts)).
Proof.
  intros Hrep. unfold HitsSearch. rewrite (hit_tokens_rep tk reqs) by done. cbn [obind].
  cbn [ix_Len indexer_of]. rewrite (rep_Len _ _ _ Hrep).
  set (m := fold_left bump (visits tk reqs ts) ∅).
  set (n := Z.of_nat (length ts)).
  assert (Hphase2 : ofold (hit_filter (indexer_of ckn mi) n m) [] (upto (Z.of_nat (length reqs))) =
                    Ok (hits_rows tk reqs ts)).
  { unfold hit_filter.
    rewrite (ofold_documents tk reqs mi ckn
       (fun acc doc => match m !! Hash doc with
          | Some result => if sr_Hits result >=? n then Ok (acc ++ [result]) else Ok acc
          | None => Ok acc end)); [|done|apply upto_range].
    rewrite upto_omap.
    rewrite (ofold_ext _ (fun acc r => Ok (acc ++ hits_row tk reqs ts r))).
    { rewrite ofold_append_flat. done. }
    intros acc r. unfold Hash, doc_ID. cbn [doc_of doc_Name].
    subst m. rewrite bump_fold_lookup, lookup_empty, group_filter_visits.
    unfold hits_row, group_first. rewrite group_hits_flat.
    destruct (flat_map _ ts) as [|r0 rest] eqn:E; cbn [head length sr_Hits].
    - by rewrite app_nil_r.
    - subst n. destruct (Z.geb_spec (Z.of_nat (S (length rest))) (Z.of_nat (length ts)));
        destruct (Nat.leb_spec (length ts) (S (length rest))); try lia; [done|].
      by rewrite app_nil_r. }
  rewrite Hphase2. done.
Qed.
