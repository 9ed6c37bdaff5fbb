(** * Deciding that a finished run has no sequential explanation.
    [seq_next] computes what the sequential machine does on a call that is known to
    have answered [o]; [some_order] tries all the orders of a few calls.  Only
    used to exhibit runs that are not serializable (Properties_Clash.v). *)
From Coq Require Import Lia.
From stdpp Require Import gmap list.
From Verif Require Import Entities Search SpecSearch ProofSearch Repo Sem SpecRepo SpecConc SpecLin.
Open Scope nat_scope.

Global Instance Doc_eq_dec : EqDecision Doc.
Proof. solve_decision. Defined.
Global Instance SearchResult_eq_dec : EqDecision SearchResult.
Proof. solve_decision. Defined.
Global Instance obs_eq_dec : EqDecision obs.
Proof. solve_decision. Defined.

Definition if_obs (o o' : obs) (v : view) : option view := if decide (o = o') then Some v else None.

(** The view after the call [c] has answered [o] in [v]; [None]: it does not
    answer [o].  The order of names, rows and blocks of results is not checked. *)
Definition seq_next (ckn : bool) (tk : Tokenizer) (c : call) (v : view) (o : obs) : option view :=
  let idx := v_idx v in let ali := v_ali v in
  let set_idx idx' := MkView idx' ali (v_leakI v) (v_leakA v) in
  let set_ali ali' := MkView idx ali' (v_leakI v) (v_leakA v) in
  match c with
  | CList => match o with ONames l => if decide (length l = size idx) then Some v else None | _ => None end
  | CHas n => if_obs (OBool (bool_decide (is_Some (idx !! n)))) o v
  | CString _ => Some v
  | CHasAlias a => if v_leakA v then None else if_obs (OBool (bool_decide (is_Some (ali !! a)))) o v
  | CListAliases =>
      if v_leakA v then None
      else match o with
           | ORows l =>
               if decide (Forall (fun r => ali !! r.1 = Some r.2) l /\ length l = size ali) then Some v else None
           | _ => None
           end
  | CAlias a i =>
      if decide (idx !! i = None) then if_obs (OBool false) o v
      else if v_leakA v then None
      else let l := default [] (ali !! a) in
           if decide (i ∈ l) then if_obs (OBool false) o v
           else if_obs (OBool true) o (set_ali (<[a := l ++ [i]]> ali))
  | CUnAlias a i =>
      if decide (i = ""%string) then
        if v_leakA v then None
        else if_obs (OBool (bool_decide (is_Some (ali !! a)))) o (set_ali (delete a ali))
      else if decide (idx !! i = None) then
        if_obs (OBool false) o (MkView idx ali (S (v_leakI v)) (v_leakA v))
      else if v_leakA v then None
      else match ali !! a with
           | None => if_obs (OBool false) o (MkView idx ali (v_leakI v) true)
           | Some l => if_obs (OBool true) o (set_ali (<[a := without i l]> ali))
           end
  | CRename old new =>
      if decide (v_leakI v <> 0%nat) then None
      else match idx !! old with
           | None => if_obs (OBool false) o v
           | Some reqs =>
               if_obs (OBool true) o
                 (MkView (delete old (<[new := reqs]> idx)) (map (renamed old new) <$> ali)
                    (v_leakI v) (v_leakA v))
           end
  | CDrop n =>
      if decide (idx !! n = None) then if_obs (OBool false) o v
      else if decide (v_leakI v <> 0%nat) then None
      else if v_leakA v then None
      else if_obs (OBool true) o (MkView (delete n idx) (omap (drop_from n) ali) (v_leakI v) (v_leakA v))
  | CPut n d =>
      match idx !! n with
      | Some _ =>
          if decide (v_leakI v <> 0%nat) then None else if_obs OUnit o (set_idx (put_each d [n] idx))
      | None =>
          if v_leakA v then None
          else if decide (v_leakI v <> 0%nat) then None
          else match ali !! n with
               | None => if_obs OUnit o (set_idx (<[n := [d]]> idx))
               | Some l =>
                   if decide (Exists (fun x => idx !! x = None) l) then None
                   else if_obs OUnit o (set_idx (put_each d l idx))
               end
      end
  | CSearch n q e =>
      match idx !! n with
      | Some reqs =>
          match search_docs ckn tk reqs q e with Ok sr => if_obs (OResults sr) o v | Panic => None end
      | None =>
          if v_leakA v then None
          else match ali !! n with
               | None => if_obs (OError ("index with name '" ++ n ++ "' does not exist")) o v
               | Some [x] =>
                   match search_name ckn tk idx q e x with Ok sr => if_obs (OResults sr) o v | Panic => None end
               | Some l =>
                   match o with
                   | OResults sr =>
                       if decide (length sr =
                         sum_list_with (fun x => match search_name ckn tk idx q e x with Ok b => length b | Panic => 0 end) l)
                       then Some v else None
                   | _ => None
                   end
               end
      end
  end.

Lemma sum_blocks ckn tk idx q e l blocks :
  (search_name ckn tk idx q e <$> l) = (Ok <$> blocks) ->
  sum_list_with (fun x => match search_name ckn tk idx q e x with Ok b => length b | Panic => 0 end) l = length (concat blocks).
Proof.
  revert blocks. induction l as [|x l IH]; intros [|b blocks] H; simplify_eq/=; [done|].
  rewrite (IH blocks) by done. case_match; simplify_eq. by rewrite app_length.
Qed.

Lemma seq_next_sound ckn tk c v o v' :
  spec ckn tk c v (ODone o v') -> seq_next ckn tk c v o = Some v'.
Proof.
  assert (Hi : forall o' v0, ODone o v' = ODone o' v0 -> if_obs o' o v0 = Some v').
  { intros o' v0 E. simplify_eq. unfold if_obs. by rewrite decide_True. }
  destruct c; cbn [spec seq_next]; intros H.
  - destruct H as (l & Hl & E). simplify_eq. rewrite decide_True; [done|].
    apply Permutation_length in Hl. rewrite Hl, fmap_length. done.
  - destruct (v_leakA v); [done|]. destruct H as (l & Hl & E). simplify_eq. rewrite decide_True; [done|]. split.
    + apply Forall_forall. intros [a x] Hin. rewrite Hl in Hin. by apply elem_of_map_to_list in Hin.
    + by rewrite Hl.
  - by apply Hi.
  - destruct (v_leakA v); [done|]. by apply Hi.
  - case_decide; [by apply Hi|]. destruct (v_leakA v); [done|]. case_decide; by apply Hi.
  - case_decide; [destruct (v_leakA v); [done|by apply Hi]|]. case_decide; [by apply Hi|].
    destruct (v_leakA v); [done|]. destruct (v_ali v !! alias); by apply Hi.
  - destruct (v_idx v !! index); [case_decide; [done|by apply Hi]|]. destruct (v_leakA v); [done|].
    case_decide; [done|]. destruct (v_ali v !! index); [case_decide; [done|]|]; by apply Hi.
  - destruct (v_idx v !! index); [destruct (search_docs _ _ _ _ _); [by apply Hi|done]|].
    destruct (v_leakA v); [done|]. destruct (v_ali v !! index) as [l|]; [|by apply Hi].
    assert (Hm : search_many ckn tk (v_idx v) terms engine l (ODone o v') v ->
      match o with
      | OResults sr =>
          if decide (length sr =
            sum_list_with (fun x => match search_name ckn tk (v_idx v) terms engine x with Ok b => length b | Panic => 0 end) l)
          then Some v else None
      | _ => None
      end = Some v').
    { intros [(bl & bl' & H1 & H2 & H3)|[_ ?]]; [|done]. simplify_eq. rewrite decide_True; [done|].
      rewrite (sum_blocks _ _ _ _ _ _ _ H1). by rewrite H2. }
    destruct l as [|x [|y l]]; [by apply Hm| |by apply Hm].
    destruct (search_name _ _ _ _ _ _); [by apply Hi|done].
  - case_decide; [done|]. destruct (v_idx v !! old); by apply Hi.
  - case_decide; [by apply Hi|]. case_decide; [done|]. destruct (v_leakA v); [done|]. by apply Hi.
  - destruct H as [t E]. by simplify_eq.
Qed.

(** The calls of [order] issued one after the other in [v] answer [os] and lead to
    a view satisfying [fin]. *)
Fixpoint in_order ckn tk (cs : list call) (os : list obs) (fin : view -> bool) (order : list nat) (v : view) : bool :=
  match order with
  | [] => fin v
  | i :: order =>
      match cs !! i, os !! i with
      | Some c, Some o =>
          match seq_next ckn tk c v o with
          | Some v' => in_order ckn tk cs os fin order (forget v')
          | None => false
          end
      | _, _ => false
      end
  end.

Definition some_order ckn tk cs os fin v : bool :=
  existsb (fun order => in_order ckn tk cs os fin order v) (permutations (seq 0 (length cs))).

(** What the memory holds: the documents under each of the names, and the alias
    lists. *)
Definition docs_under (s : repo) (n : string) : option (list Doc) :=
  i_map (r_I s) !! n ≫= fun p => mi_Docs <$> i_heap (r_I s) !! p.
Definition looks_like (s : repo) (ns : list string) (v : view) : bool :=
  forallb (fun n => bool_decide (docs_under s n = map doc_of <$> v_idx v !! n)) ns &&
  bool_decide (a_cont (r_A s) <$> a_map (r_A s) = v_ali v).

Lemma shows_looks_like tk s v ns : shows tk s v -> looks_like s ns v = true.
Proof.
  intros (w & <- & [Em Hh] & Ha). unfold looks_like. apply andb_true_intro. split.
  - apply forallb_forall. intros n _. apply bool_decide_eq_true. unfold docs_under, view_of. rewrite Em. cbn [v_idx].
    rewrite lookup_omap. destruct (c_idx w !! n) as [p|] eqn:E; [|done]. simpl.
    destruct (Hh _ _ E) as (nm & reqs & -> & ->). simpl. by rewrite (rep_docs _ _ _ (rep_index_after nm tk reqs)).
  - apply bool_decide_eq_true. exact Ha.
Qed.

Lemma chain_in_order ckn tk cs os fin v log v' :
  chain v log v' -> fin v' = true ->
  (forall i vb va, (i, vb, va) ∈ log ->
    exists c o, cs !! i = Some c /\ os !! i = Some o /\ explained ckn tk c (Returned o) vb va) ->
  in_order ckn tk cs os fin log.*1.*1 v = true.
Proof.
  intros Hc Hf. induction Hc as [v|i v v1 log v2 Hc IH]; intros H; [done|].
  cbn [fmap list_fmap fst in_order]. destruct (H i v v1) as (c & o & E1 & E2 & v0 & Hs & Ev); [by left|].
  rewrite E1, E2, (seq_next_sound _ _ _ _ _ _ Hs), <- Ev. apply IH; [done|]. intros. apply H. by right.
Qed.

Lemma log_unique (log : list (nat * view * view)) i vb va vb' va' :
  NoDup log.*1.*1 -> (i, vb, va) ∈ log -> (i, vb', va') ∈ log -> vb = vb' /\ va = va'.
Proof.
  induction log as [|[[j x] y] log IH]; intros Hn H1 H2; [by apply elem_of_nil in H1|].
  simpl in Hn. apply NoDup_cons in Hn as [Hj Hn].
  assert (Hin : forall a b, (j, a, b) ∈ log -> False).
  { intros a b Hab. apply Hj. apply elem_of_list_fmap. exists (j, a). split; [done|].
    apply elem_of_list_fmap. by exists (j, a, b). }
  apply elem_of_cons in H1 as [H1|H1], H2 as [H2|H2]; simplify_eq; [done|by edestruct Hin|by edestruct Hin|auto].
Qed.

(** A run whose calls all returned, with no order explaining it. *)
Theorem not_serializable ckn tk v cs rs s' ns :
  some_order ckn tk cs (see s' <$> rs) (looks_like s' ns) v = false -> length rs = length cs ->
  ~ serializable ckn tk v cs ((fun r => TRun (Ret r)) <$> rs) s'.
Proof.
  intros Hno Hlen (log & v' & Hp & Hc & Hs & Ht).
  assert (Hn : NoDup log.*1.*1) by (rewrite Hp; apply NoDup_seq).
  assert (some_order ckn tk cs (see s' <$> rs) (looks_like s' ns) v = true); [|congruence].
  unfold some_order. apply existsb_exists. exists log.*1.*1. split.
  { apply elem_of_list_In. apply permutations_Permutation. by symmetry. }
  eapply chain_in_order; [exact Hc|by apply (shows_looks_like tk)|].
  intros i vb va Hin.
  assert (Hi : i ∈ seq 0 (length cs)).
  { rewrite <- Hp. apply elem_of_list_fmap. exists (i, vb). split; [done|]. apply elem_of_list_fmap. by exists (i, vb, va). }
  apply elem_of_seq in Hi. destruct (lookup_lt_is_Some_2 rs i) as [r Hr]; [lia|].
  destruct (Ht i (Ret r)) as (c & a & vb' & va' & Hci & Hin' & He & ->).
  { by rewrite list_lookup_fmap, Hr. }
  destruct (log_unique _ _ _ _ _ _ Hn Hin Hin') as [<- <-]. exists c, (see s' r). split_and!; try done.
  by rewrite list_lookup_fmap, Hr.
Qed.
