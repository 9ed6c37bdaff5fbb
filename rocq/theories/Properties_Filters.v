(** * Properties C78, C79: how searches depend on the tokens. *)
From Coq Require Import Lia.
From stdpp Require Import gmap list.
From Verif Require Import Entities Search SpecSearch ProofSearch ProofEngines ProofHits Properties_Search
  Utf8 StopWords Analyze ProofAnalyze.
Open Scope nat_scope.

(** ** C78: the engines do not look at the tokens *)

(** The engine gives the same answer when the tokens are replaced by others and the
    index is asked for those instead. *)
Definition opaque (e : Engine) : Prop :=
  forall (f : string -> string) ts ix ix',
    ix_Len ix' = ix_Len ix -> (forall i, ix_Document ix' i = ix_Document ix i) ->
    (forall t, t ∈ ts -> ix_Indexed ix' (f t) = ix_Indexed ix t) ->
    e (map f ts) ix' = e ts ix.

Lemma ofold_map {A B C} (g : A -> B) (F : C -> B -> outcome C) l acc :
  ofold F acc (map g l) = ofold (fun a x => F a (g x)) acc l.
Proof. revert acc. induction l as [|x l IH]; intros acc; [done|]. simpl. destruct (F acc (g x)); [apply IH|done]. Qed.

Lemma ofold_ext_in {A B} (F G : B -> A -> outcome B) l acc :
  (forall a x, x ∈ l -> F a x = G a x) -> ofold F acc l = ofold G acc l.
Proof.
  revert acc. induction l as [|x l IH]; intros acc H; [done|]. simpl. rewrite (H acc x) by left.
  destruct (G acc x); [|done]. apply IH. intros; apply H; by right.
Qed.

Theorem C78_engines_opaque :
  opaque NoopZeroSearch /\ opaque NoopAllSearch /\ opaque LinearSearch /\ forall srt, opaque (HitsSearch srt).
Proof.
  split_and!.
  - done.
  - intros f ts ix ix' HL HD HI. unfold NoopAllSearch. rewrite HL. apply ofold_ext_in. intros a x _. by rewrite HD.
  - intros f ts ix ix' HL HD HI. unfold LinearSearch. destruct ts as [|t ts]; [done|]. cbn [map].
    rewrite HI by left. destruct (ix_Indexed ix t) as [d0|]; [|done].
    assert (HI' : forall x, x ∈ ts -> ix_Indexed ix' (f x) = ix_Indexed ix x) by (intros; apply HI; by right).
    assert (E : forall d, linear_loop ix' d (map f ts) = linear_loop ix d ts).
    { clear HI. induction ts as [|x ts IH]; intros d; [done|]. cbn [map linear_loop]. rewrite HI' by left.
      destruct (ix_Indexed ix x) as [n|]; [|done]. destruct (go_intersection d n) as [d'|]; [|done]. simpl.
      destruct (length d' =? 0); [done|]. apply IH. intros; apply HI'; by right. }
    rewrite E. destruct (linear_loop ix d0 ts) as [[d|]|]; try done. simpl. rewrite map_length.
    apply ofold_ext_in. intros a x _. by rewrite HD.
  - intros srt f ts ix ix' HL HD HI. unfold HitsSearch. rewrite map_length, HL, ofold_map.
    assert (E : ofold (fun a x => hit_token ix' a (f x)) ∅ ts = ofold (hit_token ix) ∅ ts).
    { apply ofold_ext_in. intros a x Hx. unfold hit_token. rewrite HI by done. destruct (ix_Indexed ix x); [|done].
      apply ofold_ext_in. intros b y _. unfold hit_doc. by rewrite HD. }
    rewrite E. destruct (ofold (hit_token ix) ∅ ts) as [dh|]; [|done]. simpl.
    rewrite (ofold_ext_in _ (hit_filter ix (Z.of_nat (length ts)) dh)); [done|].
    intros a x _. unfold hit_filter. by rewrite HD.
Qed.
Print Assumptions C78_engines_opaque.

(** The texts that [tk] is applied to: the query and the indexed statements. *)
Definition text_of (reqs : list DocRequest) (q x : string) : Prop :=
  x = q \/ exists r, r ∈ reqs /\ x = req_statement r.

(** [tk'] yields the tokens of [tk], each replaced by its image under [f]. *)
Definition relabels (f : string -> string) (tk tk' : Tokenizer) (reqs : list DocRequest) (q : string) : Prop :=
  forall x, text_of reqs q x -> tk' x = map f (tk x).

(** [f] tells the tokens of the query and of the indexed documents apart. *)
Definition tells_apart (f : string -> string) (tk : Tokenizer) (reqs : list DocRequest) (q : string) : Prop :=
  forall x y t u, text_of reqs q x -> text_of reqs q y -> t ∈ tk x -> u ∈ tk y -> f t = f u -> t = u.

(** Only equality of tokens matters: replacing them one-to-one changes no result. *)
Theorem C78_relabelling :
  forall ckn name f tk tk' reqs q e,
    opaque e -> relabels f tk tk' reqs q -> tells_apart f tk reqs q ->
    mi_Search ckn (index_after name tk' reqs) q e = mi_Search ckn (index_after name tk reqs) q e.
Proof.
  intros ckn name f tk tk' reqs q e He Hr Hf. unfold mi_Search.
  pose proof (rep_index_after name tk reqs) as R. pose proof (rep_index_after name tk' reqs) as R'.
  rewrite (rep_tok _ _ _ R), (rep_tok _ _ _ R'), (Hr q) by (by left). apply He; cbn [indexer_of ix_Len ix_Document ix_Indexed].
  - unfold Len. by rewrite (rep_docs _ _ _ R), (rep_docs _ _ _ R').
  - intros i. unfold Document. by rewrite (rep_docs _ _ _ R), (rep_docs _ _ _ R').
  - intros t Ht. unfold Indexed. rewrite (rep_inv _ _ _ R), (rep_inv _ _ _ R').
    assert (E : forall l i, l ⊆ reqs -> positions tk' (f t) i l = positions tk t i l).
    { induction l as [|r l IH]; intros i Hl; [done|]. cbn [positions]. rewrite IH by set_solver. f_equal.
      assert (Hin : r ∈ reqs) by set_solver.
      unfold contains. rewrite (Hr (req_statement r)) by (right; eauto).
      erewrite bool_decide_ext; [done|]. split.
      - intros Hx. apply elem_of_list_fmap in Hx as (u & Hu & Hx).
        replace t with u; [done|]. eapply (Hf (req_statement r) q); [right; eauto|by left|done|done|done].
      - intros Hx. by apply elem_of_list_fmap_1. }
    by rewrite E.
Qed.
Print Assumptions C78_relabelling.

(** A stemmer that tells all words apart might as well be left out. *)
Corollary C78_one_to_one_stemmer :
  forall ckn name t filters stem b reqs q e,
    opaque e -> (forall x y, stem x b = stem y b -> x = y) ->
    mi_Search ckn (index_after name (NewTokenizationPipeline t (filters ++ [SpanishStemmerFilter stem b])) reqs) q e =
    mi_Search ckn (index_after name (NewTokenizationPipeline t filters) reqs) q e.
Proof.
  intros ckn name t filters stem b reqs q e He Hs. eapply (C78_relabelling _ _ (fun x => stem x b)); [done|..].
  - intros x _. unfold NewTokenizationPipeline, pipeline_Tokenize. rewrite fold_left_app. simpl. apply SpanishStemmerFilter_map.
  - intros x y u w _ _ _ _. apply Hs.
Qed.
Print Assumptions C78_one_to_one_stemmer.

Example C78_example :
  let f := fun t => String.append "<" t in
  opaque (HitsSearch insertion_sort) /\
  relabels f letters (fun x => map f (letters x)) [NewDocRequest "d" "a b"; NewDocRequest "c" "b"] "b" /\
  tells_apart f letters [NewDocRequest "d" "a b"; NewDocRequest "c" "b"] "b" /\
  mi_Search true (index_after "" (fun x => map f (letters x)) [NewDocRequest "d" "a b"; NewDocRequest "c" "b"]) "b" LinearSearch =
    Ok [MkSR (MkDoc "d" "a b") 1; MkSR (MkDoc "c" "b") 1].
Proof.
  intros f. split_and!.
  - apply C78_engines_opaque.
  - done.
  - intros x y t u _ _ _ _ E. by injection E.
  - vm_compute. reflexivity.
Qed.

(** ** C79: filters widen the results *)

Lemma contains_all_elem tk ts r : contains_all tk ts r = true <-> forall t, t ∈ ts -> t ∈ tk (req_statement r).
Proof.
  unfold contains_all. rewrite forallb_forall. split; intros H t Ht.
  - specialize (H t). rewrite <- elem_of_list_In in H. apply H in Ht. unfold contains in Ht. by apply bool_decide_eq_true in Ht.
  - apply elem_of_list_In in Ht. apply bool_decide_eq_true. by apply H.
Qed.

Lemma sublist_filter {A} (P Q : A -> Prop) `{!forall x, Decision (P x), !forall x, Decision (Q x)} (l : list A) :
  (forall x, x ∈ l -> P x -> Q x) -> sublist (filter P l) (filter Q l).
Proof.
  induction l as [|x l IH]; intros Hi; [constructor|]. rewrite !filter_cons.
  assert (H' : forall y, y ∈ l -> P y -> Q y) by (intros; apply Hi; [by right|done]).
  destruct (decide (P x)) as [Hp|Hp]; destruct (decide (Q x)) as [Hq|Hq].
  - by apply sublist_skip, IH.
  - exfalso. apply Hq, Hi; [by left|done].
  - by apply sublist_cons, IH.
  - by apply IH.
Qed.

(** Merging tokens (lower-casing, stemming) loses no result: LinearSearch returns at
    least the same results, in the same order. *)
Theorem C79_merging_tokens_linear :
  forall ckn name f tk tk' reqs q rl rl',
    relabels f tk tk' reqs q ->
    mi_Search ckn (index_after name tk reqs) q LinearSearch = Ok rl ->
    mi_Search ckn (index_after name tk' reqs) q LinearSearch = Ok rl' ->
    sublist rl rl'.
Proof.
  intros ckn name f tk tk' reqs q rl rl' Hr. rewrite !C01_linear_search_exact. intros [= <-] [= <-].
  rewrite (Hr q) by (by left). unfold and_search. destruct (tk q) as [|t0 ts0] eqn:E; [constructor|].
  cbn [map]. rewrite <- E. change (f t0 :: map f ts0) with (map f (t0 :: ts0)). rewrite <- E, map_length.
  apply fmap_sublist, sublist_filter. intros r Hin. rewrite !contains_all_elem. intros H t Ht.
  apply elem_of_list_fmap in Ht as (u & -> & Hu). rewrite (Hr (req_statement r)) by (right; eauto).
  apply elem_of_list_fmap_1. by apply H.
Qed.
Print Assumptions C79_merging_tokens_linear.

(** So does HitsSearch, when the IDs have different hashes. *)
Theorem C79_merging_tokens_hits :
  forall ckn name f tk tk' reqs q srt rh rh',
    relabels f tk tk' reqs q -> sort_contract srt -> NoDup (map (fun r => fnv64 (req_Name r)) reqs) ->
    mi_Search ckn (index_after name tk reqs) q (HitsSearch srt) = Ok rh ->
    mi_Search ckn (index_after name tk' reqs) q (HitsSearch srt) = Ok rh' ->
    rh ⊆ rh'.
Proof.
  intros ckn name f tk tk' reqs q srt rh rh' Hr Hs Hn H1 H2.
  destruct (C02_hits_search_exact ckn srt name tk reqs q Hs Hn) as (r1 & E1 & P1 & _).
  destruct (C02_hits_search_exact ckn srt name tk' reqs q Hs Hn) as (r2 & E2 & P2 & _).
  rewrite E1 in H1. rewrite E2 in H2. injection H1 as <-. injection H2 as <-.
  pose proof (C79_merging_tokens_linear ckn name f tk tk' reqs q _ _ Hr
    (C01_linear_search_exact _ _ _ _ _) (C01_linear_search_exact _ _ _ _ _)) as Hsub.
  intros x. rewrite P1, P2. intros Hx. by eapply elem_of_submseteq; [|apply sublist_submseteq].
Qed.
Print Assumptions C79_merging_tokens_hits.

(** Dropping tokens (stop words) from documents and queries loses no document either,
    unless it leaves nothing of the query; then nothing is found. *)
Theorem C79_dropping_tokens :
  forall ckn name (keep : string -> bool) tk tk' reqs q rl rl',
    (forall x, text_of reqs q x -> tk' x = List.filter keep (tk x)) ->
    mi_Search ckn (index_after name tk reqs) q LinearSearch = Ok rl ->
    mi_Search ckn (index_after name tk' reqs) q LinearSearch = Ok rl' ->
    (tk' q <> [] -> sublist (map sr_Document rl) (map sr_Document rl')) /\
    (tk' q = [] -> rl' = []).
Proof.
  intros ckn name keep tk tk' reqs q rl rl' Hk. rewrite !C01_linear_search_exact. intros [= <-] [= <-]. split.
  - intros Hne. unfold and_search. destruct (tk q) as [|t0 ts0] eqn:E; [simpl; apply sublist_nil_l|].
    destruct (tk' q) as [|u0 us0] eqn:E'; [done|]. rewrite !map_map. cbn [sr_Document].
    apply fmap_sublist, sublist_filter. intros r Hin. rewrite !contains_all_elem. rewrite <- E, <- E'. intros H t Ht.
    rewrite (Hk q) in Ht by (by left). rewrite (Hk (req_statement r)) by (right; eauto).
    apply elem_of_list_In, filter_In in Ht as [Ht Hkeep]. apply elem_of_list_In, filter_In. split; [|done].
    apply elem_of_list_In, H. by apply elem_of_list_In.
  - intros ->. done.
Qed.
Print Assumptions C79_dropping_tokens.

(** The filters of the package, at the end of any pipeline. *)
Corollary C79_pipeline_filters :
  forall ckn name t filters reqs q rl rl' last,
    (exists ul, last = LowerCaseFilter ul) \/ (exists stem b, last = SpanishStemmerFilter stem b) ->
    mi_Search ckn (index_after name (NewTokenizationPipeline t filters) reqs) q LinearSearch = Ok rl ->
    mi_Search ckn (index_after name (NewTokenizationPipeline t (filters ++ [last])) reqs) q LinearSearch = Ok rl' ->
    sublist rl rl'.
Proof.
  intros ckn name t filters reqs q rl rl' last H.
  assert (E : exists f, forall l, last l = map f l).
  { destruct H as [[ul ->]|(stem & b & ->)]; eexists; intros l; [done|apply SpanishStemmerFilter_map]. }
  destruct E as [f E]. apply (C79_merging_tokens_linear _ _ f). intros x _.
  unfold NewTokenizationPipeline, pipeline_Tokenize. rewrite fold_left_app. apply E.
Qed.
Print Assumptions C79_pipeline_filters.

Lemma filter_bool (sw : StopWords) (l : list string) :
  filter (fun w => w ∉ sw) l = List.filter (fun w => bool_decide (w ∉ sw)) l.
Proof.
  induction l as [|w l IH]; [done|]. rewrite filter_cons. simpl. destruct (decide (w ∉ sw)) as [Hw|Hw].
  - rewrite bool_decide_true by done. by f_equal.
  - by rewrite bool_decide_false.
Qed.

Corollary C79_stop_words :
  forall ckn name t filters sw reqs q rl rl',
    mi_Search ckn (index_after name (NewTokenizationPipeline t filters) reqs) q LinearSearch = Ok rl ->
    mi_Search ckn (index_after name (NewTokenizationPipeline t (filters ++ [StopWordsFilter sw])) reqs) q LinearSearch = Ok rl' ->
    ((exists w, w ∈ NewTokenizationPipeline t filters q /\ w ∉ sw) -> sublist (map sr_Document rl) (map sr_Document rl')) /\
    ((forall w, w ∈ NewTokenizationPipeline t filters q -> w ∈ sw) -> rl' = []).
Proof.
  intros ckn name t filters sw reqs q rl rl' H1 H2.
  set (tk := NewTokenizationPipeline t filters). set (tk' := NewTokenizationPipeline t (filters ++ [StopWordsFilter sw])).
  assert (E : forall x, tk' x = List.filter (fun w => bool_decide (w ∉ sw)) (tk x)).
  { intros x. unfold tk', tk, NewTokenizationPipeline, pipeline_Tokenize. rewrite fold_left_app. cbn [fold_left].
    rewrite StopWordsFilter_filter. apply filter_bool. }
  destruct (C79_dropping_tokens ckn name _ tk tk' reqs q rl rl' (fun x _ => E x) H1 H2) as [HA HB]. split.
  - intros (w & Hw & Hn). apply HA. rewrite E. intros Hnil.
    assert (Hin : w ∈ @nil string); [|by apply elem_of_nil in Hin].
    rewrite <- Hnil. apply elem_of_list_In, filter_In. split; [by apply elem_of_list_In|]. by apply bool_decide_eq_true.
  - intros Hall. apply HB. rewrite E. apply elem_of_nil_inv. intros w Hw. apply elem_of_list_In, filter_In in Hw as [Hw Hb].
    apply bool_decide_eq_true in Hb. apply Hb, Hall. by apply elem_of_list_In.
Qed.
Print Assumptions C79_stop_words.

(** Merging does find more; dropping can find less. *)
Example C79_example :
  let low := NewTokenizationPipeline letters [LowerCaseFilter (fun r => if ((65 <=? r) && (r <=? 90))%N then r + 32 else r)%N] in
  let reqs := [NewDocRequest "d" "A b"; NewDocRequest "c" "a"] in
  mi_Search true (index_after "" letters reqs) "a" LinearSearch = Ok [MkSR (MkDoc "c" "a") 1] /\
  mi_Search true (index_after "" low reqs) "a" LinearSearch = Ok [MkSR (MkDoc "d" "A b") 1; MkSR (MkDoc "c" "a") 1] /\
  mi_Search true (index_after "" (NewTokenizationPipeline letters [StopWordsFilter {["a"]}]) reqs) "a" LinearSearch = Ok [] /\
  mi_Search true (index_after "" (NewTokenizationPipeline letters [StopWordsFilter {["b"]}]) reqs) "A b" LinearSearch = Ok [MkSR (MkDoc "d" "A b") 1].
Proof. split_and!; vm_compute; reflexivity. Qed.
