(** * Properties C72, C73 and the stop-word table of C22: what the README promises. *)
From Coq Require Import Lia.
From stdpp Require Import gmap list.
From Verif Require Import Entities Utf8 SpecUtf8 ProofUtf8 StopWords Search SpecSearch Analyze ProofAnalyze
  ProofHits Properties_Search Repo Sem SpecRepo ProofRepo ProofTotal Properties_Repo Properties_Analyze.
Open Scope nat_scope.

(** ** C22: the table *)

(** Unicode functions that are right on Latin-1, which contains the Spanish letters. *)
Definition latin1 (IsNumber IsLetter : N -> bool) (ul : N -> N) : Prop :=
  forall r, (r < 256)%N -> IsNumber r = l1_IsNumber r /\ IsLetter r = l1_IsLetter r /\ ul r = l1_ToLower r.

Lemma fields_ext f g xs st :
  (forall x, x ∈ xs -> f (snd x) = g (snd x)) -> fold_left (fields_step f) xs st = fold_left (fields_step g) xs st.
Proof.
  revert st. induction xs as [|x xs IH]; intros st H; [done|]. cbn [fold_left].
  replace (fields_step f st x) with (fields_step g st x); [apply IH; intros y Hy; apply H; by right|].
  destruct st as [o sp], x as [e r]. unfold fields_step. pose proof (H (e, r)) as E. simpl in E. by rewrite E by left.
Qed.

(** All runes of a text are in Latin-1. *)
Definition l1_text (t : string) : bool := forallb (fun x => (snd x <? 256)%N) (go_range (bytes_str t)).
Lemma l1_text_rune t x : l1_text t = true -> x ∈ go_range (bytes_str t) -> (snd x < 256)%N.
Proof. unfold l1_text. rewrite forallb_forall. intros H Hx. apply N.ltb_lt, H. by apply elem_of_list_In. Qed.

Lemma l1_tokenize IsNumber IsLetter ul t :
  latin1 IsNumber IsLetter ul -> l1_text t = true ->
  ct_Tokenize (NewKeepAlphanumericTokenizer IsNumber IsLetter) t =
  ct_Tokenize (NewKeepAlphanumericTokenizer l1_IsNumber l1_IsLetter) t.
Proof.
  intros H Ht. unfold ct_Tokenize, FieldsFunc. do 2 f_equal.
  rewrite (fields_ext _ (ct_drop (ct_fns (NewKeepAlphanumericTokenizer l1_IsNumber l1_IsLetter)))); [done|].
  intros x Hx. destruct (H (snd x)) as (H1 & H2 & _); [by eapply l1_text_rune|]. simpl. by rewrite H1, H2.
Qed.

Lemma l1_lower IsNumber IsLetter ul t :
  latin1 IsNumber IsLetter ul -> l1_text t = true -> ToLower ul (bytes_str t) = ToLower l1_ToLower (bytes_str t).
Proof.
  intros H Ht. unfold ToLower. destruct (forallb _ _); [done|]. unfold strings_Map.
  rewrite !flat_map_concat_map. f_equal. apply map_ext_in. intros x Hx%elem_of_list_In.
  destruct (H (snd x)) as (_ & _ & ->); [by eapply l1_text_rune|done].
Qed.

(** The README's pipeline, before stemming, computed on a given text. *)
Definition l1_words (t : string) : list string :=
  filter (fun t => t ∉ SpanishStopWords)
    (map (fun t => str_bytes (ToLower l1_ToLower (bytes_str t)))
      (ct_Tokenize (NewKeepAlphanumericTokenizer l1_IsNumber l1_IsLetter) t)).
Lemma l1_readme IsNumber IsLetter ul stem t :
  latin1 IsNumber IsLetter ul -> l1_text t = true ->
  forallb l1_text (ct_Tokenize (NewKeepAlphanumericTokenizer l1_IsNumber l1_IsLetter) t) = true ->
  readme_pipeline IsNumber IsLetter ul stem t = map (fun t => stem t true) (l1_words t).
Proof.
  intros H H1 H2. rewrite C20_readme_pipeline. f_equal. unfold l1_words. f_equal.
  erewrite l1_tokenize by done. apply map_ext_in. intros x Hx. f_equal. eapply l1_lower; [done|].
  rewrite forallb_forall in H2. by apply H2.
Qed.

(** The table has 443 different entries.  Each of them, except the one of two words,
    is a single token that lower-casing leaves alone, so the README's pipeline removes
    it wherever it occurs as a word. *)
Theorem C22_table :
  length SpanishStopWords_list = 443 /\ NoDup SpanishStopWords_list /\ size SpanishStopWords = 443 /\
  forall IsNumber IsLetter ul stem w,
    latin1 IsNumber IsLetter ul -> w ∈ SpanishStopWords_list -> w <> "por qué"%string ->
    ct_Tokenize (NewKeepAlphanumericTokenizer IsNumber IsLetter) w = [w] /\
    str_bytes (ToLower ul (bytes_str w)) = w /\
    readme_pipeline IsNumber IsLetter ul stem w = [].
Proof.
  assert (HN : NoDup SpanishStopWords_list) by (apply (bool_decide_unpack _); vm_compute; exact I).
  assert (HL : length SpanishStopWords_list = 443) by (vm_compute; reflexivity).
  split; [done|]. split; [done|]. split.
  { unfold SpanishStopWords, size, set_size. rewrite <- HL. apply Permutation_length. by apply elements_list_to_set. }
  intros IsNumber IsLetter ul stem w Hl Hw Hp.
  set (good := fun w => l1_text w && (bool_decide (w = "por qué"%string) ||
    (bool_decide (ct_Tokenize (NewKeepAlphanumericTokenizer l1_IsNumber l1_IsLetter) w = [w]) &&
     bool_decide (str_bytes (ToLower l1_ToLower (bytes_str w)) = w)))).
  assert (Hg : forallb good SpanishStopWords_list = true) by (vm_compute; reflexivity).
  rewrite forallb_forall in Hg. specialize (Hg w). rewrite <- elem_of_list_In in Hg. specialize (Hg Hw).
  unfold good in Hg. apply andb_true_iff in Hg as [Ht Hg]. rewrite (bool_decide_false _ Hp) in Hg.
  apply andb_true_iff in Hg as [H1%bool_decide_eq_true H2%bool_decide_eq_true].
  assert (Ec : ct_Tokenize (NewKeepAlphanumericTokenizer IsNumber IsLetter) w = [w]) by (by erewrite l1_tokenize).
  assert (El : str_bytes (ToLower ul (bytes_str w)) = w) by (by erewrite l1_lower).
  split; [done|]. split; [done|]. rewrite C20_readme_pipeline, Ec. cbn [map]. rewrite El.
  rewrite filter_cons_False; [done|]. intros Hn. apply Hn. by apply elem_of_list_to_set.
Qed.
Print Assumptions C22_table.

Example C22_table_example :
  latin1 l1_IsNumber l1_IsLetter l1_ToLower /\ "también"%string ∈ SpanishStopWords_list.
Proof. split; [by intros r _|]. apply (bool_decide_unpack _). vm_compute. exact I. Qed.

(** ** C72: there is no relevance ranking *)

(** With IDs that HitsSearch can tell apart every result has the same number of hits,
    the number of tokens of the query: the order is that of the IDs, whatever the
    documents say. *)
Theorem C72_all_hits_equal :
  forall ckn srt name tk reqs q res,
    sort_contract srt -> NoDup (map (fun r => fnv64 (req_Name r)) reqs) ->
    mi_Search ckn (index_after name tk reqs) q (HitsSearch srt) = Ok res ->
    Forall (fun x => sr_Hits x = Z.of_nat (length (tk q))) res /\
    forall i j x y, (i < j)%nat -> res !! i = Some x -> res !! j = Some y ->
      id_lt (doc_Name (sr_Document x)) (doc_Name (sr_Document y)).
Proof.
  intros ckn srt name tk reqs q res Hs Hd Hr.
  destruct (C02_hits_search_exact ckn srt name tk reqs q Hs Hd) as (res' & E & Hp & Ho).
  rewrite E in Hr. simplify_eq. split; [|done]. rewrite Hp. apply Forall_forall. intros x.
  unfold and_search. destruct (tk q) as [|t ts]; [by intros ?%elem_of_nil|].
  rewrite elem_of_list_fmap. by intros (r & -> & _).
Qed.
Print Assumptions C72_all_hits_equal.

(** A document is ranked above another one only if some ID was put twice (or two
    collide). *)
Theorem C72_ranking_needs_repeated_ids :
  forall ckn srt name tk reqs q res x y,
    sort_contract srt -> mi_Search ckn (index_after name tk reqs) q (HitsSearch srt) = Ok res ->
    x ∈ res -> y ∈ res -> (sr_Hits x < sr_Hits y)%Z ->
    exists i j r1 r2, i <> j /\ reqs !! i = Some r1 /\ reqs !! j = Some r2 /\ fnv64 (req_Name r1) = fnv64 (req_Name r2).
Proof.
  intros ckn srt name tk reqs q res x y Hs Hr Hx Hy Hlt.
  destruct (decide (NoDup (map (fun r => fnv64 (req_Name r)) reqs))) as [Hd|Hd].
  - destruct (C72_all_hits_equal _ _ _ _ _ _ _ Hs Hd Hr) as [HF _]. rewrite Forall_forall in HF.
    rewrite (HF _ Hx), (HF _ Hy) in Hlt. lia.
  - clear -Hd. induction reqs as [|r reqs IH]; [exfalso; apply Hd; constructor|].
    destruct (decide (fnv64 (req_Name r) ∈ map (fun r => fnv64 (req_Name r)) reqs)) as [Hin|Hn].
    + apply elem_of_list_fmap in Hin as (r2 & E & Hin). apply elem_of_list_lookup in Hin as [j Hj].
      by exists 0, (S j), r, r2.
    + destruct IH as (i & j & r1 & r2 & Hij & Hi & Hj & E).
      { intros Hd'. apply Hd. by constructor. }
      exists (S i), (S j), r1, r2. split_and!; try done. congruence.
Qed.
Print Assumptions C72_ranking_needs_repeated_ids.

(** In particular repeating a word in a document, or in the query, ranks nothing: a
    document that says "a" four times comes after one that says it once. *)
Theorem C72_best_match_first_refuted :
  exists tk once often q,
    (forall r, r ∈ [once; often] -> contains_all tk (tk q) r = true) /\
    length (filter (fun t => t = "a"%string) (tk (req_statement once))) = 1 /\
    length (filter (fun t => t = "a"%string) (tk (req_statement often))) = 4 /\
    tk q = ["a"%string] /\
    forall ckn srt, sort_contract srt ->
      mi_Search ckn (index_after "idx" tk [often; once]) q (HitsSearch srt) =
      Ok [MkSR (doc_of once) 1; MkSR (doc_of often) 1].
Proof.
  exists letters, (NewDocRequest "1" "a b c d"), (NewDocRequest "2" "a a a a"), "a"%string.
  split.
  { intros r Hr. repeat (apply elem_of_cons in Hr as [->|Hr]); [done|done|by apply elem_of_nil in Hr]. }
  split; [done|]. split; [done|]. split; [done|]. intros ckn srt Hs.
  rewrite (C05_order_determined _ _ insertion_sort) by (done || apply insertion_sort_contract).
  by destruct ckn; vm_compute.
Qed.
Print Assumptions C72_best_match_first_refuted.

Example C72_example :
  NoDup (map (fun r => fnv64 (req_Name r)) [NewDocRequest "1" "a b c d"; NewDocRequest "2" "a a a a"]) /\
  mi_Search true (index_after "idx" letters [NewDocRequest "1" "a b"; NewDocRequest "2" "a"; NewDocRequest "2" "a"]) "a"
    (HitsSearch insertion_sort) =
  Ok [MkSR (NewDoc "2" "a") 2; MkSR (NewDoc "2" "a") 2; MkSR (NewDoc "1" "a b") 1].
Proof. split; [apply (bool_decide_unpack _); vm_compute; exact I|vm_compute; done]. Qed.

(** ** C73: the program of the README *)

Definition java : DocRequest := NewDocRequest "java-course" "Curso de programación en Java".
Definition go_ : DocRequest := NewDocRequest "go-course" "Curso de programación en Go".
Definition python : DocRequest := NewDocRequest "python-course" "Curso de programación en Python".

(** Is the stem of "java" also the stem of a word of the course on [x]? *)
Definition also (stem : string -> bool -> string) (x : string) : bool :=
  bool_decide (stem "java"%string true ∈ [stem "curso" true; stem "programación" true; stem x true]%string).

(** The answer to "programación java". *)
Definition readme_answer (stem : string -> bool -> string) : list SearchResult :=
  (if also stem "go" then [MkSR (doc_of go_) 2] else []) ++ [MkSR (doc_of java) 2] ++
  (if also stem "python" then [MkSR (doc_of python) 2] else []).

Lemma readme_search IsNumber IsLetter ul stem ckn srt :
  latin1 IsNumber IsLetter ul -> sort_contract srt ->
  search_docs ckn (readme_pipeline IsNumber IsLetter ul stem) [java; go_; python] "programación java" (HitsSearch srt) =
  Ok (readme_answer stem).
Proof.
  intros Hl Hs. set (tk := readme_pipeline IsNumber IsLetter ul stem).
  assert (Hq : tk "programación java"%string = map (fun t => stem t true) ["programación"; "java"]%string).
  { unfold tk. erewrite l1_readme by (first [exact Hl|vm_compute; reflexivity]). apply (f_equal (map _)). vm_compute. reflexivity. }
  assert (Hj : tk (req_statement java) = map (fun t => stem t true) ["curso"; "programación"; "java"]%string).
  { unfold tk. erewrite l1_readme by (first [exact Hl|vm_compute; reflexivity]). apply (f_equal (map _)). vm_compute. reflexivity. }
  assert (Hg : tk (req_statement go_) = map (fun t => stem t true) ["curso"; "programación"; "go"]%string).
  { unfold tk. erewrite l1_readme by (first [exact Hl|vm_compute; reflexivity]). apply (f_equal (map _)). vm_compute. reflexivity. }
  assert (Hp : tk (req_statement python) = map (fun t => stem t true) ["curso"; "programación"; "python"]%string).
  { unfold tk. erewrite l1_readme by (first [exact Hl|vm_compute; reflexivity]). apply (f_equal (map _)). vm_compute. reflexivity. }
  unfold search_docs. rewrite C03_hits_search_general.
  rewrite (hits_sort_unique _ insertion_sort) by (done || apply insertion_sort_contract).
  rewrite hits_rows_distinct by (apply (bool_decide_unpack _); vm_compute; exact I).
  f_equal. rewrite Hq. cbn [map]. unfold and_search. rewrite !filter_cons, filter_nil.
  assert (Cj : contains_all tk [stem "programación"%string true; stem "java"%string true] java = true).
  { unfold contains_all, contains. cbn [forallb]. rewrite Hj. cbn [map].
    rewrite !bool_decide_true by (repeat first [left|right]). done. }
  assert (Cg : contains_all tk [stem "programación"%string true; stem "java"%string true] go_ = also stem "go").
  { unfold contains_all, contains. cbn [forallb]. rewrite Hg. cbn [map]. rewrite (bool_decide_true (stem "programación"%string true ∈ _)).
    - by rewrite andb_true_r.
    - right; left. }
  assert (Cp : contains_all tk [stem "programación"%string true; stem "java"%string true] python = also stem "python").
  { unfold contains_all, contains. cbn [forallb]. rewrite Hp. cbn [map]. rewrite (bool_decide_true (stem "programación"%string true ∈ _)).
    - by rewrite andb_true_r.
    - right; left. }
  rewrite Cj, Cg, Cp, decide_True by done. unfold readme_answer.
  destruct (also stem "go"), (also stem "python"); cbn; vm_compute; reflexivity.
Qed.

(** The three Puts return, and then the Search answers [readme_answer]. *)
Theorem C73_readme_program :
  forall IsNumber IsLetter ul stem ckn srt,
    latin1 IsNumber IsLetter ul -> sort_contract srt ->
    let tk := readme_pipeline IsNumber IsLetter ul stem in
    let s0 := NewIndexRepo ckn (NewMemoryIndexBuilder tk) in
    let v k := MkView {["courses"%string := take k [java; go_; python]]} ∅ 0 false in
    ret_ ckn tk (CPut "courses" java) s0 (eq OUnit) (v 1) /\
    forall s1, after (CPut "courses" java) s0 s1 ->
    ret_ ckn tk (CPut "courses" go_) s1 (eq OUnit) (v 2) /\
    forall s2, after (CPut "courses" go_) s1 s2 ->
    ret_ ckn tk (CPut "courses" python) s2 (eq OUnit) (v 3) /\
    forall s3, after (CPut "courses" python) s2 s3 ->
    ret_ ckn tk (CSearch "courses" "programación java" (HitsSearch srt)) s3 (eq (OResults (readme_answer stem))) (v 3).
Proof.
  intros IsNumber IsLetter ul stem ckn srt Hl Hs tk s0 v.
  assert (R1 : ret_ ckn tk (CPut "courses" java) s0 (eq OUnit) (v 1)).
  { eapply ret_det; [apply tracks_new|]. intros o Ho. us Ho. rewrite decide_False in Ho by (intros E; by apply E). done. }
  split; [done|]. intros s1 A1. pose proof (returns_after _ _ _ _ _ _ _ _ R1 A1) as T1.
  assert (R2 : ret_ ckn tk (CPut "courses" go_) s1 (eq OUnit) (v 2)).
  { eapply ret_det; [exact T1|]. intros o Ho. unfold v in Ho. us Ho. rewrite lookup_singleton in Ho.
    rewrite decide_False in Ho by (intros E; by apply E). rewrite Ho. do 2 f_equal. unfold v. f_equal. unfold put_each. cbn [foldr]. by rewrite alter_singleton. }
  split; [done|]. intros s2 A2. pose proof (returns_after _ _ _ _ _ _ _ _ R2 A2) as T2.
  assert (R3 : ret_ ckn tk (CPut "courses" python) s2 (eq OUnit) (v 3)).
  { eapply ret_det; [exact T2|]. intros o Ho. unfold v in Ho. us Ho. rewrite lookup_singleton in Ho.
    rewrite decide_False in Ho by (intros E; by apply E). rewrite Ho. do 2 f_equal. unfold v. f_equal. unfold put_each. cbn [foldr]. by rewrite alter_singleton. }
  split; [done|]. intros s3 A3. pose proof (returns_after _ _ _ _ _ _ _ _ R3 A3) as T3.
  eapply search_index; [exact T3|apply lookup_singleton|]. by apply readme_search.
Qed.
Print Assumptions C73_readme_program.

(** Only the course on Java is found exactly if the stemmer tells "java" from the
    words of the other two. *)
Theorem C73_only_java :
  forall stem,
    readme_answer stem = [MkSR (doc_of java) 2] <->
    stem "java" true ∉ [stem "curso" true; stem "programación" true; stem "go" true; stem "python" true]%string.
Proof.
  intros stem. unfold readme_answer, also. split.
  - case_bool_decide as H1; [by case_bool_decide|]. case_bool_decide as H2; [done|]. intros _ H.
    repeat setoid_rewrite elem_of_cons in H. repeat setoid_rewrite elem_of_cons in H1.
    repeat setoid_rewrite elem_of_cons in H2. tauto.
  - intros H. rewrite !bool_decide_false; [done|..]; intros H1; apply H; repeat setoid_rewrite elem_of_cons;
      repeat setoid_rewrite elem_of_cons in H1; tauto.
Qed.
Print Assumptions C73_only_java.

Example C73_example :
  latin1 l1_IsNumber l1_IsLetter l1_ToLower /\ sort_contract insertion_sort /\
  readme_answer (fun t _ => t) = [MkSR (NewDoc "java-course" "Curso de programación en Java") 2].
Proof. split; [by intros r _|]. split; [apply insertion_sort_contract|]. vm_compute. done. Qed.
