(** * Property C97: machine integers. *)
From Coq Require Import Lia.
From stdpp Require Import gmap list.
From Verif Require Import Entities Search SpecSearch ProofSearch ProofEngines Properties_Search Ints SpecInts.
Open Scope Z_scope.

Section W.
Context (w : Z) (Hw : 2 <= w).

Lemma half : 2 ^ w = 2 * 2 ^ (w - 1) /\ 2 <= 2 ^ (w - 1).
Proof.
  split.
  - rewrite <- Z.pow_succ_r by lia. f_equal. lia.
  - transitivity (2 ^ 1); [lia|]. apply Z.pow_le_mono_r; lia.
Qed.
Lemma wrap_fits z : fits w z -> wrap w z = z.
Proof. intros [H1 H2]. destruct half as [E H3]. unfold wrap. rewrite Z.mod_small; lia. Qed.
Lemma wrap_counted z : counted w z (wrap w z).
Proof.
  destruct half as [E H3]. unfold wrap, counted, fits.
  pose proof (Z.mod_pos_bound (z + 2 ^ (w - 1)) (2 ^ w) ltac:(lia)) as B. split; [lia|].
  exists (- ((z + 2 ^ (w - 1)) / 2 ^ w)).
  pose proof (Z.div_mod (z + 2 ^ (w - 1)) (2 ^ w) ltac:(lia)). nia.
Qed.
Lemma wrap_step z : wrap w (wrap w z + 1) = wrap w (z + 1).
Proof.
  destruct half as [E H3]. unfold wrap. f_equal.
  replace ((z + 2 ^ (w - 1)) mod 2 ^ w - 2 ^ (w - 1) + 1 + 2 ^ (w - 1)) with ((z + 2 ^ (w - 1)) mod 2 ^ w + 1) by lia.
  rewrite Z.add_mod_idemp_l by lia. f_equal. lia.
Qed.
Lemma counted_wrap z h : counted w z h -> h = wrap w z.
Proof.
  intros [[H1 H2] [k Hk]]. destruct half as [E H3]. unfold wrap.
  replace (z + 2 ^ (w - 1)) with (h + 2 ^ (w - 1) + (- k) * 2 ^ w) by lia. rewrite Z_mod_plus_full, Z.mod_small; lia.
Qed.

Lemma counter_ok n : fits w (Z.of_nat n) -> forall m i fuel, (n = i + m)%nat -> (m <= fuel)%nat ->
  counter w fuel (Z.of_nat i) (Z.of_nat n) = Ok (map Z.of_nat (seq i m)).
Proof.
  intros Hn. induction m as [|m IH]; intros i fuel -> Hf.
  - destruct fuel; cbn [counter]; rewrite (proj2 (Z.ltb_ge _ _)) by lia; done.
  - destruct fuel as [|fuel]; [lia|]. cbn [counter]. rewrite (proj2 (Z.ltb_lt _ _)) by lia.
    rewrite wrap_fits by (unfold fits in *; lia). replace (Z.of_nat i + 1) with (Z.of_nat (S i)) by lia.
    rewrite (IH (S i)) by lia. done.
Qed.
Lemma upto_ok n : 0 <= n -> fits w n -> upto_w w n = Ok (upto n).
Proof.
  intros H0 Hn. unfold upto_w, upto. rewrite <- (Z2Nat.id n) at 2 by lia.
  apply (counter_ok (Z.to_nat n)) with (i := 0%nat); [by rewrite Z2Nat.id by lia|lia|lia].
Qed.

Lemma isect_ok a b : slice_fits w a -> slice_fits w b -> forall fuel i j r, 0 <= i -> 0 <= j ->
  intersection_loop_w w fuel a b i j r = intersection_loop fuel a b i j r.
Proof.
  intros Ha Hb. induction fuel as [|fuel IH]; intros i j r Hi Hj; cbn [intersection_loop intersection_loop_w]; [done|].
  destruct (Z.ltb_spec i (Z.of_nat (length a))); [|done]. destruct (Z.ltb_spec j (Z.of_nat (length b))); [|done]. cbn [andb].
  unfold slice_fits, fits in *. rewrite !wrap_fits by (unfold fits; lia).
  destruct (slice_get a i) as [x|]; [|done]. destruct (slice_get b j) as [y|]; [|done]. cbn [obind].
  destruct (x <? y); [apply IH; lia|]. destruct (x >? y); apply IH; lia.
Qed.
Lemma go_isect_ok a b : slice_fits w a -> slice_fits w b -> go_intersection_w w a b = go_intersection a b.
Proof. intros Ha Hb. by apply isect_ok. Qed.

Lemma linear_ok ix : (forall t l, ix_Indexed ix t = Some l -> slice_fits w l) ->
  forall suf pre docs, slice_fits w docs ->
  ofold (linear_body_w w ix (pre ++ suf)) (Some docs) (map Z.of_nat (seq (length pre) (length suf))) = linear_loop ix docs suf.
Proof.
  intros Hix. induction suf as [|t suf IH]; intros pre docs Hd; [done|]. cbn [length seq map ofold linear_loop].
  unfold linear_body_w at 1. rewrite (slice_get_Ok _ _ t) by (by rewrite lookup_app_r, Nat.sub_diag).
  cbn [obind]. destruct (ix_Indexed ix t) as [nd|] eqn:E; cbn [obind].
  - rewrite go_isect_ok by (try done; by eapply Hix). rewrite intersection_isect. cbn [obind].
    destruct (length (isect docs nd) =? 0)%nat eqn:El; cbn [obind].
    + clear. generalize (S (length pre)). induction (length suf); intros k; cbn; [done|]. apply IHn.
    + specialize (IH (pre ++ [t]) (isect docs nd)). rewrite <- app_assoc in IH. cbn in IH.
      rewrite app_length in IH. cbn in IH. rewrite Nat.add_1_r in IH. apply IH.
      unfold slice_fits, fits in *. pose proof (sublist_length _ _ (isect_sublist docs nd)). lia.
  - clear. generalize (S (length pre)). induction (length suf); intros k; cbn; [done|]. apply IHn.
Qed.

Definition as_int (x : SearchResult) : SearchResult := MkSR (sr_Document x) (wrap w (sr_Hits x)).
Definition ints (o : outcome (gmap N SearchResult)) : outcome (gmap N SearchResult) :=
  obind o (fun m => Ok (as_int <$> m)).

Lemma hit_doc_ok ix m i : hit_doc_w w ix (as_int <$> m) i = ints (hit_doc ix m i).
Proof.
  unfold hit_doc_w, hit_doc. destruct (ix_Document ix i) as [d|]; [|done]. cbn [obind]. rewrite lookup_fmap.
  destruct half as [E H3].
  destruct (m !! Hash d) as [x|]; cbn; rewrite fmap_insert; unfold as_int; cbn.
  - by rewrite wrap_step.
  - by rewrite wrap_fits by (unfold fits; lia).
Qed.
Lemma hit_docs_ok ix l : forall m, ofold (hit_doc_w w ix) (as_int <$> m) l = ints (ofold (hit_doc ix) m l).
Proof.
  induction l as [|i l IH]; intros m; [done|]. cbn [ofold]. rewrite hit_doc_ok.
  destruct (hit_doc ix m i) as [m'|]; [|done]. cbn [ints obind]. apply IH.
Qed.
Lemma hit_tokens_ok ix ts : forall m, ofold (hit_token_w w ix) (as_int <$> m) ts = ints (ofold (hit_token ix) m ts).
Proof.
  induction ts as [|t ts IH]; intros m; [done|]. cbn [ofold].
  assert (E : hit_token_w w ix (as_int <$> m) t = ints (hit_token ix m t)).
  { unfold hit_token_w, hit_token. destruct (ix_Indexed ix t); [apply hit_docs_ok|done]. }
  rewrite E. destruct (hit_token ix m t) as [m'|]; [|done]. cbn [ints obind]. apply IH.
Qed.
End W.

(** What Go guarantees of slices and of Len is enough for NoopAllSearch and
    LinearSearch, whatever the Indexer does. *)
Theorem C97_noop :
  forall w ts ix, 2 <= w -> 0 <= ix_Len ix -> fits w (ix_Len ix) -> NoopAllSearch_w w ts ix = NoopAllSearch ts ix.
Proof. intros w ts ix Hw H0 H. unfold NoopAllSearch_w. by rewrite upto_ok. Qed.
Print Assumptions C97_noop.

Theorem C97_linear :
  forall w ts ix,
    2 <= w -> slice_fits w ts -> (forall t l, ix_Indexed ix t = Some l -> slice_fits w l) ->
    LinearSearch_w w ts ix = LinearSearch ts ix.
Proof.
  intros w [|t ts] ix Hw Ht Hix; [done|]. unfold LinearSearch_w, LinearSearch.
  destruct (ix_Indexed ix t) as [docs|] eqn:E; [|done].
  pose proof (counter_ok w Hw (length (t :: ts)) Ht (length ts) 1 (length (t :: ts)) eq_refl ltac:(cbn; lia)) as HC.
  change (Z.of_nat 1) with 1 in HC. rewrite HC.
  cbn [obind]. pose proof (linear_ok w Hw ix Hix ts [t] docs (Hix _ _ E)) as HL. cbn [length app] in HL. by rewrite HL.
Qed.
Print Assumptions C97_linear.

(** HitsSearch counts the hits of a group of documents with one hash, however many there
    are; they are reported, and compared with the number of tokens, wrapped around. *)
Theorem C97_hits_exact :
  forall w ckn srt name tk reqs q h,
    2 <= w -> slice_fits w reqs ->
    (forall key, counted w (Z.of_nat (group_hits tk reqs (tk q) key)) (h key)) ->
    mi_Search ckn (index_after name tk reqs) q (HitsSearch_w w srt) =
    Ok (srt (flat_map (row_with tk reqs (tk q) h) reqs)).
Proof.
  intros w ckn srt name tk reqs q h Hw Hr Hh. pose proof (rep_index_after name tk reqs) as Hrep. unfold mi_Search.
  replace (mi_tokenizer (index_after name tk reqs)) with tk by (symmetry; apply Hrep).
  set (mi := index_after name tk reqs) in *. set (ts := tk q) in *. unfold HitsSearch_w.
  rewrite <- (fmap_empty (as_int w)), hit_tokens_ok by done.
  rewrite (hit_tokens_rep tk reqs) by done. cbn [ints obind ix_Len indexer_of]. rewrite (rep_Len _ _ _ Hrep).
  rewrite upto_ok by (try done; lia). cbn [obind].
  set (m := fold_left bump (visits tk reqs ts) ∅). set (n := Z.of_nat (length ts)).
  assert (H2 : ofold (hit_filter (indexer_of ckn mi) n (as_int w <$> m)) [] (upto (Z.of_nat (length reqs))) =
    Ok (flat_map (row_with tk reqs ts h) reqs)); [|by rewrite H2].
  unfold hit_filter.
  rewrite (ofold_documents tk reqs mi ckn
     (fun acc doc => match (as_int w <$> m) !! Hash doc with
        | Some result => if sr_Hits result >=? n then Ok (acc ++ [result]) else Ok acc
        | None => Ok acc end)); [|done|apply upto_range].
  rewrite upto_omap, (ofold_ext _ (fun acc r => Ok (acc ++ row_with tk reqs ts h r))).
  { rewrite ofold_append_flat. done. }
  intros acc r. unfold Hash, doc_ID. cbn [doc_of doc_Name].
  rewrite lookup_fmap. subst m. rewrite bump_fold_lookup, lookup_empty, group_filter_visits.
  unfold row_with, group_first. rewrite (counted_wrap w Hw _ _ (Hh (fnv64 (req_Name r)))), group_hits_flat.
  destruct (flat_map _ ts) as [|r0 rest] eqn:E; cbn [head length fmap option_fmap option_map as_int sr_Hits sr_Document].
  - by rewrite app_nil_r.
  - subst n. destruct (Z.geb_spec (wrap w (Z.of_nat (S (length rest)))) (Z.of_nat (length ts))); case_decide; try lia; [done|].
    by rewrite app_nil_r.
Qed.
Print Assumptions C97_hits_exact.

(** So as long as documents times tokens fits, HitsSearch does what C03 says. *)
Lemma group_hits_le tk reqs ts key : (group_hits tk reqs ts key <= length ts * length reqs)%nat.
Proof.
  unfold group_hits. induction ts as [|t ts IH]; [done|]. cbn [map list_sum foldr length].
  pose proof (filter_length (fun r => in_group key r = true /\ contains tk r t = true) reqs). unfold list_sum in IH. lia.
Qed.
Theorem C97_hits :
  forall w ckn srt name tk reqs q,
    2 <= w -> slice_fits w reqs -> fits w (Z.of_nat (length (tk q)) * Z.of_nat (length reqs)) ->
    mi_Search ckn (index_after name tk reqs) q (HitsSearch_w w srt) =
    mi_Search ckn (index_after name tk reqs) q (HitsSearch srt).
Proof.
  intros w ckn srt name tk reqs q Hw Hr Hf. rewrite C03_hits_search_general.
  rewrite (C97_hits_exact w ckn srt name tk reqs q (fun key => Z.of_nat (group_hits tk reqs (tk q) key))); [|done|done|].
  2:{ intros key. split; [|exists 0; lia]. pose proof (group_hits_le tk reqs (tk q) key). unfold fits in *.
      assert (Z.of_nat (group_hits tk reqs (tk q) key) <= Z.of_nat (length (tk q)) * Z.of_nat (length reqs)) by lia. lia. }
  do 2 f_equal. unfold hits_rows. apply flat_map_ext. intros r. unfold row_with, hits_row.
  destruct (group_first tk reqs (tk q) (fnv64 (req_Name r))) as [r0|]; [|done].
  case_decide; destruct (Nat.leb_spec (length (tk q)) (group_hits tk reqs (tk q) (fnv64 (req_Name r)))); try lia; done.
Qed.
Print Assumptions C97_hits.

(** [n] documents with one ID and a query that repeats a word of theirs [m] times: all
    the documents match, and HitsSearch returns something exactly if the product, wrapped
    around, is at least [m]. *)
Lemma filter_replicate {A} (P : A -> Prop) `{forall x, Decision (P x)} n x :
  filter P (replicate n x) = if decide (P x) then replicate n x else [].
Proof.
  induction n as [|n IH]; [by cbn; case_decide|]. cbn [replicate]. rewrite filter_cons, IH. by case_decide.
Qed.
Lemma flat_map_replicate {A B} (f : A -> list B) n x : flat_map f (replicate n x) = concat (replicate n (f x)).
Proof. induction n as [|n IH]; cbn; [done|]. by rewrite IH. Qed.
Lemma concat_nil {A} n : concat (replicate n (@nil A)) = [].
Proof. by induction n. Qed.
Lemma concat_one {A} n (x : A) : concat (replicate n [x]) = replicate n x.
Proof. induction n as [|n IH]; cbn; [done|]. by rewrite IH. Qed.
Lemma length_concat_replicate {A} n (l : list A) : length (concat (replicate n l)) = (n * length l)%nat.
Proof. induction n as [|n IH]; cbn; [done|]. by rewrite app_length, IH. Qed.

Theorem C97_repeated :
  forall w ckn srt name tk r n m t q h,
    2 <= w -> (forall l, srt l ≡ₚ l) -> (0 < n)%nat -> (0 < m)%nat -> fits w (Z.of_nat n) ->
    tk q = replicate m t -> t ∈ tk (req_statement r) -> counted w (Z.of_nat m * Z.of_nat n) h ->
    mi_Search ckn (index_after name tk (replicate n r)) q LinearSearch = Ok (replicate n (MkSR (doc_of r) (Z.of_nat m))) /\
    mi_Search ckn (index_after name tk (replicate n r)) q (HitsSearch_w w srt) =
      Ok (if decide (Z.of_nat m <= h) then replicate n (MkSR (doc_of r) h) else []).
Proof.
  intros w ckn srt name tk r n m t q h Hw Hsrt Hn Hm Hfn Hq Ht Hh.
  assert (Hc : contains tk r t = true) by (by apply bool_decide_eq_true).
  split.
  - rewrite C01_linear_search_exact, Hq. destruct m as [|m]; [lia|]. unfold and_search. cbn [replicate].
    rewrite filter_replicate, decide_True.
    + cbn [length]. rewrite replicate_length. f_equal. clear. induction n as [|n IH]; cbn; [done|]. by rewrite IH.
    + unfold contains_all. apply forallb_forall. intros y Hy. change (t :: replicate m t) with (replicate (S m) t) in Hy.
      apply elem_of_list_In, elem_of_replicate in Hy as [-> _]. done.
  - set (key := fnv64 (req_Name r)).
    assert (Hf : flat_map (fun t => filter (fun r => in_group key r = true /\ contains tk r t = true) (replicate n r)) (tk q) =
      concat (replicate m (replicate n r))).
    { rewrite Hq, flat_map_replicate, filter_replicate, decide_True; [done|]. split; [apply N.eqb_refl|done]. }
    assert (Hg : Z.of_nat (group_hits tk (replicate n r) (tk q) key) = Z.of_nat m * Z.of_nat n).
    { rewrite group_hits_flat, Hf, length_concat_replicate, replicate_length. lia. }
    assert (H1 : group_first tk (replicate n r) (tk q) key = Some r).
    { unfold group_first. rewrite Hf. destruct m, n; try lia; done. }
    rewrite (C97_hits_exact w ckn srt name tk (replicate n r) q (fun key => wrap w (Z.of_nat (group_hits tk (replicate n r) (tk q) key)))); [|done| |].
    + rewrite flat_map_replicate. unfold row_with. fold key. rewrite H1, Hg, <- (counted_wrap w Hw _ _ Hh), Hq, replicate_length. f_equal.
      case_decide.
      * rewrite concat_one. symmetry. apply replicate_Permutation. symmetry. apply Hsrt.
      * rewrite concat_nil. by apply Permutation_nil_r, Hsrt.
    + unfold slice_fits. by rewrite replicate_length.
    + intros k. by apply wrap_counted.
Qed.
Print Assumptions C97_repeated.

(** With 32 bits: an ID put 1024 times, and a query of 2^21 times the same word.  No
    document is found, though all of them match. *)
Theorem C97_hits_refuted :
  exists ckn tk reqs q, length reqs = 1024%nat /\ length (tk q) = Z.to_nat (2 ^ 21) /\
    (forall r t, r ∈ reqs -> t ∈ tk q -> t ∈ tk (req_statement r)) /\
    (forall srt, sort_contract srt -> mi_Search ckn (index_after "i" tk reqs) q (HitsSearch_w 32 srt) = Ok []).
Proof.
  set (m := Z.to_nat (2 ^ 21)). assert (Em : Z.of_nat m = 2 ^ 21) by (apply Z2Nat.id; lia).
  assert (Hm : (0 < m)%nat) by lia. clearbody m.
  exists true, (fun s => if decide (s = "q"%string) then replicate m "a"%string else ["a"%string]),
    (replicate 1024 (NewDocRequest "x" "a")), "q"%string.
  rewrite (decide_True (P := "q"%string = "q"%string)) by done.
  split_and!; [apply replicate_length|by rewrite replicate_length|..].
  - intros r t Hr Ht. apply elem_of_replicate in Hr as [-> _]. apply elem_of_replicate in Ht as [-> _].
    cbn. by apply elem_of_list_singleton.
  - intros srt Hs.
    destruct (C97_repeated 32 true srt "i" (fun s => if decide (s = "q"%string) then replicate m "a"%string else ["a"%string])
      (NewDocRequest "x" "a") 1024 m "a" "q" (- 2 ^ 31)) as [_ H]; try done; try lia.
    + intros l. apply Hs.
    + cbn. by apply elem_of_list_singleton.
    + rewrite Em. split; [done|]. exists (-1). lia.
    + rewrite H, decide_False by lia. done.
Qed.
Print Assumptions C97_hits_refuted.

(** Concrete cases: with 8 bits, two documents with one ID and a query of 63 or 64 words;
    the hypotheses of C97_hits hold of the first. *)
Example C97_example :
  let tk := fun s => if decide (s = "63"%string) then replicate 63 "a"%string
                     else if decide (s = "64"%string) then replicate 64 "a"%string else ["a"%string] in
  let mi := index_after "i" tk [NewDocRequest "x" "a"; NewDocRequest "x" "b"] in
  slice_fits 8 [NewDocRequest "x" "a"; NewDocRequest "x" "b"] /\ slice_fits 8 (tk "64"%string) /\
  fits 8 (Z.of_nat (length (tk "63"%string)) * 2) /\
  mi_Search true mi "63" (HitsSearch_w 8 insertion_sort) = Ok [MkSR (MkDoc "x" "a") 126; MkSR (MkDoc "x" "a") 126] /\
  mi_Search true mi "64" (HitsSearch_w 8 insertion_sort) = Ok [] /\
  mi_Search true mi "64" (LinearSearch_w 8) = Ok [MkSR (MkDoc "x" "a") 64; MkSR (MkDoc "x" "b") 64] /\
  mi_Search true mi "64" (NoopAllSearch_w 8) = Ok [MkSR (MkDoc "x" "a") 0; MkSR (MkDoc "x" "b") 0].
Proof. split_and!; vm_compute; done. Qed.
