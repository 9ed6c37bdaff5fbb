(** * Properties C66 and C67: what the engines ask of the index, and what Put costs.

    [(irun ix p).1] is the list of the calls of Len, Indexed and Document the
    engine makes, in order. *)
From Coq Require Import Lia ZifyBool ZifyNat ZifyN.
From stdpp Require Import sorting list gmap.
From Verif Require Import Entities Search SpecSearch ProofSearch ProofEngines Properties_Search Trace.
Open Scope Z_scope.

(** ** The results are those of Search.v *)

Lemma scan_run ix fuel i (body : list SearchResult -> Doc -> list SearchResult) acc k n :
  ix_Len ix = n -> 0 <= i -> (Z.to_nat (n - i) <= fuel)%nat ->
  (irun ix (scan fuel i body acc k)).2 =
  match ofold (fun a j => obind (ix_Document ix j) (fun d => Ok (body a d))) acc
          (map Z.of_nat (seq (Z.to_nat i) (Z.to_nat (n - i)))) with
  | Ok l => (irun ix (k l)).2
  | Panic => Some Panic
  end.
Proof.
  intros Hn. revert i acc. induction fuel as [|fuel IH]; intros i acc Hi Hf; cbn [scan irun snd fst].
  - rewrite Hn. destruct (i <? n) eqn:E; [lia|].
    replace (Z.to_nat (n - i)) with 0%nat by lia. done.
  - rewrite Hn. destruct (i <? n) eqn:E.
    + replace (Z.to_nat (n - i)) with (S (Z.to_nat (n - (i + 1)))) by lia. cbn [seq map ofold].
      rewrite Z2Nat.id by lia. cbn [irun]. destruct (ix_Document ix i) as [d|]; cbn [obind snd]; [|done].
      rewrite IH by lia. by replace (Z.to_nat (i + 1)) with (S (Z.to_nat i)) by lia.
    + replace (Z.to_nat (n - i)) with 0%nat by lia. done.
Qed.

Lemma fetch_run ix js n acc :
  (irun ix (fetch js n acc)).2 =
  Some (ofold (fun results j => obind (ix_Document ix j) (fun doc => Ok (results ++ [MkSR doc n]))) acc js).
Proof.
  revert acc. induction js as [|j js IH]; intros acc; [done|]. cbn [fetch irun ofold].
  destruct (ix_Document ix j) as [d|]; cbn [obind snd]; [|done]. apply IH.
Qed.

Lemma narrow_run ix ts docs k :
  (irun ix (narrow docs ts k)).2 =
  match linear_loop ix docs ts with
  | Ok (Some js) => (irun ix (k js)).2
  | Ok None => Some (Ok [])
  | Panic => None
  end.
Proof.
  revert docs. induction ts as [|t ts IH]; intros docs; [done|]. cbn [narrow irun linear_loop snd].
  destruct (ix_Indexed ix t) as [l|]; [|done]. rewrite intersection_isect. cbn [obind].
  destruct (length (isect docs l) =? 0)%nat; [done|]. apply IH.
Qed.

Lemma linear_loop_Ok ix ts docs : exists o, linear_loop ix docs ts = Ok o.
Proof.
  revert docs. induction ts as [|t ts IH]; intros docs; cbn [linear_loop]; [eauto|].
  destruct (ix_Indexed ix t); [|eauto]. rewrite intersection_isect. cbn [obind].
  destruct (_ =? 0)%nat; [eauto|apply IH].
Qed.

Lemma hit_list_run ix l m k :
  (irun ix (hit_list l m k)).2 =
  match ofold (hit_doc ix) m l with Ok m' => (irun ix (k m')).2 | Panic => Some Panic end.
Proof.
  revert m. induction l as [|j l IH]; intros m; [done|]. cbn [hit_list irun ofold]. unfold hit_doc at 1.
  destruct (ix_Document ix j) as [d|]; cbn [obind snd]; [|done]. rewrite IH. unfold hit.
  destruct (m !! Hash d); done.
Qed.

Lemma hit_tokens_run ix ts m k :
  (irun ix (hit_tokens ts m k)).2 =
  match ofold (hit_token ix) m ts with Ok m' => (irun ix (k m')).2 | Panic => Some Panic end.
Proof.
  revert m. induction ts as [|t ts IH]; intros m; [done|]. cbn [hit_tokens irun ofold snd]. unfold hit_token at 1.
  destruct (ix_Indexed ix t) as [l|]; [|apply IH]. rewrite hit_list_run.
  destruct (ofold (hit_doc ix) m l); cbn [obind]; [apply IH|done].
Qed.

Theorem C66_same_results :
  forall (ix : Indexer) (ts : list string),
    (irun ix (NoopZero_i ts)).2 = Some (NoopZeroSearch ts ix) /\
    (irun ix (Linear_i ts)).2 = Some (LinearSearch ts ix) /\
    forall fuel, (Z.to_nat (ix_Len ix) <= fuel)%nat ->
      (irun ix (NoopAll_i fuel ts)).2 = Some (NoopAllSearch ts ix) /\
      forall srt, (irun ix (Hits_i srt fuel ts)).2 = Some (HitsSearch srt ts ix).
Proof.
  intros ix ts. split; [done|]. split; [|intros fuel Hf; split; [|intros srt]].
  - unfold Linear_i, LinearSearch. destruct ts as [|t ts]; [done|]. cbn [irun snd].
    destruct (ix_Indexed ix t) as [l|]; [|done]. rewrite narrow_run.
    destruct (linear_loop_Ok ix ts l) as [[js|] ->]; cbn [obind]; [|done]. apply fetch_run.
  - unfold NoopAll_i, NoopAllSearch, upto. rewrite (scan_run _ _ _ _ _ _ (ix_Len ix)) by lia.
    rewrite Z.sub_0_r. change (Z.to_nat 0) with 0%nat. by destruct (ofold _ _ _).
  - unfold Hits_i, HitsSearch, upto. rewrite hit_tokens_run.
    destruct (ofold (hit_token ix) ∅ ts) as [m|]; cbn [obind]; [|done].
    rewrite (scan_run _ _ _ _ _ _ (ix_Len ix)) by lia. rewrite Z.sub_0_r. change (Z.to_nat 0) with 0%nat.
    rewrite (ofold_ext _ (hit_filter ix (Z.of_nat (length ts)) m)); [by destruct (ofold _ _ _)|]. intros a j. unfold hit_filter.
    destruct (ix_Document ix j) as [d|]; cbn [obind]; [|done]. destruct (m !! Hash d) as [r|]; [|done].
    by destruct (sr_Hits r >=? _).
Qed.
Print Assumptions C66_same_results.

(** ** C66: LinearSearch *)

(** LinearSearch looks the tokens up in order, and afterwards fetches only the
    documents it returns; it never calls Len.  It leaves out the remaining tokens
    only when the result is empty anyway. *)
Theorem C66_linear_calls :
  forall (ix : Indexer) (ts : list string), exists asked js,
    (irun ix (Linear_i ts)).1 = map EvIndexed asked ++ map EvDocument js /\
    (exists rest, ts = asked ++ rest /\ (rest <> [] -> js = [] /\ LinearSearch ts ix = Ok [])) /\
    (forall rs, LinearSearch ts ix = Ok rs -> length js = length rs /\
       forall k j r, js !! k = Some j -> rs !! k = Some r -> ix_Document ix j = Ok (sr_Document r)).
Proof.
  intros ix ts.
  assert (Hfetch : forall js n acc, exists js', (irun ix (fetch js n acc)).1 = map EvDocument js' /\
    forall rs, (irun ix (fetch js n acc)).2 = Some (Ok rs) ->
      exists rs', rs = acc ++ rs' /\ Forall2 (fun j r => ix_Document ix j = Ok (sr_Document r)) js' rs').
  { induction js as [|j js IH]; intros n acc.
    { exists []. split; [done|]. intros rs [= <-]. exists []. by rewrite app_nil_r. }
    cbn [fetch irun]. destruct (ix_Document ix j) as [d|] eqn:Ej; cbn [fst snd].
    - destruct (IH n (acc ++ [MkSR d n])) as (js' & E & H). exists (j :: js'). split; [by rewrite E|].
      intros rs Hrs. destruct (H rs Hrs) as (rs' & -> & HF). exists (MkSR d n :: rs').
      split; [by rewrite <- app_assoc|]. by constructor.
    - exists [j]. split; [done|]. intros rs [=]. }
  assert (Hnarrow : forall ts docs n, exists asked js rest,
    (irun ix (narrow docs ts (fun docs => fetch docs n []))).1 = map EvIndexed asked ++ map EvDocument js /\
    ts = asked ++ rest /\
    (rest <> [] -> js = [] /\ (irun ix (narrow docs ts (fun docs => fetch docs n []))).2 = Some (Ok [])) /\
    forall rs, (irun ix (narrow docs ts (fun docs => fetch docs n []))).2 = Some (Ok rs) ->
      Forall2 (fun j r => ix_Document ix j = Ok (sr_Document r)) js rs).
  { induction ts0 as [|t ts0 IH]; intros docs n.
    { destruct (Hfetch docs n []) as (js & E & H). exists [], js, []. split; [done|]. split; [done|]. split; [done|].
      intros rs Hrs. by destruct (H rs Hrs) as (rs' & -> & HF). }
    cbn [narrow irun fst snd].
    destruct (ix_Indexed ix t) as [l|]; [rewrite intersection_isect; destruct (length (isect docs l) =? 0)%nat|].
    - exists [t], [], ts0. split; [done|]. split; [done|]. split; [done|]. cbn. intros rs [= <-]. constructor.
    - destruct (IH (isect docs l) n) as (asked & js & rest & H1 & H2 & H3 & H4).
      exists (t :: asked), js, rest. split; [by rewrite H1|]. split; [by rewrite H2|]. done.
    - exists [t], [], ts0. split; [done|]. split; [done|]. split; [done|]. cbn. intros rs [= <-]. constructor. }
  destruct (C66_same_results ix ts) as (_ & Hsame & _).
  assert (Hall : exists asked js rest, (irun ix (Linear_i ts)).1 = map EvIndexed asked ++ map EvDocument js /\
     ts = asked ++ rest /\ (rest <> [] -> js = [] /\ (irun ix (Linear_i ts)).2 = Some (Ok [])) /\
     forall rs, (irun ix (Linear_i ts)).2 = Some (Ok rs) ->
       Forall2 (fun j r => ix_Document ix j = Ok (sr_Document r)) js rs).
  { unfold Linear_i. destruct ts as [|t ts].
    { exists [], [], []. split; [done|]. split; [done|]. split; [done|]. intros rs [= <-]. constructor. }
    cbn [irun fst snd]. destruct (ix_Indexed ix t) as [l|].
    - destruct (Hnarrow ts l (Z.of_nat (length (t :: ts)))) as (asked & js & rest & H1 & H2 & H3 & H4).
      exists (t :: asked), js, rest. split; [by rewrite H1|]. split; [by rewrite H2|]. done.
    - exists [t], [], ts. split; [done|]. split; [done|]. split; [done|]. cbn. intros rs [= <-]. constructor. }
  destruct Hall as (asked & js & rest & H1 & H2 & H3 & H4). rewrite Hsame in H3, H4.
  exists asked, js. split; [done|]. split.
  - exists rest. split; [done|]. intros Hr. destruct (H3 Hr) as [-> [= ->]]. done.
  - intros rs Hrs. rewrite Hrs in H4. specialize (H4 rs eq_refl). split; [by eapply Forall2_length|].
    intros k j r Hj Hr. by eapply (Forall2_lookup_lr _ _ _ _ _ _ H4 Hj Hr).
Qed.
Print Assumptions C66_linear_calls.

(** So it makes at most one call per query token and one per result. *)
Theorem C66_linear_bound :
  forall (ix : Indexer) (ts : list string) rs,
    LinearSearch ts ix = Ok rs -> (length (irun ix (Linear_i ts)).1 <= length ts + length rs)%nat.
Proof.
  intros ix ts rs Hrs. destruct (C66_linear_calls ix ts) as (asked & js & -> & (rest & -> & _) & H).
  destruct (H rs Hrs) as [<- _]. rewrite !app_length, !map_length. lia.
Qed.
Print Assumptions C66_linear_bound.

(** A token nothing is known about ends the search: no token after it is looked up. *)
Theorem C66_unknown_token_stops :
  forall (ix : Indexer) before t later,
    ix_Indexed ix t = None ->
    (irun ix (Linear_i (before ++ t :: later))).1 = (irun ix (Linear_i (before ++ [t]))).1.
Proof.
  intros ix before t later Ht.
  assert (Hn : forall before docs k k',
    (irun ix (narrow docs (before ++ t :: later) k)).1 = (irun ix (narrow docs (before ++ [t]) k')).1).
  { clear before. induction before as [|b before IH]; intros docs k k'; cbn [app narrow irun fst].
    - by rewrite Ht.
    - f_equal. destruct (ix_Indexed ix b) as [l|]; [|done]. rewrite intersection_isect.
      destruct (length (isect docs l) =? 0)%nat; [done|]. apply IH. }
  destruct before as [|b before]; cbn [app Linear_i irun fst].
  - by rewrite Ht.
  - f_equal. destruct (ix_Indexed ix b) as [l|]; [|done]. apply Hn.
Qed.
Print Assumptions C66_unknown_token_stops.

(** The calls of the loop over all documents. *)
Lemma scan_calls (ix : Indexer) : forall fuel i body acc k,
  0 <= i -> (Z.to_nat (ix_Len ix - i) <= fuel)%nat ->
  (forall l, (irun ix (k l)).1 = []) -> (irun ix (scan fuel i body acc k)).2 <> Some Panic ->
  (irun ix (scan fuel i body acc k)).1 =
    flat_map (fun i => [EvLen; EvDocument (Z.of_nat i)]) (seq (Z.to_nat i) (Z.to_nat (ix_Len ix - i))) ++ [EvLen].
Proof.
  induction fuel as [|fuel IH]; intros i body acc k Hi Hf Hk; cbn [scan irun fst snd].
  - destruct (i <? ix_Len ix) eqn:E; [lia|]. replace (Z.to_nat (ix_Len ix - i)) with 0%nat by lia. by rewrite Hk.
  - destruct (i <? ix_Len ix) eqn:E.
    + replace (Z.to_nat (ix_Len ix - i)) with (S (Z.to_nat (ix_Len ix - (i + 1)))) by lia.
      cbn [seq flat_map irun app]. destruct (ix_Document ix i) as [d|]; [|done]. cbn [fst snd]. intros Hp.
      rewrite IH by (done || lia). replace (Z.to_nat (i + 1)) with (S (Z.to_nat i)) by lia.
      by rewrite Z2Nat.id by lia.
    + replace (Z.to_nat (ix_Len ix - i)) with 0%nat by lia. by rewrite Hk.
Qed.

(** ** C66: the Noop engines *)

(** NoopZeroSearch never calls the index. *)
Theorem C66_noop_zero_calls :
  forall (ix : Indexer) (ts : list string), (irun ix (NoopZero_i ts)).1 = [].
Proof. done. Qed.
Print Assumptions C66_noop_zero_calls.

(** NoopAllSearch fetches every document once, in order, asking for Len before
    each and once more at the end; it looks no token up. *)
Theorem C66_noop_all_calls :
  forall (ix : Indexer) (ts : list string) fuel,
    (Z.to_nat (ix_Len ix) <= fuel)%nat -> NoopAllSearch ts ix <> Panic ->
    (irun ix (NoopAll_i fuel ts)).1 =
      flat_map (fun i => [EvLen; EvDocument (Z.of_nat i)]) (seq 0 (Z.to_nat (ix_Len ix))) ++ [EvLen].
Proof.
  intros ix ts fuel Hf Hp. destruct (C66_same_results ix ts) as (_ & _ & Hsame).
  destruct (Hsame fuel Hf) as [Hsame' _]. unfold NoopAll_i in *.
  rewrite scan_calls; [|lia|by rewrite Z.sub_0_r|done|rewrite Hsame'; congruence].
  by rewrite Z.sub_0_r.
Qed.
Print Assumptions C66_noop_all_calls.

(** ** C66: HitsSearch *)

(** HitsSearch looks every token up, fetches every document listed, and then
    fetches every document of the index, asking for Len each time. *)
Theorem C66_hits_calls :
  forall srt (ix : Indexer) (ts : list string) fuel,
    (Z.to_nat (ix_Len ix) <= fuel)%nat -> HitsSearch srt ts ix <> Panic ->
    (irun ix (Hits_i srt fuel ts)).1 =
      flat_map (fun t => EvIndexed t :: map EvDocument (default [] (ix_Indexed ix t))) ts ++
      flat_map (fun i => [EvLen; EvDocument (Z.of_nat i)]) (seq 0 (Z.to_nat (ix_Len ix))) ++ [EvLen].
Proof.
  intros srt ix ts fuel Hf Hp.
  pose proof (scan_calls ix) as Hs.
  assert (Hl : forall l m k, (irun ix (hit_list l m k)).2 <> Some Panic ->
    exists m', (irun ix (hit_list l m k)).1 = map EvDocument l ++ (irun ix (k m')).1 /\
               (irun ix (k m')).2 = (irun ix (hit_list l m k)).2).
  { clear. induction l as [|j l IH]; intros m k; cbn [hit_list irun]; [eauto|].
    destruct (ix_Document ix j) as [d|]; cbn [fst snd]; [|done]. intros Hp.
    destruct (IH _ _ Hp) as (m' & -> & E). exists m'. done. }
  assert (Ht : forall ts m k, (irun ix (hit_tokens ts m k)).2 <> Some Panic ->
    exists m', (irun ix (hit_tokens ts m k)).1 =
        flat_map (fun t => EvIndexed t :: map EvDocument (default [] (ix_Indexed ix t))) ts ++ (irun ix (k m')).1 /\
      (irun ix (k m')).2 = (irun ix (hit_tokens ts m k)).2).
  { clear -Hl. induction ts as [|t ts IH]; intros m k; cbn [hit_tokens irun fst snd]; [eauto|]. intros Hp.
    cbn [flat_map app]. destruct (ix_Indexed ix t) as [l|].
    - destruct (Hl _ _ _ Hp) as (m1 & E1 & E2). rewrite E1, <- E2. rewrite <- E2 in Hp.
      destruct (IH _ _ Hp) as (m' & -> & E). exists m'. split; [|done]. cbn [default]. by rewrite app_assoc.
    - destruct (IH _ _ Hp) as (m' & -> & E). exists m'. done. }
  destruct (C66_same_results ix ts) as (_ & _ & Hsame). destruct (Hsame fuel Hf) as [_ Hsame'].
  assert (Hp' : (irun ix (Hits_i srt fuel ts)).2 <> Some Panic) by (rewrite Hsame'; congruence).
  unfold Hits_i in *. destruct (Ht _ _ _ Hp') as (m & -> & E). f_equal.
  rewrite <- E in Hp'. rewrite Hs; [|lia|by rewrite Z.sub_0_r|done|done].
  by rewrite Z.sub_0_r.
Qed.
Print Assumptions C66_hits_calls.

(** The README's complexity of HitsSearch, O(T × D + R log R) for T tokens, D
    documents per token and R results, is wrong: no function of these numbers
    bounds the number of calls, because every search scans the whole index. *)
Theorem C66_readme_complexity_refuted :
  ~ exists bound : nat -> nat -> nat -> nat,
      forall name tk reqs ts rs fuel,
        (length reqs <= fuel)%nat ->
        let ix := indexer_of true (index_after name tk reqs) in
        HitsSearch insertion_sort ts ix = Ok rs ->
        (length (irun ix (Hits_i insertion_sort fuel ts)).1 <=
           bound (length ts) (list_sum (map (fun t => length (default [] (ix_Indexed ix t))) ts)) (length rs))%nat.
Proof.
  intros [bound H]. set (n := S (bound 0%nat 0%nat 0%nat)).
  set (reqs := replicate n (NewDocRequest "d" "x")). set (ix := indexer_of true (index_after "i" letters reqs)).
  assert (Hlen : ix_Len ix = Z.of_nat n).
  { unfold ix. cbn [indexer_of ix_Len]. rewrite (rep_Len letters reqs) by apply rep_index_after.
    unfold reqs. by rewrite replicate_length. }
  assert (Hr : HitsSearch insertion_sort [] ix = Ok []).
  { unfold ix. rewrite (Hits_rep insertion_sort letters reqs) by apply rep_index_after.
    unfold hits_rows, hits_row. cbn [group_first flat_map head]. 
    assert (E : forall l : list DocRequest, flat_map (fun _ => @nil SearchResult) l = []) by (by induction l).
    by rewrite E. }
  specialize (H "i" letters reqs [] [] n). fold ix in H. cbn zeta in H.
  rewrite C66_hits_calls in H; [|by rewrite Hlen, Nat2Z.id|by rewrite Hr].
  cbn [flat_map app map list_sum foldr length] in H. rewrite Hlen, Nat2Z.id, app_length in H.
  assert (E : forall a, length (flat_map (fun i => [EvLen; EvDocument (Z.of_nat i)]) (seq a n)) = (2 * n)%nat).
  { clear. induction n as [|n IH]; intros a; [done|]. cbn [seq flat_map app length]. rewrite IH. lia. }
  rewrite E in H. cbn [length] in H.
  assert (2 * n + 1 <= bound 0 0 0)%nat; [|lia]. apply H; [|done]. unfold reqs. by rewrite replicate_length.
Qed.
Print Assumptions C66_readme_complexity_refuted.

Example C66_example :
  let ix := indexer_of true (index_after "idx" letters ex_reqs) in
  (irun ix (Linear_i ["a"; "b"])).1 = [EvIndexed "a"; EvIndexed "b"; EvDocument 0; EvDocument 2] /\
  (irun ix (Linear_i ["a"; "q"; "b"])).1 = [EvIndexed "a"; EvIndexed "q"] /\
  (irun ix (Hits_i insertion_sort 3 ["q"; "c"])).1 =
    [EvIndexed "q"; EvIndexed "c"; EvDocument 1; EvDocument 2;
     EvLen; EvDocument 0; EvLen; EvDocument 1; EvLen; EvDocument 2; EvLen] /\
  (irun ix (NoopAll_i 3 ["q"])).1 = [EvLen; EvDocument 0; EvLen; EvDocument 1; EvLen; EvDocument 2; EvLen].
Proof. vm_compute. done. Qed.

(** ** C67: the cost of Put *)

Lemma has_doc_n_spec next l :
  (has_doc_n next l).1 = has_doc next l /\
  (next ∉ l \/ (exists l', l = l' ++ [next] /\ next ∉ l') -> (has_doc_n next l).2 = length l).
Proof.
  induction l as [|x l [IH1 IH2]]; cbn [has_doc_n has_doc]; [done|].
  destruct (x =? next) eqn:E; cbn [fst snd length].
  - apply Z.eqb_eq in E. subst x. split; [done|]. intros [H|(l' & El & H)]; [exfalso; apply H; left|].
    destruct l' as [|y l']; [by injection El as ->|]. injection El as <- _. exfalso. apply H. left.
  - apply Z.eqb_neq in E. split; [done|]. intros [H|(l' & El & H)].
    + rewrite IH2; [done|]. left. set_solver.
    + destruct l' as [|y l']; [by injection El|]. injection El as <- ->. rewrite IH2; [done|]. right.
      exists l'. split; [done|]. set_solver.
Qed.

Lemma put_tokens_n next toks inv n :
  (forall t, next ∉ default [] (inv !! t)) ->
  fold_left (put_token_n next) toks (inv, n) =
  (fold_left (put_token next) toks inv,
   (n + list_sum (imap (fun k t => length (default [] (inv !! t)) + if decide (t ∈ take k toks) then 1 else 0) toks))%nat).
Proof.
  intros Hn. induction toks as [|t toks IH] using rev_ind; [cbn; by rewrite Nat.add_0_r|].
  rewrite !fold_left_app, IH. cbn [fold_left]. set (inv' := fold_left (put_token next) toks inv).
  unfold put_token_n, put_token. cbn [fst snd].
  assert (El : default [] (inv' !! t) = default [] (inv !! t) ++ if decide (t ∈ toks) then [next] else []).
  { unfold inv'. rewrite put_tokens_lookup by apply Hn. destruct (decide (t ∈ toks)); cbn; [done|by rewrite app_nil_r]. }
  destruct (has_doc_n_spec next (default [] (inv' !! t))) as [H1 H2].
  destruct (has_doc_n next (default [] (inv' !! t))) as [found w]. cbn [fst snd] in *. subst found.
  rewrite H2; clear H2.
  2:{ rewrite El. destruct (decide (t ∈ toks)); [right; eauto|left; rewrite app_nil_r; apply Hn]. }
  f_equal.
  rewrite imap_app, list_sum_app. cbn [imap]. rewrite El, app_length. cbn [compose list_sum foldr].
  unfold compose. cbn. rewrite !Nat.add_0_r, take_app.
  assert (E : imap (fun k t0 => length (default [] (inv !! t0)) + (if decide (t0 ∈ take k (toks ++ [t])) then 1 else 0))%nat toks
            = imap (fun k t0 => length (default [] (inv !! t0)) + (if decide (t0 ∈ take k toks) then 1 else 0))%nat toks).
  { apply imap_ext. intros k t0 Hk. apply lookup_lt_Some in Hk. by rewrite take_app_le by lia. }
  rewrite E. destruct (decide (t ∈ toks)); cbn [length]; lia.
Qed.

Lemma positions_length tk t i reqs :
  length (positions tk t i reqs) = length (filter (fun r => contains tk r t = true) reqs).
Proof.
  revert i. induction reqs as [|r reqs IH]; intros i; [done|]. cbn [positions]. rewrite filter_cons, app_length, IH.
  destruct (contains tk r t); [by rewrite decide_True by done|by rewrite decide_False by done].
Qed.

(** The inner loop of Put walks, for every token of the new document, over all
    earlier documents containing that token (and over the new one if the token
    was met before). *)
Theorem C67_put_work :
  forall name tk reqs r,
    put_work (index_after name tk reqs) r =
    list_sum (imap (fun k t => length (filter (fun r' => contains tk r' t = true) reqs) +
                               if decide (t ∈ take k (tk (req_Statement r))) then 1 else 0)%nat
                   (tk (req_Statement r))).
Proof.
  intros name tk reqs r. destruct (rep_index_after name tk reqs) as [H1 H2 H3].
  assert (Hd : forall t, default [] (mi_Inverted (index_after name tk reqs) !! t) = positions tk t 0 reqs).
  { intros t. rewrite H3. by destruct (positions tk t 0 reqs). }
  unfold put_work. rewrite H1, H2, map_length. rewrite put_tokens_n.
  - cbn [snd]. rewrite Nat.add_0_l. f_equal. apply imap_ext. intros k t _. by rewrite Hd, positions_length.
  - intros t. rewrite Hd. intros H. apply positions_elem in H as (_ & r' & H & _).
    apply lookup_lt_Some in H. lia.
Qed.
Print Assumptions C67_put_work.

(** Counting the iterations does not change what Put does. *)
Theorem C67_same_index :
  forall mi r, (fold_left (put_token_n (Z.of_nat (length (mi_Docs mi)))) (mi_tokenizer mi (req_Statement r))
                  (mi_Inverted mi, 0%nat)).1 = mi_Inverted (Put mi r).
Proof.
  intros mi r. cbn [Put mi_Inverted]. generalize (mi_Inverted mi) as inv, 0%nat as n.
  induction (mi_tokenizer mi (req_Statement r)) as [|t l IH]; intros inv n; [done|]. cbn [fold_left].
  assert (E : exists n', put_token_n (Z.of_nat (length (mi_Docs mi))) (inv, n) t =
                         (put_token (Z.of_nat (length (mi_Docs mi))) inv t, n')).
  { unfold put_token_n, put_token. cbn [fst snd].
    pose proof (proj1 (has_doc_n_spec (Z.of_nat (length (mi_Docs mi))) (default [] (inv !! t)))) as E.
    destruct (has_doc_n _ _) as [found w]. cbn [fst] in E. subst found.
    destruct (has_doc _ _); eauto. }
  destruct E as [n' ->]. apply IH.
Qed.
Print Assumptions C67_same_index.

(** Hence filling an index with n documents that share a token takes at least
    n(n-1)/2 iterations: exactly that many if it is their only token. *)
Theorem C67_quadratic :
  forall name tk t reqs,
    (forall r, r ∈ reqs -> tk (req_Statement r) = [t]) ->
    (2 * puts_work (NewMemoryIndex name tk) reqs = length reqs * (length reqs - 1))%nat.
Proof.
  intros name tk t reqs Ht.
  assert (H : forall before later, (forall r, r ∈ before ++ later -> tk (req_Statement r) = [t]) ->
    (2 * puts_work (index_after name tk before) later + length before * length before + (length before + length later) =
     (length before + length later) * (length before + length later) + length before)%nat).
  { intros before later. revert before. induction later as [|r later IH]; intros before Hall.
    - cbn [puts_work length]. rewrite Nat.add_0_r. lia.
    - cbn [puts_work length].
      assert (Er : tk (req_Statement r) = [t]) by (apply Hall; set_solver).
      assert (Eb : length (filter (fun r' => contains tk r' t = true) before) = length before).
      { assert (Hb : forall r', r' ∈ before -> contains tk r' t = true).
        { intros r' Hr'. unfold contains. apply bool_decide_eq_true.
          assert (E : tk (req_Statement r') = [t]) by (apply Hall; set_solver).
          change (req_statement r') with (req_Statement r'). rewrite E. left. }
        clear -Hb. induction before as [|x l IH]; [done|]. rewrite filter_cons, decide_True by (apply Hb; left).
        cbn [length]. f_equal. apply IH. intros r' Hr'. apply Hb. by right. }
      rewrite C67_put_work, Er. cbn [imap list_sum foldr take]. rewrite decide_False by apply not_elem_of_nil. rewrite Eb.
      replace (Put (index_after name tk before) r) with (index_after name tk (before ++ [r]))
        by (unfold index_after; by rewrite fold_left_app).
      specialize (IH (before ++ [r])). rewrite app_length in IH. cbn [length] in IH.
      assert (Hb : forall r', r' ∈ (before ++ [r]) ++ later -> tk (req_Statement r') = [t]).
      { intros r' Hr'. apply Hall. by rewrite <- app_assoc in Hr'. }
      specialize (IH Hb). revert IH. clear.
      generalize (puts_work (index_after name tk (before ++ [r])) later) as w, (length before) as b, (length later) as l.
      intros w b l IH. lia. }
  specialize (H [] reqs Ht). cbn [length index_after fold_left Nat.add] in H.
  unfold index_after in H. cbn [fold_left] in H. rewrite Nat.mul_sub_distr_l, Nat.mul_1_r. lia.
Qed.
Print Assumptions C67_quadratic.

Example C67_example :
  put_work (index_after "idx" letters ex_reqs) (NewDocRequest "n" "b a b q") = 9%nat /\
  puts_work (NewMemoryIndex "idx" letters) (replicate 10 (NewDocRequest "d" "x")) = 45%nat.
Proof. vm_compute. done. Qed.
