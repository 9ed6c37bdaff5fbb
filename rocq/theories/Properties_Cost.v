(** * Property C89: the cost of LinearSearch. *)
From Coq Require Import Lia ZifyBool ZifyNat ZifyN.
From stdpp Require Import sorting list gmap.
From Verif Require Import Entities Search SpecSearch ProofSearch ProofEngines Properties_Search Trace Properties_Trace.
Open Scope Z_scope.

(** ** One intersection *)

Lemma slice_get_lt {A} (l : list A) (i : Z) : 0 <= i < Z.of_nat (length l) -> exists x, slice_get l i = Ok x.
Proof.
  intros H. unfold slice_get. rewrite (proj2 (Z.ltb_ge i 0)) by lia.
  destruct (lookup_lt_is_Some_2 l (Z.to_nat i)) as [x ->]; [lia|by exists x].
Qed.

Lemma loop_n fuel a b i j r n :
  0 <= i <= Z.of_nat (length a) -> 0 <= j <= Z.of_nat (length b) ->
  Z.of_nat (length a) - i + (Z.of_nat (length b) - j) <= Z.of_nat fuel ->
  exists r' k,
    intersection_loop_n fuel a b i j r n = Ok (r ++ r', (n + k)%nat) /\
    intersection_loop fuel a b i j r = Ok (r ++ r') /\
    Z.min (Z.of_nat (length a) - i) (Z.of_nat (length b) - j) <= Z.of_nat k /\
    Z.of_nat (k + length r') <= Z.of_nat (length a) - i + (Z.of_nat (length b) - j) /\
    Z.of_nat (length r') <= Z.min (Z.of_nat (length a) - i) (Z.of_nat (length b) - j) /\
    (length r' <= k)%nat.
Proof.
  revert i j r n. induction fuel as [|fuel IH]; intros i j r n Hi Hj Hf; cbn [intersection_loop_n intersection_loop].
  - rewrite (proj2 (Z.ltb_ge i _)) by lia. cbn [andb]. exists [], 0%nat. rewrite app_nil_r, Nat.add_0_r. cbn [length].
    repeat split; lia.
  - destruct (Z.ltb_spec i (Z.of_nat (length a))) as [Hia|Hia]; cbn [andb].
    2: { exists [], 0%nat. rewrite app_nil_r, Nat.add_0_r. cbn [length]. repeat split; lia. }
    destruct (Z.ltb_spec j (Z.of_nat (length b))) as [Hjb|Hjb].
    2: { exists [], 0%nat. rewrite app_nil_r, Nat.add_0_r. cbn [length]. repeat split; lia. }
    destruct (slice_get_lt a i) as [ai ->]; [lia|]. destruct (slice_get_lt b j) as [bj ->]; [lia|]. cbn [obind].
    destruct (ai <? bj); [|destruct (ai >? bj)].
    + destruct (IH (i + 1) j r (S n)) as (r' & k & -> & -> & H); [lia..|]. exists r', (S k).
      split_and!; [do 2 f_equal; lia|done|lia..].
    + destruct (IH i (j + 1) r (S n)) as (r' & k & -> & -> & H); [lia..|]. exists r', (S k).
      split_and!; [do 2 f_equal; lia|done|lia..].
    + destruct (IH (i + 1) (j + 1) (r ++ [ai]) (S n)) as (r' & k & -> & -> & H); [lia..|]. exists (ai :: r'), (S k).
      rewrite <- app_assoc. cbn [app length]. split_and!; [do 2 f_equal; lia|done|lia..].
Qed.

(** For arbitrary slices, sorted or not, the loop of intersection makes at least as
    many iterations as the shorter one has elements, and at most as many as both have
    together less the number of results; the slice it made at first is never too
    small. *)
Theorem C89_intersection :
  forall a b, exists r n,
    intersection_n a b = Ok (r, n) /\ go_intersection a b = Ok r /\
    (length a `min` length b <= n)%nat /\ (n + length r <= length a + length b)%nat /\
    (length r <= length a `min` length b)%nat /\ Z.of_nat (length r) <= intersection_cap a b.
Proof.
  intros a b. destruct (loop_n (length a + length b) a b 0 0 [] 0) as (r & n & H1 & H2 & H3 & H4 & H5 & _); [lia..|].
  exists r, n. split_and!; [done|done|lia..|]. unfold intersection_cap.
  destruct (Z.of_nat (length b) >? Z.of_nat (length a)) eqn:E; lia.
Qed.
Print Assumptions C89_intersection.

(** Both bounds are reached. *)
Example C89_intersection_example :
  intersection_n [1; 3; 5; 7] [3; 5; 8; 9] = Ok ([3; 5], 4%nat) /\
  intersection_n [1; 2; 3] [4; 5; 6] = Ok ([], 3%nat) /\
  intersection_n [1; 2; 3] [1; 2; 3] = Ok ([1; 2; 3], 3%nat) /\
  intersection_n [1; 3; 5] [2; 4; 5] = Ok ([5], 5%nat).
Proof. vm_compute. done. Qed.

(** ** LinearSearch *)

(** How many documents [t] is listed with. *)
Definition listed (ix : Indexer) (t : string) : nat := length (default [] (ix_Indexed ix t)).
(** The iterations of one intersection, the size of its result and the number of
    elements it reserves. *)
Definition iterations (p : list Z * list Z) : nat := match intersection_n p.1 p.2 with Ok (_, n) => n | Panic => 0%nat end.
Definition found (p : list Z * list Z) : nat := match go_intersection p.1 p.2 with Ok r => length r | Panic => 0%nat end.
Definition reserved (p : list Z * list Z) : nat := Z.to_nat (intersection_cap p.1 p.2).

Lemma linear_pairs_cost ix docs ts :
  (list_sum (map iterations (linear_pairs ix docs ts)) <= length docs + 2 * list_sum (map (listed ix) ts))%nat.
Proof.
  revert docs. induction ts as [|t ts IH]; intros docs; [cbn; lia|]. cbn [linear_pairs map list_sum foldr].
  unfold listed at 1. destruct (ix_Indexed ix t) as [l|]; cbn [default]; [|cbn; lia].
  cbn [map list_sum foldr]. unfold iterations at 1. cbn [fst snd].
  destruct (C89_intersection docs l) as (r & n & -> & -> & _ & H1 & H2 & _). unfold id.
  destruct (length r =? 0)%nat; [cbn; lia|]. specialize (IH r). unfold list_sum in *. lia.
Qed.

(** The README's O(T × D) for T tokens and D documents per token on average: the
    intersections of one LinearSearch make at most 2 × T × D iterations, whatever the
    Indexer answers.  (T × D is the number of documents of all tokens.) *)
Theorem C89_linear_time :
  forall ix ts,
    (list_sum (map iterations (intersections ix ts)) <= 2 * list_sum (map (listed ix) ts))%nat.
Proof.
  intros ix [|t ts]; [done|]. unfold intersections. cbn [map list_sum foldr]. unfold listed at 1.
  destruct (ix_Indexed ix t) as [l|]; cbn [default]; [|cbn; lia].
  pose proof (linear_pairs_cost ix l ts). unfold list_sum, id in *. lia.
Qed.
Print Assumptions C89_linear_time.

(** n documents "a", then one "b". *)
Lemma C89_pair n : n <> 0%nat ->
  let ix := indexer_of true (index_after "i" letters (replicate n (NewDocRequest "d" "a") ++ [NewDocRequest "e" "b"])) in
  ix_Indexed ix "a" = Some (map Z.of_nat (seq 0 n)) /\ ix_Indexed ix "b" = Some [Z.of_nat n].
Proof.
  intros Hn. set (reqs := replicate n (NewDocRequest "d" "a") ++ [NewDocRequest "e" "b"]). cbn zeta. cbn [indexer_of ix_Indexed].
  assert (Pa : positions letters "a" 0 reqs = map Z.of_nat (seq 0 n)).
  { unfold reqs. rewrite positions_app. cbn [positions]. change (contains letters (NewDocRequest "e" "b") "a") with false.
    cbn [app]. rewrite app_nil_r. assert (E : forall k, positions letters "a" (Z.of_nat k) (replicate n (NewDocRequest "d" "a")) = map Z.of_nat (seq k n)).
    { clear. induction n as [|n IH]; intros k; [done|]. cbn [replicate positions seq map].
      change (contains letters (NewDocRequest "d" "a") "a") with true. cbn [app]. f_equal. rewrite <- IH. f_equal. lia. }
    apply (E 0%nat). }
  assert (Pb : positions letters "b" 0 reqs = [Z.of_nat n]).
  { unfold reqs. rewrite positions_app, replicate_length. cbn [positions]. change (contains letters (NewDocRequest "e" "b") "b") with true.
    assert (E : forall k, positions letters "b" k (replicate n (NewDocRequest "d" "a")) = []).
    { clear. induction n as [|n IH]; intros k; [done|]. cbn [replicate positions].
      change (contains letters (NewDocRequest "d" "a") "b") with false. apply IH. }
    by rewrite E. }
  destruct (rep_Indexed letters reqs (index_after "i" letters reqs) true "a" ltac:(apply rep_index_after)) as [->|(_ & _ & E)].
  2: { rewrite Pa in E. by destruct n. }
  destruct (rep_Indexed letters reqs (index_after "i" letters reqs) true "b" ltac:(apply rep_index_after)) as [->|(_ & _ & E)].
  2: { by rewrite Pb in E. }
  by rewrite Pa, Pb.
Qed.

(** The README's O(I) of memory, for I the size of the intersections, is wrong: every
    intersection reserves as many elements as the longer of its arguments has. *)
Theorem C89_readme_space_refuted :
  ~ exists bound : nat -> nat,
      forall name tk reqs ts,
        let ix := indexer_of true (index_after name tk reqs) in
        (list_sum (map reserved (intersections ix ts)) <= bound (list_sum (map found (intersections ix ts))))%nat.
Proof.
  intros [bound H]. set (n := S (bound 0%nat)).
  set (reqs := replicate n (NewDocRequest "d" "a") ++ [NewDocRequest "e" "b"]).
  specialize (H "i" letters reqs ["a"; "b"]). cbn zeta in H.
  destruct (C89_pair n ltac:(done)) as [Ea Eb]. fold reqs in Ea, Eb. unfold intersections in H. rewrite Ea in H. cbn [linear_pairs] in H. rewrite Eb in H.
  set (l := map Z.of_nat (seq 0 n)) in *.
  assert (Hl : length l = n) by (unfold l; by rewrite map_length, seq_length).
  assert (Hi : go_intersection l [Z.of_nat n] = Ok []).
  { rewrite intersection_isect. f_equal. assert (Hlt : Forall (fun x => x < Z.of_nat n) l).
    { apply Forall_forall. intros x Hx. apply elem_of_list_fmap in Hx as (k & -> & Hk%elem_of_seq). lia. }
    clear -Hlt. induction Hlt as [|x l Hx Hl IH]; [done|]. rewrite isect_cons, (proj2 (Z.ltb_lt x _)) by done. done. }
  rewrite Hi in H. cbn [length Nat.eqb map list_sum foldr] in H. unfold found, reserved, intersection_cap in H. cbn [fst snd] in H.
  rewrite Hi, Hl in H. cbn [length] in H. destruct (_ >? _) eqn:E in H; cbn in H; lia.
Qed.
Print Assumptions C89_readme_space_refuted.

(** ** The table of HitsSearch *)

(** search_hits_search.go:52-76: HitsSearch keeps one entry for every hash of a document
    that contains at least one of the tokens, whether it is a result or not. *)
Lemma hit_docs_dom ix l m m' :
  ofold (hit_doc ix) m l = Ok m' ->
  forall h, is_Some (m' !! h) <-> is_Some (m !! h) \/ exists j d, j ∈ l /\ ix_Document ix j = Ok d /\ Hash d = h.
Proof.
  revert m. induction l as [|j l IH]; intros m; cbn [ofold].
  - intros [= <-] h. split; [by left|]. by intros [?|(? & ? & ?%elem_of_nil & _)].
  - unfold hit_doc at 1. destruct (ix_Document ix j) as [d|] eqn:Ed; cbn [obind]; [|done]. intros Hm h.
    assert (E : exists r, ofold (hit_doc ix) (<[Hash d := r]> m) l = Ok m') by (destruct (m !! Hash d); cbn [obind] in Hm; eauto).
    destruct E as [r Hr]. rewrite (IH _ Hr h), lookup_insert_is_Some'. split.
    + intros [[<-|?]|(j' & d' & Hj & ? & ?)]; [right; exists j, d; split_and!; [left|done..]|by left|].
      right. exists j', d'. split_and!; [by right|done..].
    + intros [?|(j' & d' & Hj & Hd' & Hh)]; [left; by right|]. apply elem_of_cons in Hj as [->|Hj].
      * left. left. congruence.
      * right. by exists j', d'.
Qed.

Theorem C89_hits_table :
  forall ix ts m,
    ofold (hit_token ix) ∅ ts = Ok m ->
    forall h, is_Some (m !! h) <->
      exists t j d, t ∈ ts /\ j ∈ default [] (ix_Indexed ix t) /\ ix_Document ix j = Ok d /\ Hash d = h.
Proof.
  intros ix ts m.
  assert (H : forall ts m0, ofold (hit_token ix) m0 ts = Ok m -> forall h, is_Some (m !! h) <-> is_Some (m0 !! h) \/
      exists t j d, t ∈ ts /\ j ∈ default [] (ix_Indexed ix t) /\ ix_Document ix j = Ok d /\ Hash d = h).
  { clear ts. induction ts as [|t ts IH]; intros m0; cbn [ofold].
    - intros [= <-] h. split; [by left|]. by intros [?|(? & ? & ? & ?%elem_of_nil & _)].
    - unfold hit_token at 1. intros Hm h.
      assert (E : exists m1, ofold (hit_token ix) m1 ts = Ok m /\ (is_Some (m1 !! h) <-> is_Some (m0 !! h) \/
        exists j d, j ∈ default [] (ix_Indexed ix t) /\ ix_Document ix j = Ok d /\ Hash d = h)).
      { destruct (ix_Indexed ix t) as [l|]; cbn [default obind] in *.
        - destruct (ofold (hit_doc ix) m0 l) as [m1|] eqn:E1; cbn [obind] in Hm; [|done]. exists m1. split; [done|]. by eapply hit_docs_dom.
        - exists m0. split; [done|]. split; [by left|]. by intros [?|(? & ? & ?%elem_of_nil & _)]. }
      destruct E as (m1 & Hm1 & E). rewrite (IH _ Hm1 h), E. split.
      + intros [[?|(j & d & ?)]|(t' & j & d & Ht & ?)]; [by left|right; exists t, j, d; split; [left|done]|].
        right. exists t', j, d. split; [by right|done].
      + intros [?|(t' & j & d & Ht & ?)]; [left; by left|]. apply elem_of_cons in Ht as [->|Ht]; [left; right; eauto|].
        right. by exists t', j, d. }
  intros Hm h. rewrite (H _ _ Hm h), lookup_empty. split; [intros [[? ?]|?]; done|by right].
Qed.
Print Assumptions C89_hits_table.

(** No result, four entries. *)
Example C89_hits_example :
  let ix := indexer_of true (index_after "i" letters
    [NewDocRequest "1" "a"; NewDocRequest "2" "b"; NewDocRequest "3" "a"; NewDocRequest "4" "b"]) in
  HitsSearch insertion_sort ["a"; "b"] ix = Ok [] /\
  exists m, ofold (hit_token ix) ∅ ["a"; "b"] = Ok m /\ size m = 4%nat.
Proof. split; [by vm_compute|]. eexists. split; [by vm_compute|by vm_compute]. Qed.

Example C89_linear_example :
  let ix := indexer_of true (index_after "i" letters ex_reqs) in
  intersections ix ["a"; "b"; "c"] = [([0; 2], [0; 1; 2]); ([0; 2], [1; 2])] /\
  list_sum (map iterations (intersections ix ["a"; "b"; "c"])) = 6%nat /\
  list_sum (map (listed ix) ["a"; "b"; "c"]) = 7%nat.
Proof. vm_compute. done. Qed.

(** ** These are the intersections LinearSearch makes *)
Lemma fetch_length ix js n acc rs :
  ofold (fun results docIndex => obind (ix_Document ix docIndex) (fun doc => Ok (results ++ [MkSR doc n]))) acc js = Ok rs ->
  length rs = (length acc + length js)%nat.
Proof.
  revert acc. induction js as [|j js IH]; intros acc; cbn [ofold].
  - intros [= ->]. cbn. lia.
  - destruct (ix_Document ix j); cbn [obind]; [|done]. intros H. rewrite (IH _ H), app_length. cbn. lia.
Qed.

Theorem C89_same_search :
  forall ix t ts rs,
    LinearSearch (t :: ts) ix = Ok rs -> rs <> [] ->
    length (intersections ix (t :: ts)) = length ts /\
    match last (intersections ix (t :: ts)) with Some p => found p | None => listed ix t end = length rs.
Proof.
  intros ix t ts rs Hs Hne. unfold intersections, listed. unfold LinearSearch in Hs.
  destruct (ix_Indexed ix t) as [docs|]; [|by simplify_eq]. cbn [default]. unfold id.
  destruct (linear_loop_Ok ix ts docs) as [[js|] El]; rewrite El in Hs; cbn [obind] in Hs; [|by simplify_eq].
  apply fetch_length in Hs. cbn [length Nat.add] in Hs. rewrite Hs. clear Hs Hne.
  revert docs El. induction ts as [|t' ts IH]; intros docs; cbn [linear_loop linear_pairs].
  - intros [= ->]. done.
  - destruct (ix_Indexed ix t') as [l|]; [|done].
    destruct (C89_intersection docs l) as (r & n & _ & Hr & _). rewrite Hr. cbn [obind].
    destruct (length r =? 0)%nat; [done|]. intros El. destruct (IH _ El) as [E1 E2]. split; [cbn [length]; by rewrite E1|].
    destruct (linear_pairs ix r ts) as [|p ps]; [cbn [last] in *|].
    2: { rewrite last_cons_cons. destruct (last (p :: ps)) eqn:Ep; [done|by apply last_None in Ep]. }
    unfold found. cbn [fst snd]. by rewrite Hr.
Qed.
Print Assumptions C89_same_search.
