(** * C01 and C03 as a caller reads them, through the accessors of a result
    (search_result.go:11-22: [GetDoc], [GetHits] and [Doc]) rather than through its
    fields; and C17 for the MIME type and for HitsSearch. *)
From Coq Require Import Lia.
From stdpp Require Import sorting.
From Verif Require Import Entities Search SpecSearch ProofSearch ProofEngines ProofHits
  Properties_Search.
Open Scope Z_scope.

(** The three readings of a result that a caller can take. *)
Definition reading (x : SearchResult) : (string * string) * (string * string) * Z :=
  ((doc_ID (GetDoc x), doc_Raw (GetDoc x)), (doc_ID (sr_Doc x), doc_Raw (sr_Doc x)), GetHits x).

(** The same of a document put, with a count. *)
Definition expected (n : Z) (r : DocRequest) : (string * string) * (string * string) * Z :=
  ((req_Name r, req_Content r), (req_Name r, req_Content r), n).

(** LinearSearch: read through either accessor, the results are the name and
    content of the matching documents, in the order they were put. *)
Theorem C01_read_through_accessors :
  forall (ckn : bool) (name : string) (tk : Tokenizer) (reqs : list DocRequest) (q : string),
    tk q <> [] ->
    exists res,
      mi_Search ckn (index_after name tk reqs) q LinearSearch = Ok res /\
      map reading res =
      map (expected (Z.of_nat (length (tk q))))
          (filter (fun r => Forall (fun t => t ∈ tk (req_statement r)) (tk q)) reqs).
Proof.
  intros ckn name tk reqs q Hq. eexists. split; [apply C01_linear_search_exact|].
  unfold and_search. destruct (tk q) as [|t ts]; [done|].
  rewrite map_map. erewrite (list_filter_iff _ _ reqs); [reflexivity|].
  intros r. unfold contains_all, contains. rewrite forallb_forall, Forall_forall. split.
  - intros H u Hu. apply elem_of_list_In, H, bool_decide_eq_true in Hu. done.
  - intros H u Hu. apply elem_of_list_In, H in Hu. by apply bool_decide_eq_true.
Qed.
Print Assumptions C01_read_through_accessors.

(** HitsSearch: whatever the documents and however the rows are sorted, a
    caller only ever reads documents that were put, both accessors agree, and
    the count read is at least the number of tokens asked for. *)
Theorem C03_read_through_accessors :
  forall (ckn : bool) srt (name : string) (tk : Tokenizer) (reqs : list DocRequest) (q : string),
    sort_contract srt ->
    exists res,
      mi_Search ckn (index_after name tk reqs) q (HitsSearch srt) = Ok res /\
      forall x, x ∈ res ->
        exists r n, r ∈ reqs /\ reading x = expected n r /\ Z.of_nat (length (tk q)) <= n.
Proof.
  intros ckn srt name tk reqs q Hs. eexists. split; [apply C03_hits_search_general|].
  intros x Hx. destruct (Hs (hits_rows tk reqs (tk q))) as [Hp _].
  rewrite Hp in Hx. unfold hits_rows in Hx.
  apply elem_of_list_In, in_flat_map in Hx as (r & Hr & Hx). unfold hits_row in Hx.
  destruct (group_first _ _ _ _) as [r0|] eqn:E; [|inversion Hx].
  destruct (_ <=? _)%nat eqn:L; [|inversion Hx]. destruct Hx as [<-|[]].
  exists r0. eexists. split; [|split; [reflexivity|]].
  - unfold group_first in E. apply head_Some_elem_of in E.
    apply elem_of_list_In, in_flat_map in E as (t & _ & E).
    by apply elem_of_list_In, elem_of_list_filter in E as [_ E].
  - apply Nat.leb_le in L. apply Nat2Z.inj_le, L.
Qed.
Print Assumptions C03_read_through_accessors.

(** Two of the three documents match, and are read with their own contents. *)
Example C01_read_example :
  letters "b a" <> [] /\
  exists res,
    mi_Search true (index_after "idx" letters ex_reqs) "b a" LinearSearch = Ok res /\
    map reading res = [(("z", "a b"), ("z", "a b"), 2); (("a", "c b a"), ("a", "c b a"), 2)].
Proof. split; [done|]. eexists. split; reflexivity. Qed.

(** And best first, by HitsSearch. *)
Example C03_read_example :
  sort_contract insertion_sort /\
  exists res,
    mi_Search true (index_after "idx" letters ex_reqs) "b a" (HitsSearch insertion_sort) = Ok res /\
    map reading res = [(("a", "c b a"), ("a", "c b a"), 2); (("z", "a b"), ("z", "a b"), 2)].
Proof.
  split; [apply insertion_sort_contract|].
  eexists. split; vm_compute; reflexivity.
Qed.

(** ** C17: what is indexed and ranked is the name and the statement *)

(** The same document with another content and another MIME type. *)
Definition relabel (content : DocRequest -> string) (mime : DocRequest -> MimeType) (r : DocRequest)
  : DocRequest := MkDocRequest (req_Name r) (content r) (req_statement r) (mime r).

(** The MIME type given with a document changes nothing: the index is the same
    one, so every engine, also one written by the caller, answers the same. *)
Theorem C17_mime_is_ignored :
  forall (ckn : bool) (name : string) (tk : Tokenizer) (reqs : list DocRequest)
         (mime : DocRequest -> MimeType) (q : string) (e : Engine),
    mi_Search ckn (index_after name tk (map (relabel req_Content mime) reqs)) q e =
    mi_Search ckn (index_after name tk reqs) q e.
Proof.
  intros ckn name tk reqs mime q e.
  assert (forall mi, fold_left Put (map (relabel req_Content mime) reqs) mi = fold_left Put reqs mi) as H.
  { induction reqs as [|r reqs IH]; intros mi; [done|]. simpl. by rewrite IH. }
  unfold index_after. by rewrite H.
Qed.
Print Assumptions C17_mime_is_ignored.

(** ID and hits of a result. *)
Definition ranked_as (x : SearchResult) : string * Z := (doc_ID (sr_Doc x), GetHits x).

Definition blank (x : SearchResult) : SearchResult := MkSR (MkDoc (doc_Name (sr_Document x)) "") (sr_Hits x).

Lemma sift_down_blank x l : map blank (sift_down x l) = sift_down (blank x) (map blank l).
Proof.
  induction l as [|y l IH]; [done|]. simpl.
  change (Less (blank x) (blank y)) with (Less x y).
  destruct (Less x y); simpl; [by rewrite IH|done].
Qed.

Lemma insertion_sort_blank l : map blank (insertion_sort l) = insertion_sort (map blank l).
Proof.
  unfold insertion_sort. rewrite map_rev. f_equal.
  assert (forall acc, map blank (fold_left (fun acc x => sift_down x acc) l acc) =
                      fold_left (fun acc x => sift_down x acc) (map blank l) (map blank acc)) as H; [|apply H].
  induction l as [|x l IH]; intros acc; [done|]. simpl. by rewrite IH, sift_down_blank.
Qed.

Lemma filter_relabel c m (P Q : DocRequest -> Prop) `{forall r, Decision (P r)} `{forall r, Decision (Q r)} reqs :
  (forall r, P (relabel c m r) <-> Q r) ->
  filter P (map (relabel c m) reqs) = map (relabel c m) (filter Q reqs).
Proof.
  intros HPQ. induction reqs as [|r reqs IH]; [done|]. simpl. rewrite !filter_cons.
  destruct (decide (P (relabel c m r))), (decide (Q r)); simpl; rewrite ?IH; try done;
    exfalso; naive_solver.
Qed.

Lemma group_first_relabel c m tk reqs ts key :
  group_first tk (map (relabel c m) reqs) ts key = relabel c m <$> group_first tk reqs ts key.
Proof.
  unfold group_first.
  assert (forall l, head (map (relabel c m) l) = relabel c m <$> head l) as Hh by (by intros []).
  rewrite <- Hh. f_equal.
  induction ts as [|t ts IH]; [done|]. simpl. rewrite IH, map_app. f_equal.
  by apply filter_relabel.
Qed.

Lemma group_hits_relabel c m tk reqs ts key :
  group_hits tk (map (relabel c m) reqs) ts key = group_hits tk reqs ts key.
Proof.
  unfold group_hits. f_equal. apply map_ext. intros t.
  erewrite filter_relabel; [apply map_length|]. done.
Qed.

Lemma hits_rows_relabel c m tk reqs ts :
  map blank (hits_rows tk (map (relabel c m) reqs) ts) = map blank (hits_rows tk reqs ts).
Proof.
  unfold hits_rows.
  assert (forall l, map blank (flat_map (hits_row tk (map (relabel c m) reqs) ts) (map (relabel c m) l)) =
                    map blank (flat_map (hits_row tk reqs ts) l)) as H; [|apply H].
  induction l as [|r l IH]; [done|]. simpl. rewrite !map_app, IH. f_equal.
  unfold hits_row. change (req_Name (relabel c m r)) with (req_Name r).
  rewrite group_first_relabel, group_hits_relabel.
  destruct (group_first _ _ _ _); simpl; [|done]. by destruct (_ <=? _)%nat.
Qed.

(** Neither content nor MIME type takes part in the ranking of HitsSearch: with
    others, the same IDs come in the same places with the same counts, also when
    names repeat or collide, and whichever sorting functions are used. *)
Theorem C17_ranking_ignores_content :
  forall (ckn : bool) srt1 srt2 (name : string) (tk : Tokenizer) (reqs : list DocRequest)
         (content : DocRequest -> string) (mime : DocRequest -> MimeType) (q : string),
    sort_contract srt1 -> sort_contract srt2 ->
    exists res1 res2,
      mi_Search ckn (index_after name tk reqs) q (HitsSearch srt1) = Ok res1 /\
      mi_Search ckn (index_after name tk (map (relabel content mime) reqs)) q (HitsSearch srt2) = Ok res2 /\
      map ranked_as res1 = map ranked_as res2.
Proof.
  intros ckn srt1 srt2 name tk reqs c m q H1 H2.
  rewrite (C05_order_determined ckn srt1 insertion_sort), (C05_order_determined ckn srt2 insertion_sort)
    by (done || apply insertion_sort_contract).
  rewrite !C03_hits_search_general. do 2 eexists. split; [done|]. split; [done|].
  assert (forall l, map ranked_as l = map ranked_as (map blank l)) as Hb.
  { intros l. rewrite map_map. by apply map_ext. }
  rewrite Hb, (Hb (insertion_sort (hits_rows _ (map _ _) _))), !insertion_sort_blank.
  by rewrite hits_rows_relabel.
Qed.
Print Assumptions C17_ranking_ignores_content.

(** Three documents, two of them with the same name; other contents are reported,
    in the same places. *)
Example C17_ranking_example :
  let reqs := [NewDocRequestWith "m" "1" "a b"; NewDocRequestWith "m" "2" "b"; NewDocRequestWith "c" "3" "a b"] in
  let run := fun rs => mi_Search true (index_after "idx" letters rs) "a b" (HitsSearch insertion_sort) in
  exists res1 res2,
    run reqs = Ok res1 /\ run (map (relabel req_statement (fun _ => MimeJSON)) reqs) = Ok res2 /\
    res1 <> res2 /\
    map ranked_as res1 = [("m", 3); ("m", 3); ("c", 2)] /\ map ranked_as res2 = map ranked_as res1.
Proof. do 2 eexists. split; [vm_compute; reflexivity|]. split; [vm_compute; reflexivity|]. done. Qed.
