(** * Properties C01-C17: index, engines, ranking, hashing. *)
From Coq Require Import Lia ZifyBool ZifyNat ZifyN.
From stdpp Require Import sorting.
From Verif Require Import Entities Search SpecSearch ProofSearch ProofEngines ProofHits.
Open Scope Z_scope.

(** ** Concrete material for the examples *)

(** A toy tokenizer: every byte except the space is a token. *)
Definition letters : Tokenizer := fun s =>
  flat_map (fun c => if Ascii.eqb c " "%char then [] else [String c EmptyString])
           (list_ascii_of_string s).

Definition ex_reqs : list DocRequest :=
  [NewDocRequest "z" "a b"; NewDocRequest "m" "b c"; NewDocRequest "a" "c b a"].

(** Two printable eleven-byte IDs with the same FNV-1 64 hash. *)
Definition collide1 : string := "GwUyR13X335".
Definition collide2 : string := "siHSK4LlCE3".

(** ** The sorting contract can be met *)
Lemma Less_asym x y : Less x y = true -> Less y x = false.
Proof.
  intros H. destruct (Less y x) eqn:E; [|done].
  rewrite <- (Less_irrefl x). symmetry. by eapply Less_trans.
Qed.

Lemma Less_negtrans x y z : Less x y = false -> Less y z = false -> Less x z = false.
Proof.
  intros H1 H2. destruct (Less x z) eqn:E; [|done]. exfalso.
  destruct (Less y x) eqn:E1.
  - rewrite (Less_trans y x z) in H2; done.
  - destruct (Less_incomparable x y H1 E1) as [Hh Hn].
    unfold Less, doc_ID in *. rewrite <- Hh, <- Hn in H2. congruence.
Qed.

Lemma sift_down_perm x l : sift_down x l ≡ₚ x :: l.
Proof.
  induction l as [|y l IH]; simpl; [done|]. destruct (Less x y); [|done].
  rewrite IH. constructor.
Qed.

Lemma sift_down_sorted x l :
  StronglySorted (fun a b => Less a b = false) l ->
  StronglySorted (fun a b => Less a b = false) (sift_down x l).
Proof.
  induction 1 as [|y l Hs IH Hf]; simpl.
  - repeat constructor.
  - destruct (Less x y) eqn:E.
    + constructor; [done|]. apply Forall_forall. intros z Hz.
      rewrite sift_down_perm in Hz. apply elem_of_cons in Hz as [->|Hz].
      * by apply Less_asym.
      * rewrite Forall_forall in Hf. by apply Hf.
    + constructor; [by constructor|]. constructor; [done|].
      eapply Forall_impl; [exact Hf|]. intros z Hz. simpl in Hz. by eapply Less_negtrans.
Qed.

Lemma StronglySorted_rev {A} (R : A -> A -> Prop) l :
  StronglySorted R l -> StronglySorted (fun a b => R b a) (rev l).
Proof.
  rewrite !StronglySorted_lookup. intros H i j x y Hij Hi Hj.
  rewrite rev_alt in Hi, Hj.
  apply reverse_lookup_Some in Hi as [Hi Hi']. apply reverse_lookup_Some in Hj as [Hj Hj'].
  eapply H; [|exact Hj|exact Hi]. lia.
Qed.

Theorem insertion_sort_contract : sort_contract insertion_sort.
Proof.
  intros l. unfold insertion_sort.
  assert (H : forall l acc, StronglySorted (fun a b => Less a b = false) acc ->
     fold_left (fun acc x => sift_down x acc) l acc ≡ₚ l ++ acc /\
     StronglySorted (fun a b => Less a b = false) (fold_left (fun acc x => sift_down x acc) l acc)).
  { clear l. induction l as [|x l IH]; intros acc Hacc; [done|]. cbn [fold_left].
    destruct (IH (sift_down x acc)) as [IH1 IH2]; [by apply sift_down_sorted|].
    split; [|done]. rewrite IH1, sift_down_perm. simpl. by rewrite Permutation_middle. }
  destruct (H l []) as [HP HS]; [constructor|]. rewrite app_nil_r in HP. split.
  - rewrite <- Permutation_rev. done.
  - apply StronglySorted_lookup. by apply StronglySorted_rev in HS.
Qed.
Print Assumptions insertion_sort_contract.

(** ** C01 *)
Theorem C01_linear_search_exact :
  forall (ckn : bool) (name : string) (tk : Tokenizer) (reqs : list DocRequest) (q : string),
    mi_Search ckn (index_after name tk reqs) q LinearSearch = Ok (and_search tk reqs (tk q)).
Proof.
  intros. unfold mi_Search.
  replace (mi_tokenizer (index_after name tk reqs)) with tk.
  - apply Linear_rep, rep_index_after.
  - symmetry. apply (rep_index_after name tk reqs).
Qed.
Print Assumptions C01_linear_search_exact.

(** Membership form: which documents are returned. *)
Theorem C01_linear_search_members :
  forall (ckn : bool) (name : string) (tk : Tokenizer) (reqs : list DocRequest) (q : string) res x,
    mi_Search ckn (index_after name tk reqs) q LinearSearch = Ok res ->
    x ∈ res <->
    tk q <> [] /\
    exists r, r ∈ reqs /\ (forall t, t ∈ tk q -> t ∈ tk (req_statement r)) /\
      doc_Name (sr_Document x) = req_Name r /\ doc_Content (sr_Document x) = req_Content r /\
      sr_Hits x = Z.of_nat (length (tk q)).
Proof.
  intros ckn name tk reqs q res x. rewrite C01_linear_search_exact. intros [= <-].
  unfold and_search. destruct (tk q) as [|t ts] eqn:E.
  { split; [intros H; inversion H|]. intros [H _]. done. }
  rewrite elem_of_list_fmap. split.
  - intros (r & -> & Hr). apply elem_of_list_filter in Hr as [Hc Hr].
    split; [done|]. exists r. split; [done|]. split; [|done].
    intros t' Ht'. unfold contains_all in Hc. rewrite forallb_forall in Hc.
    apply elem_of_list_In in Ht'. apply Hc in Ht'. unfold contains in Ht'.
    by apply bool_decide_eq_true in Ht'.
  - intros [_ (r & Hr & Hc & H1 & H2 & H3)]. exists r. split.
    + destruct x as [[n c] h]. cbn in *. by subst.
    + apply elem_of_list_filter. split; [|done]. unfold contains_all. apply forallb_forall.
      intros t' Ht'. apply elem_of_list_In in Ht'. unfold contains. apply bool_decide_eq_true. auto.
Qed.
Print Assumptions C01_linear_search_members.

Example C01_example :
  mi_Search true (index_after "idx" letters ex_reqs) "b a" LinearSearch =
  Ok [MkSR (MkDoc "z" "a b") 2; MkSR (MkDoc "a" "c b a") 2].
Proof. reflexivity. Qed.

(** ** C02 *)
Theorem C02_hits_search_exact :
  forall (ckn : bool) srt (name : string) (tk : Tokenizer) (reqs : list DocRequest) (q : string),
    sort_contract srt ->
    NoDup (map (fun r => fnv64 (req_Name r)) reqs) ->
    exists res,
      mi_Search ckn (index_after name tk reqs) q (HitsSearch srt) = Ok res /\
      res ≡ₚ and_search tk reqs (tk q) /\
      (forall i j x y, (i < j)%nat -> res !! i = Some x -> res !! j = Some y ->
         id_lt (doc_Name (sr_Document x)) (doc_Name (sr_Document y))).
Proof.
  intros ckn srt name tk reqs q Hs Hd. unfold mi_Search.
  replace (mi_tokenizer (index_after name tk reqs)) with tk
    by (symmetry; apply (rep_index_after name tk reqs)).
  rewrite (Hits_rep srt tk reqs) by apply rep_index_after.
  rewrite hits_rows_distinct by done. eexists. split; [done|].
  destruct (Hs (and_search tk reqs (tk q))) as [HP HO]. split; [done|].
  intros i j x y Hij Hi Hj. specialize (HO _ _ _ _ Hij Hi Hj).
  assert (Hh : forall z, z ∈ srt (and_search tk reqs (tk q)) -> sr_Hits z = Z.of_nat (length (tk q))).
  { intros z Hz. rewrite HP in Hz. unfold and_search in Hz. destruct (tk q) as [|t ts]; [inversion Hz|].
    apply elem_of_list_fmap in Hz as (r & -> & _). done. }
  pose proof (Hh x ltac:(by eapply elem_of_list_lookup_2)) as Hx.
  pose proof (Hh y ltac:(by eapply elem_of_list_lookup_2)) as Hy.
  unfold Less, doc_ID in HO. rewrite Hx, Hy, Z.eqb_refl in HO. cbn [negb] in HO.
  apply not_lt_id_le in HO as [He|Hlt]; [|done]. exfalso.
  assert (Hnd : NoDup (map (fun x => doc_Name (sr_Document x)) (srt (and_search tk reqs (tk q))))).
  { rewrite HP. apply and_search_ids. by apply distinct_hashes_ids. }
  enough (i = j) by lia.
  apply (NoDup_lookup _ i j (doc_Name (sr_Document x)) Hnd).
  - rewrite list_lookup_fmap, Hi. done.
  - rewrite list_lookup_fmap, Hj. cbn. by rewrite He.
Qed.
Print Assumptions C02_hits_search_exact.

Example C02_example :
  sort_contract insertion_sort /\
  NoDup (map (fun r => fnv64 (req_Name r)) ex_reqs) /\
  mi_Search true (index_after "idx" letters ex_reqs) "b a" (HitsSearch insertion_sort) =
  Ok [MkSR (MkDoc "a" "c b a") 2; MkSR (MkDoc "z" "a b") 2].
Proof.
  split; [apply insertion_sort_contract|]. split; [|vm_compute; reflexivity].
  apply (bool_decide_unpack _). vm_compute. exact I.
Qed.

(** ** C03 *)
Theorem C03_hits_search_general :
  forall (ckn : bool) srt (name : string) (tk : Tokenizer) (reqs : list DocRequest) (q : string),
    mi_Search ckn (index_after name tk reqs) q (HitsSearch srt) =
    Ok (srt (hits_rows tk reqs (tk q))).
Proof.
  intros. unfold mi_Search.
  replace (mi_tokenizer (index_after name tk reqs)) with tk
    by (symmetry; apply (rep_index_after name tk reqs)).
  apply Hits_rep, rep_index_after.
Qed.
Print Assumptions C03_hits_search_general.

(** The AND logic promised by the README fails for repeated IDs: a result is
    returned for a query whose tokens occur together in no document. *)
Theorem C03_and_logic_refuted :
  exists (tk : Tokenizer) (reqs : list DocRequest) (q : string) (res : list SearchResult),
    mi_Search true (index_after "idx" tk reqs) q (HitsSearch insertion_sort) = Ok res /\
    res <> [] /\
    forall r, r ∈ reqs -> ~ (forall t, t ∈ tk q -> t ∈ tk (req_statement r)).
Proof.
  exists letters, [NewDocRequest "x" "a"; NewDocRequest "x" "b"], "a b"%string.
  eexists. split; [vm_compute; reflexivity|]. split; [done|].
  intros r Hr Hall. repeat (apply elem_of_cons in Hr as [->|Hr]); [| |inversion Hr].
  - specialize (Hall "b"%string ltac:(vm_compute; apply elem_of_list_In; simpl; auto)).
    revert Hall. apply (bool_decide_unpack _). vm_compute. exact I.
  - specialize (Hall "a"%string ltac:(vm_compute; apply elem_of_list_In; simpl; auto)).
    revert Hall. apply (bool_decide_unpack _). vm_compute. exact I.
Qed.
Print Assumptions C03_and_logic_refuted.

(** ** C04 *)
Theorem C04_engines_agree :
  forall (ckn : bool) srt (name : string) (tk : Tokenizer) (reqs : list DocRequest) (q : string),
    sort_contract srt ->
    NoDup (map (fun r => fnv64 (req_Name r)) reqs) ->
    exists rl rh,
      mi_Search ckn (index_after name tk reqs) q LinearSearch = Ok rl /\
      mi_Search ckn (index_after name tk reqs) q (HitsSearch srt) = Ok rh /\
      rh ≡ₚ rl.
Proof.
  intros. rewrite C01_linear_search_exact.
  destruct (C02_hits_search_exact ckn srt name tk reqs q) as (res & H1 & H2 & _); [done|done|].
  eauto.
Qed.
Print Assumptions C04_engines_agree.

(** ** C05 *)
Theorem C05_order_determined :
  forall (ckn : bool) srt1 srt2 (name : string) (tk : Tokenizer) (reqs : list DocRequest) (q : string),
    sort_contract srt1 -> sort_contract srt2 ->
    mi_Search ckn (index_after name tk reqs) q (HitsSearch srt1) =
    mi_Search ckn (index_after name tk reqs) q (HitsSearch srt2).
Proof.
  intros. rewrite !C03_hits_search_general. f_equal. by apply hits_sort_unique.
Qed.
Print Assumptions C05_order_determined.

Theorem C05_order_is_hits_then_id :
  forall (ckn : bool) srt (name : string) (tk : Tokenizer) (reqs : list DocRequest) (q : string) res i j x y,
    sort_contract srt ->
    mi_Search ckn (index_after name tk reqs) q (HitsSearch srt) = Ok res ->
    (i < j)%nat -> res !! i = Some x -> res !! j = Some y ->
    sr_Hits y < sr_Hits x \/
    (sr_Hits x = sr_Hits y /\ id_le (doc_Name (sr_Document x)) (doc_Name (sr_Document y))).
Proof.
  intros ckn srt name tk reqs q res i j x y Hs. rewrite C03_hits_search_general. intros [= <-] Hij Hi Hj.
  destruct (Hs (hits_rows tk reqs (tk q))) as [_ HO]. specialize (HO _ _ _ _ Hij Hi Hj).
  unfold Less, doc_ID in HO. destruct (Z.eqb_spec (sr_Hits y) (sr_Hits x)) as [He|Hne]; cbn [negb] in HO.
  - right. split; [done|]. by apply not_lt_id_le.
  - left. lia.
Qed.
Print Assumptions C05_order_is_hits_then_id.

(** The README and the doc comment promise "document order" for ties. *)
Theorem C05_ties_by_document_order_refuted :
  exists (tk : Tokenizer) (reqs : list DocRequest) (q : string) r1 r2,
    reqs = [r1; r2] /\
    forall srt, sort_contract srt ->
      mi_Search true (index_after "idx" tk reqs) q (HitsSearch srt) =
      Ok [MkSR (doc_of r2) 1; MkSR (doc_of r1) 1].
Proof.
  exists letters, [NewDocRequest "b" "x"; NewDocRequest "a" "x"], "x"%string.
  do 2 eexists. split; [done|]. intros srt Hs.
  rewrite (C05_order_determined _ _ insertion_sort) by (done || apply insertion_sort_contract).
  vm_compute. reflexivity.
Qed.
Print Assumptions C05_ties_by_document_order_refuted.

(** ** C06 *)
Theorem C06_less_strict_weak_order :
  (forall x, Less x x = false) /\
  (forall x y z, Less x y = true -> Less y z = true -> Less x z = true) /\
  (forall x y, (Less x y = false /\ Less y x = false) <->
               (sr_Hits x = sr_Hits y /\ doc_Name (sr_Document x) = doc_Name (sr_Document y))) /\
  (forall x y, Less x y = true <->
     sr_Hits y < sr_Hits x \/
     (sr_Hits x = sr_Hits y /\ id_lt (doc_Name (sr_Document x)) (doc_Name (sr_Document y)))).
Proof.
  split; [apply Less_irrefl|]. split; [apply Less_trans|]. split.
  - intros x y. split; [intros [? ?]; by apply Less_incomparable|].
    intros [Hh Hn]. unfold Less, doc_ID. rewrite Hh, Hn, Z.eqb_refl. cbn [negb].
    split; apply go_string_lt_irrefl.
  - intros x y. unfold Less, doc_ID. destruct (Z.eqb_spec (sr_Hits x) (sr_Hits y)) as [He|Hne]; cbn [negb].
    + rewrite go_string_lt_spec. split; [auto|]. intros [?|[_ ?]]; [lia|done].
    + rewrite Z.gtb_lt. split; [auto|]. intros [?|[? _]]; [done|lia].
Qed.
Print Assumptions C06_less_strict_weak_order.

Example C06_example :
  Less (MkSR (MkDoc "b" "") 3) (MkSR (MkDoc "a" "") 2) = true /\
  Less (MkSR (MkDoc "a" "1") 2) (MkSR (MkDoc "b" "2") 2) = true /\
  Less (MkSR (MkDoc "b" "2") 2) (MkSR (MkDoc "a" "1") 2) = false.
Proof. done. Qed.

(** ** C07 *)
Theorem C07_reput_hits :
  forall (ckn : bool) srt (name : string) (tk : Tokenizer) (reqs : list DocRequest) (q t id : string),
    sort_contract srt ->
    tk q = [t] ->
    (forall r, r ∈ reqs -> fnv64 (req_Name r) = fnv64 id -> req_Name r = id) ->
    exists res,
      mi_Search ckn (index_after name tk reqs) q (HitsSearch srt) = Ok res /\
      filter (fun x => doc_Name (sr_Document x) = id) res =
      match filter (fun r => req_Name r = id /\ t ∈ tk (req_statement r)) reqs with
      | [] => []
      | oldest :: newer =>
          replicate (length (filter (fun r => req_Name r = id) reqs))
                    (MkSR (doc_of oldest) (1 + Z.of_nat (length newer)))
      end.
Proof.
  intros ckn srt name tk reqs q t id Hs Ht Hnc. rewrite C03_hits_search_general.
  eexists. split; [done|]. rewrite Ht.
  pose proof (hits_rows_versions tk reqs t id Hnc) as Hv.
  rewrite (list_filter_iff _ (fun r => req_Name r = id /\ t ∈ tk (req_statement r))) in Hv.
  2:{ intros r. unfold contains. by rewrite bool_decide_eq_true. }
  destruct (Hs (hits_rows tk reqs [t])) as [HP _].
  assert (HPf : filter (fun x => doc_Name (sr_Document x) = id) (srt (hits_rows tk reqs [t])) ≡ₚ
                filter (fun x => doc_Name (sr_Document x) = id) (hits_rows tk reqs [t])) by (by rewrite HP).
  rewrite Hv in HPf. destruct (filter _ reqs) as [|oldest newer].
  - by apply Permutation_nil_r in HPf.
  - replace (1 + Z.of_nat (length newer)) with (Z.of_nat (S (length newer))) by lia.
    symmetry. by apply replicate_Permutation.
Qed.
Print Assumptions C07_reput_hits.

(** The other engines list every version. *)
Theorem C07_reput_appends :
  forall (ckn : bool) (name : string) (tk : Tokenizer) (reqs : list DocRequest) (q : string) r,
    (exists l, mi_Search ckn (index_after name tk reqs) q NoopAllSearch = Ok l /\
       mi_Search ckn (index_after name tk (reqs ++ [r])) q NoopAllSearch =
       Ok (l ++ [MkSR (MkDoc (req_Name r) (req_Content r)) 0])) /\
    (exists l, mi_Search ckn (index_after name tk reqs) q LinearSearch = Ok l /\
       (tk q <> [] -> (forall t, t ∈ tk q -> t ∈ tk (req_statement r)) ->
        mi_Search ckn (index_after name tk (reqs ++ [r])) q LinearSearch =
        Ok (l ++ [MkSR (MkDoc (req_Name r) (req_Content r)) (Z.of_nat (length (tk q)))]))).
Proof.
  intros. split.
  - unfold mi_Search. rewrite (NoopAll_rep tk reqs) by apply rep_index_after. eexists. split; [done|].
    rewrite (NoopAll_rep tk (reqs ++ [r])) by apply rep_index_after. by rewrite map_app.
  - rewrite !C01_linear_search_exact. eexists. split; [done|]. intros Hne Hall.
    rewrite and_search_put, bool_decide_false by done. cbn [negb andb].
    replace (contains_all tk (tk q) r) with true; [done|].
    symmetry. unfold contains_all. apply forallb_forall. intros t Ht.
    apply bool_decide_eq_true. apply Hall. by apply elem_of_list_In.
Qed.
Print Assumptions C07_reput_appends.

Example C07_example :
  mi_Search true (index_after "idx" letters
     [NewDocRequest "x" "a old"; NewDocRequest "x" "a new"]) "a" (HitsSearch insertion_sort)
  = Ok [MkSR (MkDoc "x" "a old") 2; MkSR (MkDoc "x" "a old") 2].
Proof. vm_compute. reflexivity. Qed.

(** ** C08 *)
(** FNV-1 written as a recursion on the reversed byte list, independent of the
    loop: hash(s . b) = (hash(s) * prime mod 2^64) xor b. *)
Fixpoint fnv1_rev (rbytes : list N) : N :=
  match rbytes with
  | [] => 0xcbf29ce484222325%N
  | b :: s => N.lxor ((fnv1_rev s * 0x100000001b3) mod 2 ^ 64) b
  end.

Theorem C08_hash_is_fnv1 :
  forall id content, Hash (NewDoc id content) = fnv1_rev (rev (bytes_of id)) /\
                     (Hash (NewDoc id content) < 2 ^ 64)%N.
Proof.
  intros id content. unfold Hash, doc_ID. cbn [doc_Name NewDoc]. split; [|apply fnv64_lt].
  unfold fnv64.
  assert (H : forall l l0, fold_left fnv_step l (fnv1_rev l0) = fnv1_rev (rev l ++ l0)).
  { induction l as [|b l IH]; intros l0; [done|]. cbn [fold_left rev].
    rewrite <- app_assoc. cbn [app]. rewrite <- IH. done. }
  specialize (H (bytes_of id) []). rewrite app_nil_r in H. exact H.
Qed.
Print Assumptions C08_hash_is_fnv1.

(** Published FNV-1 64 test vectors. *)
Example C08_vectors :
  fnv64 "" = 0xcbf29ce484222325%N /\ fnv64 "a" = 0xaf63bd4c8601b7be%N /\
  fnv64 "foobar" = 0x340d8765a4dda9c2%N.
Proof. vm_compute. done. Qed.

(** ** C09 *)
Theorem C09_one_byte_never_collides :
  forall p x y s, x <> y ->
    fnv64 (p ++ String x s) <> fnv64 (p ++ String y s).
Proof. exact fnv64_one_byte. Qed.
Print Assumptions C09_one_byte_never_collides.

Theorem C09_suffix_preserves_distinct :
  forall a b s, fnv64 a <> fnv64 b -> fnv64 (a ++ s) <> fnv64 (b ++ s).
Proof. intros a b s H He. apply H. by eapply fnv64_suffix. Qed.
Print Assumptions C09_suffix_preserves_distinct.

Example C09_example : fnv64 "doc-17-es" <> fnv64 "doc-18-es".
Proof. exact (C09_one_byte_never_collides "doc-1" "7"%char "8"%char "-es" ltac:(done)). Qed.

(** ** C10 *)
Theorem C10_ids_collide : collide1 <> collide2 /\ fnv64 collide1 = fnv64 collide2.
Proof. split; [done|vm_compute; reflexivity]. Qed.
Print Assumptions C10_ids_collide.

(** With two such documents, one containing "a" and the other "b", the query
    "a b" yields two results although no document contains both, and both rows
    carry the identity of the first document. *)
Theorem C10_collision_conflates :
  forall srt, sort_contract srt ->
    mi_Search true (index_after "idx" letters
       [NewDocRequest collide1 "a"; NewDocRequest collide2 "b"]) "a b" (HitsSearch srt)
    = Ok [MkSR (MkDoc collide1 "a") 2; MkSR (MkDoc collide1 "a") 2] /\
    mi_Search true (index_after "idx" letters
       [NewDocRequest collide1 "a"; NewDocRequest collide2 "b"]) "a b" LinearSearch = Ok [].
Proof.
  intros srt Hs. split; [|vm_compute; reflexivity].
  rewrite (C05_order_determined _ _ insertion_sort) by (done || apply insertion_sort_contract).
  vm_compute. reflexivity.
Qed.
Print Assumptions C10_collision_conflates.

(** Appending any common suffix to the pair keeps the collision: there are
    infinitely many colliding pairs. *)
Theorem C10_collision_family :
  forall s, fnv64 (collide1 ++ s) = fnv64 (collide2 ++ s) /\ (collide1 ++ s)%string <> (collide2 ++ s)%string.
Proof.
  intros s. split; [|done]. unfold fnv64. rewrite !bytes_of_app, !fold_left_app.
  apply (f_equal (fold_left fnv_step (bytes_of s))). vm_compute. reflexivity.
Qed.
Print Assumptions C10_collision_family.

(** ** C11 *)
Theorem C11_postings_exact :
  forall (ckn : bool) (name : string) (tk : Tokenizer) (reqs : list DocRequest) (t : string) (l : list Z),
    Indexed ckn (index_after name tk reqs) t = Some l ->
    StronglySorted Z.lt l /\
    (forall j, j ∈ l <-> exists i r, j = Z.of_nat i /\ reqs !! i = Some r /\ t ∈ tk (req_statement r)) /\
    (forall j, j ∈ l -> 0 <= j < Len (index_after name tk reqs)).
Proof.
  intros ckn name tk reqs t l.
  pose proof (rep_index_after name tk reqs) as Hrep.
  pose proof (rep_Indexed tk reqs _ ckn t Hrep) as HI. intros Hl. rewrite Hl in HI.
  assert (l = positions tk t 0 reqs) as -> by naive_solver.
  assert (Hel : forall j, j ∈ positions tk t 0 reqs <->
     exists i r, j = Z.of_nat i /\ reqs !! i = Some r /\ t ∈ tk (req_statement r)).
  { intros j. rewrite positions_elem. unfold contains.
    split.
    - intros (H1 & r & H2 & H3). exists (Z.to_nat j), r. rewrite Z.sub_0_r in H2.
      split; [lia|]. split; [done|]. by apply bool_decide_eq_true in H3.
    - intros (k & r & -> & H2 & H3). split; [lia|]. exists r.
      rewrite Z.sub_0_r, Nat2Z.id. split; [done|]. by apply bool_decide_eq_true. }
  split; [apply positions_asc|]. split; [done|].
  intros j Hj. apply Hel in Hj as (i & r & -> & Hi & _).
  rewrite (rep_Len tk reqs) by done. apply lookup_lt_Some in Hi. lia.
Qed.
Print Assumptions C11_postings_exact.

Theorem C11_unknown_token :
  forall (name : string) (tk : Tokenizer) (reqs : list DocRequest) (t : string),
    (forall r, r ∈ reqs -> ~ t ∈ tk (req_statement r)) <->
    Indexed true (index_after name tk reqs) t = None.
Proof.
  intros name tk reqs t. pose proof (rep_index_after name tk reqs) as Hrep.
  destruct Hrep as [_ _ Hi]. unfold Indexed. rewrite Hi. clear Hi.
  assert (Hpos : positions tk t 0 reqs = [] <-> forall r, r ∈ reqs -> ~ t ∈ tk (req_statement r)).
  { split.
    - intros He r Hr Ht. apply elem_of_list_lookup_1 in Hr as [i Hi].
      assert (Hin : Z.of_nat i ∈ positions tk t 0 reqs).
      { apply positions_elem. split; [lia|]. exists r. rewrite Z.sub_0_r, Nat2Z.id.
        split; [done|]. by apply bool_decide_eq_true. }
      rewrite He in Hin. inversion Hin.
    - intros H. apply elem_of_nil_inv. intros j Hj. apply positions_elem in Hj as (_ & r & Hi & Hc).
      apply bool_decide_eq_true in Hc. eapply H; [|exact Hc]. by eapply elem_of_list_lookup_2. }
  rewrite <- Hpos. destruct (positions tk t 0 reqs); naive_solver.
Qed.
Print Assumptions C11_unknown_token.

Example C11_example :
  Indexed true (index_after "idx" letters ex_reqs) "b" = Some [0; 1; 2] /\
  Indexed true (index_after "idx" letters ex_reqs) "a" = Some [0; 2] /\
  Indexed true (index_after "idx" letters ex_reqs) "q" = None.
Proof. vm_compute. done. Qed.

(** ** C12 *)
Theorem C12_store_append_only :
  forall (name : string) (tk : Tokenizer) (reqs later : list DocRequest),
    Len (index_after name tk reqs) = Z.of_nat (length reqs) /\
    (forall i r, reqs !! i = Some r ->
       Document (index_after name tk (reqs ++ later)) (Z.of_nat i) =
       Ok (MkDoc (req_Name r) (req_Content r))) /\
    (forall j, Document (index_after name tk reqs) j = Panic <->
               j < 0 \/ Z.of_nat (length reqs) <= j).
Proof.
  intros name tk reqs later. pose proof (rep_index_after name tk reqs) as Hrep.
  split; [by apply (rep_Len tk)|]. split.
  - intros i r Hi. eapply rep_Document; [apply (rep_index_after name tk (reqs ++ later))|].
    by apply lookup_app_l_Some.
  - intros j. pose proof (rep_Len tk reqs _ Hrep) as HL. unfold Len in HL.
    unfold Document, slice_get.
    destruct (Z.ltb_spec j 0); [split; [lia|done]|].
    destruct (mi_Docs _ !! Z.to_nat j) as [d|] eqn:E.
    + apply lookup_lt_Some in E. split; [done|]. lia.
    + apply lookup_ge_None in E. split; [lia|done].
Qed.
Print Assumptions C12_store_append_only.

Example C12_example :
  Document (index_after "idx" letters ex_reqs) 1 = Ok (MkDoc "m" "b c") /\
  Document (index_after "idx" letters ex_reqs) 3 = Panic /\
  Document (index_after "idx" letters ex_reqs) (-1) = Panic.
Proof. vm_compute. done. Qed.

(** ** C13 *)
Theorem C13_intersection :
  (forall a b, exists l, go_intersection a b = Ok l) /\
  (forall a b l, go_intersection a b = Ok l -> go_intersection b a = Ok l) /\
  (forall a b l, StronglySorted Z.lt a -> StronglySorted Z.lt b -> go_intersection a b = Ok l ->
     StronglySorted Z.lt l /\ forall x, x ∈ l <-> x ∈ a /\ x ∈ b) /\
  (forall a b l, StronglySorted Z.le a -> StronglySorted Z.le b -> go_intersection a b = Ok l ->
     forall x, length (filter (fun y => y = x) l) =
               Nat.min (length (filter (fun y => y = x) a)) (length (filter (fun y => y = x) b))).
Proof.
  split; [intros; rewrite intersection_isect; eauto|].
  split; [intros a b l; rewrite !intersection_isect; intros [= <-]; by rewrite isect_comm|].
  split.
  - intros a b l Ha Hb. rewrite intersection_isect. intros [= <-]. split; [by apply isect_asc|].
    intros x. apply isect_elem; by apply asc_asc_le.
  - intros a b l Ha Hb. rewrite intersection_isect. intros [= <-] x. by apply (isect_count x a b).
Qed.
Print Assumptions C13_intersection.

Example C13_example : go_intersection [1; 3; 5; 7] [2; 3; 7; 9] = Ok [3; 7] /\
                      go_intersection [1; 1; 2] [1; 1; 1; 2] = Ok [1; 1; 2].
Proof. done. Qed.

(** ** C14 *)
Theorem C14_noop_engines :
  forall (ckn : bool) (name : string) (tk : Tokenizer) (reqs : list DocRequest) (q : string),
    mi_Search ckn (index_after name tk reqs) q NoopAllSearch =
      Ok (map (fun r => MkSR (MkDoc (req_Name r) (req_Content r)) 0) reqs) /\
    mi_Search ckn (index_after name tk reqs) q NoopZeroSearch = Ok [].
Proof.
  intros. split; [|done]. unfold mi_Search. rewrite (NoopAll_rep tk reqs) by apply rep_index_after. done.
Qed.
Print Assumptions C14_noop_engines.

Example C14_example :
  mi_Search false (index_after "idx" letters ex_reqs) "no match" NoopAllSearch =
  Ok [MkSR (MkDoc "z" "a b") 0; MkSR (MkDoc "m" "b c") 0; MkSR (MkDoc "a" "c b a") 0].
Proof. reflexivity. Qed.

(** ** C15 *)
Theorem C15_put_monotone :
  forall (ckn : bool) (name : string) (tk : Tokenizer) (reqs : list DocRequest) (q : string) r,
    exists before,
      mi_Search ckn (index_after name tk reqs) q LinearSearch = Ok before /\
      ((tk q <> [] /\ (forall t, t ∈ tk q -> t ∈ tk (req_statement r)) ->
        mi_Search ckn (Put (index_after name tk reqs) r) q LinearSearch =
        Ok (before ++ [MkSR (MkDoc (req_Name r) (req_Content r)) (Z.of_nat (length (tk q)))])) /\
       (~ (tk q <> [] /\ (forall t, t ∈ tk q -> t ∈ tk (req_statement r))) ->
        mi_Search ckn (Put (index_after name tk reqs) r) q LinearSearch = Ok before)).
Proof.
  intros. rewrite C01_linear_search_exact. eexists. split; [done|].
  replace (Put (index_after name tk reqs) r) with (index_after name tk (reqs ++ [r]))
    by (unfold index_after; by rewrite fold_left_app).
  rewrite C01_linear_search_exact, and_search_put.
  assert (Hiff : negb (bool_decide (tk q = [])) && contains_all tk (tk q) r = true <->
                 tk q <> [] /\ (forall t, t ∈ tk q -> t ∈ tk (req_statement r))).
  { rewrite andb_true_iff, negb_true_iff, bool_decide_eq_false. unfold contains_all, contains.
    rewrite forallb_forall. setoid_rewrite bool_decide_eq_true. setoid_rewrite <- elem_of_list_In. done. }
  split; intros H.
  - apply Hiff in H. rewrite H. done.
  - destruct (negb _ && _); [exfalso; apply H; by apply Hiff|]. by rewrite app_nil_r.
Qed.
Print Assumptions C15_put_monotone.

Theorem C15_more_tokens_narrow :
  forall (ckn : bool) (name : string) (tk : Tokenizer) (reqs : list DocRequest) ts ts' res res',
    ts <> [] ->
    LinearSearch ts (indexer_of ckn (index_after name tk reqs)) = Ok res ->
    LinearSearch (ts ++ ts') (indexer_of ckn (index_after name tk reqs)) = Ok res' ->
    sublist (map sr_Document res') (map sr_Document res).
Proof.
  intros ckn name tk reqs ts ts' res res' Hne.
  rewrite !(Linear_rep tk reqs) by apply rep_index_after. intros [= <-] [= <-].
  by apply and_search_narrow.
Qed.
Print Assumptions C15_more_tokens_narrow.

Example C15_example :
  LinearSearch ["b"%string] (indexer_of true (index_after "idx" letters ex_reqs)) =
    Ok [MkSR (MkDoc "z" "a b") 1; MkSR (MkDoc "m" "b c") 1; MkSR (MkDoc "a" "c b a") 1] /\
  LinearSearch ["b"; "c"]%string (indexer_of true (index_after "idx" letters ex_reqs)) =
    Ok [MkSR (MkDoc "m" "b c") 2; MkSR (MkDoc "a" "c b a") 2].
Proof. done. Qed.

(** ** C16 *)
Theorem C16_token_order_irrelevant :
  forall (ckn : bool) srt (name : string) (tk : Tokenizer) (reqs : list DocRequest) q q',
    tk q ≡ₚ tk q' ->
    mi_Search ckn (index_after name tk reqs) q LinearSearch =
    mi_Search ckn (index_after name tk reqs) q' LinearSearch /\
    (NoDup (map (fun r => fnv64 (req_Name r)) reqs) ->
     mi_Search ckn (index_after name tk reqs) q (HitsSearch srt) =
     mi_Search ckn (index_after name tk reqs) q' (HitsSearch srt)).
Proof.
  intros ckn srt name tk reqs q q' HP.
  rewrite !C01_linear_search_exact, !C03_hits_search_general. split.
  - by rewrite (and_search_perm tk reqs _ _ HP).
  - intros Hd. rewrite !hits_rows_distinct by done. by rewrite (and_search_perm tk reqs _ _ HP).
Qed.
Print Assumptions C16_token_order_irrelevant.

Theorem C16_repetition :
  forall (ckn : bool) (name : string) (tk : Tokenizer) (reqs : list DocRequest) q q' res res',
    (forall t, t ∈ tk q <-> t ∈ tk q') ->
    mi_Search ckn (index_after name tk reqs) q LinearSearch = Ok res ->
    mi_Search ckn (index_after name tk reqs) q' LinearSearch = Ok res' ->
    map sr_Document res = map sr_Document res' /\
    Forall (fun x => sr_Hits x = Z.of_nat (length (tk q))) res.
Proof.
  intros ckn name tk reqs q q' res res' Hset. rewrite !C01_linear_search_exact. intros [= <-] [= <-].
  split; [by apply and_search_set|]. unfold and_search. destruct (tk q) as [|t ts]; [constructor|].
  apply Forall_forall. intros x (r & -> & _)%elem_of_list_fmap. done.
Qed.
Print Assumptions C16_repetition.

(** Doc comment of HitsSearch: "Hit count = number of unique search tokens". *)
Theorem C16_unique_token_hits_refuted :
  exists (reqs : list DocRequest) (q : string),
    length (remove_dups (letters q)) = 1%nat /\
    mi_Search true (index_after "idx" letters reqs) q (HitsSearch insertion_sort) =
    Ok [MkSR (MkDoc "d" "a") 2].
Proof. exists [NewDocRequest "d" "a"], "a a"%string. vm_compute. done. Qed.
Print Assumptions C16_unique_token_hits_refuted.

(** ** C17 *)
Theorem C17_constructors :
  forall n c s m,
    req_Statement (NewDocRequest n c) = c /\ req_Raw (NewDocRequest n c) = c /\
    req_ID (NewDocRequest n c) = n /\ req_Mime (NewDocRequest n c) = 1%N /\
    req_Statement (NewDocRequestWith n c s) = s /\ req_Raw (NewDocRequestWith n c s) = c /\
    req_ID (NewDocRequestWith n c s) = n /\ req_Mime (NewDocRequestWith n c s) = 1%N /\
    req_Statement (NewDocRequestWithMime n c m) = c /\ req_Raw (NewDocRequestWithMime n c m) = c /\
    req_ID (NewDocRequestWithMime n c m) = n /\ req_Mime (NewDocRequestWithMime n c m) = m /\
    req_Statement (DocRequestLiteral n c m) = ""%string /\ MimeText = 1%N /\ MimeJSON = 2%N.
Proof. done. Qed.
Print Assumptions C17_constructors.

Theorem C17_content_never_searched :
  forall (ckn : bool) (name : string) (tk : Tokenizer) (before after : list DocRequest) n c c' s m q res,
    mi_Search ckn (index_after name tk (before ++ MkDocRequest n c s m :: after)) q LinearSearch = Ok res ->
    exists l1 x l2, res = l1 ++ x ++ l2 /\
      (x = [] \/ x = [MkSR (MkDoc n c) (Z.of_nat (length (tk q)))]) /\
      mi_Search ckn (index_after name tk (before ++ MkDocRequest n c' s m :: after)) q LinearSearch =
      Ok (l1 ++ map (fun y => MkSR (MkDoc n c') (sr_Hits y)) x ++ l2).
Proof.
  intros ckn name tk before after n c c' s m q res. rewrite !C01_linear_search_exact. intros [= <-].
  unfold and_search. destruct (tk q) as [|t ts].
  { exists [], [], []. auto. }
  rewrite !filter_app, !filter_cons, !map_app.
  unfold contains_all, contains. cbn [req_statement].
  destruct (decide _).
  - eexists _, [_], _. split; [reflexivity|]. split; [by right|]. done.
  - eexists _, [], _. split; [reflexivity|]. split; [by left|]. done.
Qed.
Print Assumptions C17_content_never_searched.

Theorem C17_literal_never_matched :
  forall (ckn : bool) srt (name : string) (tk : Tokenizer) (before after : list DocRequest) n c m q,
    tk ""%string = [] ->
    mi_Search ckn (index_after name tk (before ++ DocRequestLiteral n c m :: after)) q LinearSearch =
    mi_Search ckn (index_after name tk (before ++ after)) q LinearSearch /\
    (NoDup (map (fun r => fnv64 (req_Name r)) (before ++ DocRequestLiteral n c m :: after)) ->
     mi_Search ckn (index_after name tk (before ++ DocRequestLiteral n c m :: after)) q (HitsSearch srt) =
     mi_Search ckn (index_after name tk (before ++ after)) q (HitsSearch srt)).
Proof.
  intros ckn srt name tk before after n c m q Htk.
  assert (He : and_search tk (before ++ DocRequestLiteral n c m :: after) (tk q) =
               and_search tk (before ++ after) (tk q)).
  { unfold and_search. destruct (tk q) as [|t ts]; [done|].
    rewrite !filter_app, !filter_cons. rewrite decide_False; [done|].
    unfold contains_all. cbn [forallb]. unfold contains at 1. cbn [DocRequestLiteral req_statement].
    rewrite Htk, bool_decide_false by (intros H; inversion H). done. }
  rewrite !C01_linear_search_exact, !C03_hits_search_general, He. split; [done|].
  intros Hd. rewrite !hits_rows_distinct; [by rewrite He| |done].
  unfold distinct_hashes. rewrite map_app in Hd |- *. cbn [map] in Hd.
  rewrite <- Permutation_middle in Hd. by apply NoDup_cons in Hd as [_ Hd].
Qed.
Print Assumptions C17_literal_never_matched.

Example C17_example :
  mi_Search true (index_after "idx" letters
    [NewDocRequestWith "d" "body" "keys"; DocRequestLiteral "e" "keys" 1%N]) "k" LinearSearch =
  Ok [MkSR (MkDoc "d" "body") 1].
Proof. reflexivity. Qed.
