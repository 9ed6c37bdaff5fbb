(** * Property C92: exactly what a program can find out about a repository. *)
From Coq Require Import Lia.
From stdpp Require Import gmap list.
From Verif Require Import Entities Search SpecSearch ProofSearch ProofEngines Properties_Search Repo Sem RepoWp SpecRepo
  ProofRepo ProofTotal ProofReach ProofExact Properties_Repo Print Properties_Print SpecLook ProofLook.
Open Scope nat_scope.
Open Scope string_scope.
Open Scope list_scope.

(** ** Telling states apart *)
Lemma one_call ckn tk s v c x : tracks ckn tk s v -> (forall show, c <> CString show) ->
  experience s [(c, x)] <-> exists o, spec ckn tk c v o /\ saw o = x.
Proof.
  intros Ht Hc. split.
  - intros Hx. apply (experience_sexp ckn tk _ _ Hx) in Ht. inversion Ht; simplify_eq; eexists; by split.
  - intros (o & Ho & <-). apply (sexp_experience ckn tk v).
    + destruct o as [b v'|v'| |]; simpl; [by eapply SX_value; [|constructor]|by eapply SX_panic; [|constructor]|by constructor..].
    + intros show y [?|Hin%elem_of_nil]%elem_of_cons; simplify_eq; [by eapply Hc|done].
    + done.
Qed.

(** An engine that reports the postings of a token. *)
Definition peek (t : string) : Engine := fun _ ix =>
  Ok (map (fun z => MkSR (NewDoc "" "") z) (default [] (ix_Indexed ix t))).
Lemma peek_docs ckn tk reqs q t :
  search_docs ckn tk reqs q (peek t) = Ok (map (fun z => MkSR (NewDoc "" "") z) (positions tk t 0 reqs)).
Proof.
  unfold search_docs, mi_Search, peek. cbn [indexer_of ix_Indexed].
  destruct (rep_Indexed tk reqs _ ckn t (rep_index_after "" tk reqs)) as [->|(_ & -> & ->)]; done.
Qed.
Lemma all_docs ckn tk reqs q :
  search_docs ckn tk reqs q NoopAllSearch = Ok (map (fun r => MkSR (doc_of r) 0) reqs).
Proof. unfold search_docs, mi_Search. by rewrite (NoopAll_rep tk reqs) by apply rep_index_after. Qed.

(** If no single call tells two repos apart they hold the same. *)
Theorem C92_one_call_suffices :
  forall ckn tk s1 v1 s2 v2,
    tracks ckn tk s1 v1 -> tracks ckn tk s2 v2 ->
    (forall c x, (forall show, c <> CString show) -> experience s1 [(c, x)] <-> experience s2 [(c, x)]) ->
    similar tk v1 v2.
Proof.
  intros ckn tk s1 v1 s2 v2 T1 T2 H.
  assert (K : forall c x, (forall show, c <> CString show) ->
    (exists o, spec ckn tk c v1 o /\ saw o = x) <-> (exists o, spec ckn tk c v2 o /\ saw o = x)).
  { intros c x Hc. by rewrite <- (one_call _ _ _ _ _ _ T1 Hc), <- (one_call _ _ _ _ _ _ T2 Hc), H. }
  clear H T1 T2.
  assert (HlA : v_leakA v1 = v_leakA v2).
  { destruct (K (CHasAlias "") SawHang) as [K1 K2]; [done|]. simpl in K1, K2.
    destruct (v_leakA v1), (v_leakA v2); [done| | |done].
    - destruct K1 as (o & -> & ?); [by exists OBlock|done].
    - destruct K2 as (o & -> & ?); [by exists OBlock|done]. }
  assert (HN : forall n, v_idx v1 !! n = None <-> v_idx v2 !! n = None).
  { intros n. destruct (K (CHas n) (SawValue (OBool (bool_decide (is_Some (v_idx v1 !! n)))))) as [K1 _]; [done|].
    destruct K1 as (o & -> & [= E]); [eexists; split; [reflexivity|done]|].
    destruct (v_idx v1 !! n), (v_idx v2 !! n); try done; cbn in E; by rewrite ?bool_decide_true, ?bool_decide_false in E by eauto using is_Some_None. }
  split; [| |done|].
  - intros n. destruct (v_idx v1 !! n) as [r1|] eqn:E1, (v_idx v2 !! n) as [r2|] eqn:E2; try done;
      [|by apply HN in E2; congruence|by apply HN in E1; congruence].
    assert (S : forall e l1 l2, search_docs ckn tk r1 "" e = Ok l1 -> search_docs ckn tk r2 "" e = Ok l2 -> l1 = l2).
    { intros e l1 l2 H1 H2. destruct (K (CSearch n "" e) (SawValue (OResults l1))) as [K1 _]; [done|].
      cbn [spec] in K1. rewrite E1, E2, H1, H2 in K1. destruct K1 as (o & -> & [= E]); [|done].
      eexists. split; [reflexivity|done]. }
    assert (D : map doc_of r1 = map doc_of r2).
    { pose proof (S _ _ _ (all_docs _ _ r1 _) (all_docs _ _ r2 _)) as E.
      apply (f_equal (map sr_Document)) in E. by rewrite !map_map in E. }
    assert (P : forall t, positions tk t 0 r1 = positions tk t 0 r2).
    { intros t. pose proof (S _ _ _ (peek_docs _ _ r1 _ t) (peek_docs _ _ r2 _ t)) as E.
      apply (f_equal (map sr_Hits)) in E. by rewrite !map_map, !map_id in E. }
    apply Forall2_same_length_lookup. split.
    { apply (f_equal length) in D. by rewrite !map_length in D. }
    intros i a b Ha Hb.
    assert (Hd : doc_of a = doc_of b).
    { apply (f_equal (.!! i)) in D. change (map doc_of) with (fmap (M := list) doc_of) in D.
      rewrite !list_lookup_fmap, Ha, Hb in D. by apply (inj Some) in D. }
    injection Hd as Hd1 Hd2. split; [done|]. split; [done|]. intros t.
    assert (C : forall r x, r !! i = Some x -> (Z.of_nat i ∈ positions tk t 0 r <-> t ∈ tk (req_statement x))).
    { intros r x Hx. rewrite positions_elem, Z.sub_0_r, Nat2Z.id. unfold contains. split.
      - intros (_ & y & Hy & Ht). assert (y = x) as -> by congruence. by apply bool_decide_eq_true in Ht.
      - intros Ht. split; [lia|]. exists x. split; [done|]. by apply bool_decide_eq_true. }
    by rewrite <- (C _ _ Ha), <- (C _ _ Hb), P.
  - destruct (K (CRename "" "") SawHang) as [K1 K2]; [done|]. cbn [spec] in K1, K2.
    destruct (decide (v_leakI v1 <> 0)) as [H1|H1], (decide (v_leakI v2 <> 0)) as [H2|H2]; [tauto| | |lia].
    + destruct K1 as (o & Ho & Hs); [by exists OBlock|]. destruct (v_idx v2 !! ""); by subst.
    + destruct K2 as (o & Ho & Hs); [by exists OBlock|]. destruct (v_idx v1 !! ""); by subst.
  - intros El. destruct (K CListAliases (SawValue (ORows (map_to_list (v_ali v1))))) as [K1 _]; [done|].
    cbn [spec] in K1. rewrite <- HlA, El in K1. destruct K1 as (o & (l & Hl & ->) & [= ->]).
    { eexists. split; [by exists (map_to_list (v_ali v1))|done]. }
    by apply map_to_list_inj.
Qed.
Print Assumptions C92_one_call_suffices.

(** Two repos, reached by any calls, are alike exactly if they hold the same names,
    the same documents under each up to [same_doc], in the same order, if the same
    locks were left behind, and if the aliases are the same or out of reach. *)
Theorem C92_alike_iff :
  forall ckn tk s1 v1 s2 v2,
    tracks ckn tk s1 v1 -> tracks ckn tk s2 v2 -> (alike s1 s2 <-> similar tk v1 v2).
Proof.
  intros ckn tk s1 v1 s2 v2 T1 T2. split.
  - intros H. eapply C92_one_call_suffices; [done..|]. intros c x Hc. apply H.
    intros show y [?|Hin%elem_of_nil]%elem_of_cons; simplify_eq; [by eapply Hc|done].
  - intros Hs l Hn. split; intros Hx.
    + eapply sexp_experience; [|done..]. eapply similar_sexp; [|done]. by eapply experience_sexp.
    + eapply sexp_experience; [|done..]. eapply similar_sexp; [|by apply similar_sym]. by eapply experience_sexp.
Qed.
Print Assumptions C92_alike_iff.

(** Repos that hold the same cannot be told apart, whatever happened to them before:
    indices dropped, overwritten or renamed, aliases made and unmade, the order of
    Puts to different names. *)
Theorem C92_history_leaves_no_trace :
  forall ckn tk s1 s2 v, tracks ckn tk s1 v -> tracks ckn tk s2 v -> alike s1 s2.
Proof.
  intros ckn tk s1 s2 v T1 T2. apply (C92_alike_iff ckn tk s1 v s2 v T1 T2).
  split; [|done..]. intros n. destruct (v_idx v !! n) as [r|]; [|done].
  apply Forall2_same_length_lookup. split; [done|]. intros i a b Ha Hb. by assert (a = b) as -> by congruence.
Qed.
Print Assumptions C92_history_leaves_no_trace.

(** Put stores of a request only its ID, its content and the set of its tokens. *)
Theorem C92_what_Put_keeps :
  forall ckn tk s1 v1 s2 v2 n d1 d2 s1' s2',
    tracks ckn tk s1 v1 -> tracks ckn tk s2 v2 -> alike s1 s2 ->
    after (CPut n d1) s1 s1' -> after (CPut n d2) s2 s2' -> same_doc tk d1 d2 -> alike s1' s2'.
Proof.
  intros ckn tk s1 v1 s2 v2 n d1 d2 s1' s2' T1 T2 Ha [r1 H1] [r2 H2] Hd.
  apply (C92_alike_iff _ _ _ _ _ _ T1 T2) in Ha. pose proof Ha as [Hi Hl HA Hali].
  destruct (reach_call _ _ _ _ _ _ _ T1 I H1) as (w1 & S1 & T1').
  destruct (reach_call _ _ _ _ _ _ _ T2 I H2) as (w2 & S2 & T2').
  apply (C92_alike_iff _ _ _ _ _ _ T1' T2').
  clear T1' T2' T1 T2 H1 H2. destruct v1 as [i1 a1 l1 la], v2 as [i2 a2 l2 la2]. simpl in Hi, Hl, HA, Hali. subst la2.
  assert (Q : forall j1 j2, isim tk j1 j2 -> similar tk (MkView j1 a1 l1 la) (MkView j2 a2 l2 la)) by done.
  fold (isim tk i1 i2) in Hi. pose proof (Hi n) as Hn. simpl in S1, S2.
  destruct (i1 !! n), (i2 !! n); try done.
  - destruct (decide _); [done|]. destruct (decide _); [done|]. simplify_eq. apply Q. exact (isim_put2 tk d1 d2 [n] _ _ Hi Hd).
  - destruct la; [done|]. assert (a1 = a2) as -> by (by apply Hali).
    destruct (decide _); [done|]. destruct (decide _); [done|]. destruct (a2 !! n) as [l|].
    + destruct (decide _); [done|]. destruct (decide _); [done|]. simplify_eq. apply Q. by apply isim_put2.
    + simplify_eq. apply Q. apply isim_insert; [done|]. by apply Forall2_cons.
Qed.
Print Assumptions C92_what_Put_keeps.

(** And no less: after a Put to an index that exists, requests that differ otherwise
    can be told apart. *)
Theorem C92_what_Put_does_not_lose :
  forall ckn tk s v n d1 d2 s1' s2',
    tracks ckn tk s v -> is_Some (v_idx v !! n) ->
    after (CPut n d1) s s1' -> after (CPut n d2) s s2' -> alike s1' s2' -> same_doc tk d1 d2.
Proof.
  intros ckn tk s v n d1 d2 s1' s2' T [reqs Hn] [r1 H1] [r2 H2] Ha.
  destruct (reach_call _ _ _ _ _ _ _ T I H1) as (w1 & S1 & T1').
  destruct (reach_call _ _ _ _ _ _ _ T I H2) as (w2 & S2 & T2').
  apply (C92_alike_iff _ _ _ _ _ _ T1' T2') in Ha. pose proof (si_idx _ _ _ Ha) as Hi. clear Ha T1' T2' H1 H2.
  cbn [spec] in S1, S2. rewrite Hn in S1, S2.
  destruct (decide _); [done|]. simplify_eq. specialize (Hi n). cbn [v_idx] in Hi.
  unfold put_each in Hi. cbn [foldr] in Hi. rewrite !lookup_alter, Hn in Hi. cbn in Hi.
  apply Forall2_app_inv in Hi as [_ Hi]; [|done]. by inversion Hi.
Qed.
Print Assumptions C92_what_Put_does_not_lose.

(** ** String *)

(** IndexRepo.String can tell repos apart that no other call can: an index "p" renamed
    to "q" from one created as "q". *)
Theorem C92_String_shows_more :
  exists s1 s2 v1 v2, tracks true letters s1 v1 /\ tracks true letters s2 v2 /\ alike s1 s2 /\
    (experience s1 [(CString mi_name, SawValue (OText ("p" ++ newline)%string))] /\
     ~ experience s2 [(CString mi_name, SawValue (OText ("p" ++ newline)%string))]).
Proof.
  destruct (renamed_titled true letters) as [s1 H1].
  destruct (titled_next true letters _ _ _ (CPut "q" dA) OUnit renamed_view (T_new true letters)) as (s2 & _ & H2).
  { intros o Ho. exact Ho. }
  pose proof (titled_tracks _ _ _ _ _ H1) as T1. pose proof (titled_tracks _ _ _ _ _ H2) as T2.
  exists s1, s2, renamed_view, renamed_view. split; [done|]. split; [done|].
  split; [by eapply C92_history_leaves_no_trace|].
  assert (Hl : forall l, l ≡ₚ (map_to_list (v_idx renamed_view)).*1 -> l = ["q"]).
  { intros l Hl. change ((map_to_list (v_idx renamed_view)).*1) with ["q"] in Hl. by apply Permutation_singleton_r in Hl. }
  split.
  - destruct (C62_text _ _ _ _ _ mi_name H1) as [[res Hres] H]. destruct (H _ Hres) as (names & Hn & ->).
    apply Hl in Hn as ->. exact (X_value _ _ _ _ _ Hres (X_nil _)).
  - intros Hx.
    assert (exists r s', call_result (CString mi_name) s2 (Done r s') /\ see s' r = OText ("p" ++ newline)%string)
      as (r & s' & Hres & E) by (inversion Hx; eauto).
    destruct (C62_text _ _ _ _ _ mi_name H2) as [_ H]. destruct (H _ Hres) as (names & Hn & [= -> ->]).
    apply Hl in Hn as ->. vm_compute in E. by simplify_eq.
Qed.
Print Assumptions C92_String_shows_more.

(** ** Examples *)

(** Repeated tokens, their order and the mime type do not matter; the order of the
    documents does. *)
Definition twice : DocRequest := MkDocRequest "1" "a b" "b a b a" MimeJSON.
Lemma dA_twice : same_doc letters dA twice.
Proof. split; [done|]. split; [done|]. intros t. vm_compute (letters _). set_solver. Qed.

Example C92_example : exists s1 s2 s3 s4,
  tracks true letters s1 (MkView {["p" := [dA; dB]]} ∅ 0 false) /\
  tracks true letters s2 (MkView {["p" := [twice; dB]]} ∅ 0 false) /\
  tracks true letters s3 (MkView {["p" := [dB; dA]]} ∅ 0 false) /\
  alike s1 s2 /\ ~ alike s1 s3 /\
  tracks true letters s4 (MkView ∅ ∅ 0 false) /\ ~ alike s1 s4.
Proof.
  assert (P : forall a b, exists s, tracks true letters s (MkView {["p" := [a; b]]} ∅ 0 false)).
  { intros a b. destruct (titled_next true letters _ _ _ (CPut "p" a) OUnit (MkView {["p" := [a]]} ∅ 0 false) (T_new true letters))
      as (s1 & _ & H1); [by intros o Ho|].
    destruct (titled_next true letters _ _ _ (CPut "p" b) OUnit (MkView {["p" := [a; b]]} ∅ 0 false) H1) as (s2 & _ & H2).
    { intros o Ho. cbn [spec v_idx v_leakI] in Ho. rewrite lookup_singleton in Ho.
      destruct (decide _) as [E|_] in Ho; [by destruct E|]. rewrite Ho. do 2 f_equal. unfold put_each. cbn [foldr].
      apply map_eq. intros n. destruct (decide (n = "p")) as [->|Hne].
      - by rewrite lookup_alter, !lookup_singleton.
      - by rewrite lookup_alter_ne, !lookup_singleton_ne by done. }
    exists s2. by eapply titled_tracks. }
  destruct (P dA dB) as [s1 H1], (P twice dB) as [s2 H2], (P dB dA) as [s3 H3].
  exists s1, s2, s3, (NewIndexRepo true (NewMemoryIndexBuilder letters)).
  pose proof (tracks_new true letters) as H4. split; [done|]. split; [done|]. split; [done|].
  rewrite (C92_alike_iff _ _ _ _ _ _ H1 H2), (C92_alike_iff _ _ _ _ _ _ H1 H3), (C92_alike_iff _ _ _ _ _ _ H1 H4).
  split; [|split; [|split; [done|]]].
  - split; [|done..]. intros n. cbn [v_idx]. destruct (decide (n = "p")) as [->|Hne].
    + rewrite !lookup_singleton. apply Forall2_cons; split; [exact dA_twice|]. by apply Forall2_cons.
    + by rewrite !lookup_singleton_ne by done.
  - intros [Hi _ _ _]. specialize (Hi "p"). cbn [v_idx] in Hi. rewrite !lookup_singleton in Hi.
    inversion Hi as [|? ? ? ? (E & _)]; subst. done.
  - intros [Hi _ _ _]. by specialize (Hi "p").
Qed.
