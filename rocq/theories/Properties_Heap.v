(** * Property C63: what callers do with the slices they are given.

    [life ckn extra name tk h held reqs]: [h] is the memory of an index after some
    sequence of Puts ([reqs], in order), calls of Indexed, and assignments by the
    callers into the slices Indexed gave them ([held]). *)
From Coq Require Import Lia.
From stdpp Require Import list gmap.
From Verif Require Import Entities Search SpecSearch Properties_Search Heap ProofHeap.
Open Scope nat_scope.

Inductive life (ckn : bool) (extra : nat -> nat) (name : string) (tk : Tokenizer)
  : hindex -> list slc -> list DocRequest -> Prop :=
| L_new : life ckn extra name tk (h_New name tk) [] []
| L_put h held reqs r :
    life ckn extra name tk h held reqs -> life ckn extra name tk (h_Put extra h r) held (reqs ++ [r])
| L_indexed h held reqs t h' s :
    life ckn extra name tk h held reqs -> h_Indexed ckn h t = (h', Some s) ->
    life ckn extra name tk h' (s :: held) reqs
| L_indexed_nil h held reqs t h' :
    life ckn extra name tk h held reqs -> h_Indexed ckn h t = (h', None) ->
    life ckn extra name tk h' held reqs
| L_scribble h held reqs s i x :
    life ckn extra name tk h held reqs -> s ∈ held ->
    life ckn extra name tk (h_scribble h s i x) held reqs.

Lemma life_agrees ckn extra name tk h held reqs :
  life ckn extra name tk h held reqs -> agrees held h (index_after name tk reqs).
Proof.
  induction 1 as [|h held reqs r _ IH|h held reqs t h' s _ IH E|h held reqs t h' _ IH E|h held reqs s i x _ IH Hs].
  - apply agrees_new.
  - unfold index_after. rewrite fold_left_app. by apply agrees_put.
  - pose proof (agrees_Indexed ckn held h _ t IH) as [H _]. by rewrite E in H.
  - pose proof (agrees_Indexed ckn held h _ t IH) as [H _]. by rewrite E in H.
  - by apply agrees_scribble.
Qed.

(** Whatever the callers wrote, the index answers as if nothing but the Puts had
    happened: Indexed returns the posting list of Search.v, Len and Document the
    documents. *)
Theorem C63_index_out_of_reach :
  forall ckn extra name tk h held reqs, life ckn extra name tk h held reqs ->
    (forall t, (fun s => elems (h_mem (h_Indexed ckn h t).1) (Some s)) <$> (h_Indexed ckn h t).2
               = Indexed ckn (index_after name tk reqs) t) /\
    h_Len h = Len (index_after name tk reqs) /\
    (forall i, h_Document h i = Document (index_after name tk reqs) i).
Proof.
  intros ckn extra name tk h held reqs H. apply life_agrees in H. split; [|split].
  - intros t. destruct (agrees_Indexed ckn held h _ t H) as (_ & E & _). rewrite <- E.
    by destruct (h_Indexed ckn h t).2.
  - by eapply agrees_Len.
  - intros i. by eapply agrees_Document.
Qed.
Print Assumptions C63_index_out_of_reach.

(** Every engine therefore computes on it what it computes on the immutable
    index, as long as Indexed answers the same. *)
Definition view_of (ckn : bool) (h : hindex) : Indexer :=
  {| ix_Len := h_Len h;
     ix_Indexed := fun t => (fun s => elems (h_mem (h_Indexed ckn h t).1) (Some s)) <$> (h_Indexed ckn h t).2;
     ix_Document := h_Document h |}.

Theorem C63_engines_see_the_puts :
  forall ckn extra name tk h held reqs, life ckn extra name tk h held reqs ->
  forall ts,
    LinearSearch ts (view_of ckn h) = LinearSearch ts (indexer_of ckn (index_after name tk reqs)) /\
    NoopAllSearch ts (view_of ckn h) = NoopAllSearch ts (indexer_of ckn (index_after name tk reqs)) /\
    forall srt, HitsSearch srt ts (view_of ckn h) = HitsSearch srt ts (indexer_of ckn (index_after name tk reqs)).
Proof.
  intros ckn extra name tk h held reqs H ts.
  destruct (C63_index_out_of_reach _ _ _ _ _ _ _ H) as (H1 & H2 & H3).
  assert (Ef : forall {A B} (f g : B -> A -> outcome B) l b, (forall b x, f b x = g b x) -> ofold f b l = ofold g b l).
  { intros A B f g l. induction l as [|x l IH]; intros b E; [done|]. cbn [ofold]. rewrite E.
    destruct (g b x); cbn [obind]; [by apply IH|done]. }
  assert (El : forall l d, linear_loop (view_of ckn h) d l = linear_loop (indexer_of ckn (index_after name tk reqs)) d l).
  { intros l. induction l as [|t l IH]; intros d; [done|]. cbn [linear_loop].
    cbn [view_of indexer_of ix_Indexed]. rewrite H1. destruct (Indexed _ _ t); [|done].
    destruct (go_intersection d l0); cbn [obind]; [|done]. destruct (_ =? 0); [done|]. apply IH. }
  split; [|split].
  - unfold LinearSearch. destruct ts as [|t ts]; [done|]. cbn [view_of indexer_of ix_Indexed]. rewrite H1.
    destruct (Indexed _ _ t) as [d|]; [|done]. fold (view_of ckn h). rewrite El.
    destruct (linear_loop _ d ts) as [[l|]|]; cbn [obind]; [|done|done].
    apply Ef. intros b x. cbn [view_of indexer_of ix_Document]. by rewrite H3.
  - unfold NoopAllSearch. cbn [view_of indexer_of ix_Len]. rewrite H2. apply Ef.
    intros b x. cbn [view_of indexer_of ix_Document]. by rewrite H3.
  - intros srt. unfold HitsSearch.
    assert (Eh : forall m t, hit_token (view_of ckn h) m t = hit_token (indexer_of ckn (index_after name tk reqs)) m t).
    { intros m t. unfold hit_token. cbn [view_of indexer_of ix_Indexed]. rewrite H1.
      destruct (Indexed _ _ t); [|done]. apply Ef. intros b x. unfold hit_doc.
      cbn [view_of indexer_of ix_Document]. by rewrite H3. }
    rewrite (Ef _ _ _ _ ts _ Eh). destruct (ofold _ _ ts) as [m|]; cbn [obind]; [|done].
    cbn [view_of indexer_of ix_Len]. rewrite H2.
    erewrite Ef; [done|]. intros b x. unfold hit_filter. cbn [view_of indexer_of ix_Document]. by rewrite H3.
Qed.
Print Assumptions C63_engines_see_the_puts.

(** The other way round: a slice a caller holds changes only when somebody writes
    into it; Put, Indexed and writes into other slices leave it alone. *)
Theorem C63_snapshots_are_stable :
  forall ckn extra name tk h held reqs s, life ckn extra name tk h held reqs -> s ∈ held ->
    (forall r, elems (h_mem (h_Put extra h r)) (Some s) = elems (h_mem h) (Some s)) /\
    (forall t, elems (h_mem (h_Indexed ckn h t).1) (Some s) = elems (h_mem h) (Some s)) /\
    (forall s' i x, s' ∈ held -> s_arr s' <> s_arr s ->
       elems (h_mem (h_scribble h s' i x)) (Some s) = elems (h_mem h) (Some s)).
Proof.
  intros ckn extra name tk h held reqs s H Hs. apply life_agrees in H. split; [|split].
  - intros r. apply elems_mono. by apply (agrees_put extra held h _ r H).
  - intros t. apply elems_mono. by apply (agrees_Indexed ckn held h _ t H).
  - intros s' i x Hs' Hne. apply elems_mono. apply (agrees_scribble held h _ s' i x H Hs'). congruence.
Qed.
Print Assumptions C63_snapshots_are_stable.

(** Two calls of Indexed never return the same array. *)
Theorem C63_snapshots_are_fresh :
  forall ckn extra name tk h held reqs t h' s s', life ckn extra name tk h held reqs ->
    h_Indexed ckn h t = (h', Some s) -> s' ∈ held -> s_arr s <> s_arr s'.
Proof.
  intros ckn extra name tk h held reqs t h' s s' H E Hs. apply life_agrees in H.
  destruct (agrees_Indexed ckn held h _ t H) as (_ & _ & _ & Hf). rewrite E in Hf. by apply Hf.
Qed.
Print Assumptions C63_snapshots_are_fresh.

(** Three Puts; a caller asks for the postings of "b" in between and overwrites
    what it got; the answers are the same as without. *)
Example C63_example :
  exists h s, life true (fun _ => 2) "idx" letters h [s] ex_reqs /\
    elems (h_mem h) (Some s) = [77; 1]%Z /\
    (fun s => elems (h_mem (h_Indexed true h "b").1) (Some s)) <$> (h_Indexed true h "b").2 = Some [0; 1; 2]%Z.
Proof.
  set (h0 := h_New "idx" letters).
  set (h2 := h_Put (fun _ => 2) (h_Put (fun _ => 2) h0 (NewDocRequest "z" "a b")) (NewDocRequest "m" "b c")).
  destruct (h_Indexed true h2 "b") as [h3 os] eqn:E. vm_compute in E.
  destruct os as [s|]; [|done].
  exists (h_Put (fun _ => 2) (h_scribble h3 s 0 77) (NewDocRequest "a" "c b a")), s. split.
  - change ex_reqs with (([] ++ [NewDocRequest "z" "a b"]) ++ [NewDocRequest "m" "b c"] ++ [NewDocRequest "a" "c b a"]).
    rewrite app_assoc. apply L_put, L_scribble; [|left].
    apply (L_indexed _ _ _ _ h2 _ _ "b"); [|by vm_compute]. apply L_put, L_put, L_new.
  - injection E as <- <-. vm_compute. done.
Qed.
