(** * Properties C64 and C65: the engines on an arbitrary Indexer.

    The engines are exported and take any implementation of the Indexer interface;
    nothing is assumed here about where its posting lists come from. *)
From Coq Require Import Lia ZifyBool ZifyNat ZifyN.
From stdpp Require Import sorting list gmap.
From Verif Require Import Entities Search SpecSearch ProofSearch ProofEngines.
Open Scope Z_scope.

(** The Indexer lists position [j] under token [t]. *)
Definition lists (ix : Indexer) (t : string) (j : Z) : Prop :=
  exists l, ix_Indexed ix t = Some l /\ j ∈ l.

(** Its posting lists for the tokens [ts] are ascending without repetition. *)
Definition ascending (ix : Indexer) (ts : list string) : Prop :=
  forall t l, t ∈ ts -> ix_Indexed ix t = Some l -> StronglySorted Z.lt l.

(** The documents at positions [js], if Document returns for all of them. *)
Fixpoint documents (ix : Indexer) (js : list Z) : outcome (list Doc) :=
  match js with
  | [] => Ok []
  | j :: js => obind (ix_Document ix j) (fun d => obind (documents ix js) (fun ds => Ok (d :: ds)))
  end.

Lemma documents_fold ix n js acc :
  ofold (fun results j => obind (ix_Document ix j) (fun doc => Ok (results ++ [MkSR doc n]))) acc js =
  obind (documents ix js) (fun ds => Ok (acc ++ map (fun d => MkSR d n) ds)).
Proof.
  revert acc. induction js as [|j js IH]; intros acc; cbn [ofold documents obind].
  - by rewrite app_nil_r.
  - destruct (ix_Document ix j) as [d|]; cbn [obind]; [|done]. rewrite IH.
    destruct (documents ix js) as [ds|]; cbn [obind]; [|done]. by rewrite <- app_assoc.
Qed.

Lemma linear_loop_any ix ts js :
  exists o, linear_loop ix js ts = Ok o /\
    sublist (default [] o) js /\
    (forall j t, j ∈ default [] o -> t ∈ ts -> lists ix t j) /\
    (StronglySorted Z.lt js -> ascending ix ts ->
       forall j, j ∈ js -> (forall t, t ∈ ts -> lists ix t j) -> j ∈ default [] o).
Proof.
  revert js. induction ts as [|t ts IH]; intros js; cbn [linear_loop].
  - exists (Some js). split; [done|]. split; [done|]. split; [|done]. intros j t _ Ht. by apply elem_of_nil in Ht.
  - destruct (ix_Indexed ix t) as [l|] eqn:El.
    + rewrite intersection_isect. cbn [obind].
      assert (Hin : forall j, j ∈ isect js l -> j ∈ l).
      { intros j Hj. rewrite isect_comm in Hj. by eapply elem_of_submseteq; [|apply isect_subset_l]. }
      destruct (length (isect js l) =? 0)%nat eqn:E0.
      * apply Nat.eqb_eq, nil_length_inv in E0. exists None. split; [done|]. split; [apply sublist_nil_l|].
        split; [intros j t' Hj; by apply elem_of_nil in Hj|].
        intros Hs Ha j Hj Ht. destruct (Ht t) as (l' & El' & Hl'); [left|]. simplify_eq.
        assert (j ∈ isect js l) as Hx; [|by rewrite E0 in Hx].
        apply isect_elem; [by apply asc_asc_le|apply asc_asc_le, (Ha t); [left|done]|done].
      * destruct (IH (isect js l)) as (o & H1 & H2 & H3 & H4). exists o. split; [done|].
        split; [by etrans; [exact H2|apply isect_sublist]|]. split.
        -- intros j t' Hj Ht. apply elem_of_cons in Ht as [->|Ht]; [|by apply H3]. exists l. split; [done|].
           apply Hin. apply (sublist_submseteq) in H2. by eapply elem_of_submseteq.
        -- intros Hs Ha j Hj Ht. destruct (Ht t) as (l' & El' & Hl'); [left|]. simplify_eq.
           apply H4.
           ++ by apply isect_asc.
           ++ intros t' l'' Ht'. apply Ha. by right.
           ++ apply isect_elem; [by apply asc_asc_le|apply asc_asc_le, (Ha t); [left|done]|done].
           ++ intros t' Ht'. apply Ht. by right.
    + exists None. split; [done|]. split; [apply sublist_nil_l|]. split; [intros j t' Hj; by apply elem_of_nil in Hj|].
      intros _ _ j _ Ht. destruct (Ht t) as (l & El' & _); [left|]. by simplify_eq.
Qed.

(** ** C64: LinearSearch *)

(** LinearSearch picks positions, all of them listed under every token, in the
    order of the first token's posting list and no more often than there; it
    returns their documents, or panics if Document panics on one of them.  If the
    posting lists are ascending it picks every position listed under all tokens. *)
Theorem C64_linear_search_any_indexer :
  forall (ix : Indexer) (ts : list string), exists js,
    LinearSearch ts ix = obind (documents ix js) (fun ds => Ok (map (fun d => MkSR d (Z.of_nat (length ts))) ds)) /\
    (forall j t, j ∈ js -> t ∈ ts -> lists ix t j) /\
    (forall t0 rest, ts = t0 :: rest -> sublist js (default [] (ix_Indexed ix t0))) /\
    (ts = [] -> js = []) /\
    (ascending ix ts ->
       StronglySorted Z.lt js /\
       forall j, j ∈ js <-> ts <> [] /\ forall t, t ∈ ts -> lists ix t j).
Proof.
  intros ix ts. destruct ts as [|t0 rest].
  { exists []. split; [done|]. split; [intros j t Hj; by apply elem_of_nil in Hj|]. split; [done|]. split; [done|].
    intros _. split; [constructor|]. intros j. split; [intros Hj; by apply elem_of_nil in Hj|]. intros [H _]. done. }
  unfold LinearSearch. destruct (ix_Indexed ix t0) as [l0|] eqn:E0.
  2:{ exists []. split; [done|]. split; [intros j t Hj; by apply elem_of_nil in Hj|].
      split; [intros; apply sublist_nil_l|]. split; [done|].
      intros _. split; [constructor|]. intros j. split; [intros Hj; by apply elem_of_nil in Hj|].
      intros [_ H]. destruct (H t0) as (l & El & _); [left|]. by simplify_eq. }
  destruct (linear_loop_any ix rest l0) as (o & H1 & H2 & H3 & H4). rewrite H1. cbn [obind].
  exists (default [] o).
  assert (Hl0 : forall j, j ∈ default [] o -> j ∈ l0).
  { intros j Hj. apply sublist_submseteq in H2. by eapply elem_of_submseteq. }
  split; [|split; [|split; [|split]]].
  - destruct o as [js|]; [|done]. by rewrite documents_fold.
  - intros j t Hj Ht. apply elem_of_cons in Ht as [->|Ht]; [|by apply H3]. exists l0. eauto.
  - intros t' rest' [= <- <-]. by rewrite E0.
  - done.
  - intros Ha. assert (Hs : StronglySorted Z.lt l0) by (apply (Ha t0); [left|done]). split.
    + by eapply StronglySorted_sublist.
    + intros j. split.
      * intros Hj. split; [done|]. intros t Ht. apply elem_of_cons in Ht as [->|Ht]; [|by apply H3]. exists l0. eauto.
      * intros [_ H]. apply H4; [done| | |].
        -- intros t l Ht. apply Ha. by right.
        -- destruct (H t0) as (l & El & Hj); [left|]. by simplify_eq.
        -- intros t Ht. apply H. by right.
Qed.
Print Assumptions C64_linear_search_any_indexer.

(** So it panics only on a position listed under every token. *)
Theorem C64_panics_only_on_a_match :
  forall (ix : Indexer) (ts : list string),
    LinearSearch ts ix = Panic ->
    exists j, ix_Document ix j = Panic /\ forall t, t ∈ ts -> lists ix t j.
Proof.
  intros ix ts. destruct (C64_linear_search_any_indexer ix ts) as (js & -> & H & _). intros Hp.
  assert (Hd : documents ix js = Panic) by (by destruct (documents ix js)). clear Hp.
  assert (Hj : exists j, j ∈ js /\ ix_Document ix j = Panic).
  { clear H. induction js as [|j js IH]; [done|]. cbn [documents] in Hd.
    destruct (ix_Document ix j) as [d|] eqn:Ej; [|exists j; split; [left|done]].
    cbn [obind] in Hd. destruct (documents ix js); [done|]. destruct IH as (j' & Hj' & E); [done|].
    exists j'. split; [by right|done]. }
  destruct Hj as (j & Hj & E). exists j. split; [done|]. intros t Ht. by apply H.
Qed.
Print Assumptions C64_panics_only_on_a_match.

(** An Indexer over five documents named "0" ... "4" with the given postings. *)
Definition five (postings : string -> option (list Z)) : Indexer :=
  {| ix_Len := 5; ix_Indexed := postings;
     ix_Document := fun i => slice_get (map (fun n => NewDoc n "") ["0"; "1"; "2"; "3"; "4"]) i |}.

(** Without ascending lists, completeness is lost: document 1 is listed under both
    tokens but not found. *)
Theorem C64_complete_when_unsorted_refuted :
  exists ix ts j rs, (forall t, t ∈ ts -> lists ix t j) /\ ix_Document ix j = Ok (NewDoc "1" "") /\
    LinearSearch ts ix = Ok rs /\ ~ NewDoc "1" "" ∈ map sr_Document rs.
Proof.
  exists (five (fun t => if (t =? "a")%string then Some [3; 1] else Some [1; 3])), ["a"; "b"], 1, [MkSR (NewDoc "3" "") 2].
  split; [|split; [done|split; [done|]]].
  - intros t Ht. repeat (apply elem_of_cons in Ht as [->|Ht]); [| |by apply elem_of_nil in Ht].
    + exists [3; 1]. split; [done|]. right. left.
    + exists [1; 3]. split; [done|]. left.
  - cbn. intros H. apply elem_of_list_singleton in H. done.
Qed.
Print Assumptions C64_complete_when_unsorted_refuted.

Example C64_example :
  let ix := five (fun t => if (t =? "a")%string then Some [0; 2; 4] else if (t =? "b")%string then Some [1; 2; 4] else None) in
  ascending ix ["a"; "b"] /\
  LinearSearch ["a"; "b"] ix = Ok [MkSR (NewDoc "2" "") 2; MkSR (NewDoc "4" "") 2] /\
  LinearSearch ["a"] (five (fun _ => Some [0; 7])) = Panic.
Proof.
  split; [|done]. intros t l Ht. repeat (apply elem_of_cons in Ht as [->|Ht]); [| |by apply elem_of_nil in Ht];
    intros [= <-]; repeat (constructor; [|repeat constructor; lia]); constructor.
Qed.

(** ** C65: HitsSearch *)

(** How often position [j] is listed under the tokens [ts], in total. *)
Definition listed (ix : Indexer) (ts : list string) (j : Z) : nat :=
  list_sum (map (fun t => length (filter (fun x => x = j) (default [] (ix_Indexed ix t)))) ts).

(** The Indexer has [n] documents, [doc i] at position [i], with distinct hashes,
    and lists only their positions. *)
Record holds (ix : Indexer) (n : nat) (doc : nat -> Doc) (ts : list string) : Prop := {
  holds_len : ix_Len ix = Z.of_nat n;
  holds_doc : forall i, (i < n)%nat -> ix_Document ix (Z.of_nat i) = Ok (doc i);
  holds_hash : forall i j, (i < n)%nat -> (j < n)%nat -> Hash (doc i) = Hash (doc j) -> i = j;
  holds_range : forall t l j, t ∈ ts -> ix_Indexed ix t = Some l -> j ∈ l -> 0 <= j < Z.of_nat n }.

Definition countn (i : nat) (l : list Z) : nat := length (filter (fun x => x = Z.of_nat i) l).

Lemma hit_docs_any ix n doc (l : list Z) (m : gmap N SearchResult) (c : nat -> nat) :
  (forall i, (i < n)%nat -> ix_Document ix (Z.of_nat i) = Ok (doc i)) ->
  (forall i j, (i < n)%nat -> (j < n)%nat -> Hash (doc i) = Hash (doc j) -> i = j) ->
  (forall j, j ∈ l -> 0 <= j < Z.of_nat n) ->
  (forall i, (i < n)%nat -> m !! Hash (doc i) = if (c i =? 0)%nat then None else Some (MkSR (doc i) (Z.of_nat (c i)))) ->
  exists m', ofold (hit_doc ix) m l = Ok m' /\
    (forall i, (i < n)%nat -> m' !! Hash (doc i) =
       if (c i + countn i l =? 0)%nat then None else Some (MkSR (doc i) (Z.of_nat (c i + countn i l)))).
Proof.
  intros Hd Hh. revert m c. induction l as [|j l IH]; intros m c Hl Hm.
  { exists m. split; [done|]. intros i Hi. unfold countn. cbn. rewrite Nat.add_0_r. by apply Hm. }
  destruct (Hl j) as [Hj0 Hj1]; [left|].
  set (k := Z.to_nat j). assert (Hk : (k < n)%nat) by lia. assert (Ej : j = Z.of_nat k) by lia.
  cbn [ofold]. unfold hit_doc at 1. rewrite Ej, (Hd k Hk). cbn [obind]. rewrite (Hm k Hk).
  assert (Hstep : forall m1, (forall i, (i < n)%nat -> m1 !! Hash (doc i) =
            if (c i + (if decide (i = k) then 1 else 0) =? 0)%nat then None
            else Some (MkSR (doc i) (Z.of_nat (c i + (if decide (i = k) then 1 else 0))))) ->
          exists m', ofold (hit_doc ix) m1 l = Ok m' /\
    (forall i, (i < n)%nat -> m' !! Hash (doc i) =
       if (c i + countn i (Z.of_nat k :: l) =? 0)%nat then None
       else Some (MkSR (doc i) (Z.of_nat (c i + countn i (Z.of_nat k :: l)))))).
  { intros m1 Hm1. destruct (IH m1 (fun i => c i + (if decide (i = k) then 1 else 0))%nat) as (m' & E & Hm').
    - intros j' Hj'. apply Hl. by right.
    - exact Hm1.
    - exists m'. split; [done|]. intros i Hi. rewrite (Hm' i Hi).
      replace (c i + (if decide (i = k) then 1 else 0) + countn i l)%nat with (c i + countn i (Z.of_nat k :: l))%nat; [done|].
      unfold countn. rewrite filter_cons. destruct (decide (i = k)) as [->|N].
      + rewrite decide_True by done. cbn [length]. lia.
      + rewrite decide_False by lia. lia. }
  destruct (c k =? 0)%nat eqn:Ek; cbn [obind]; apply Hstep.
  - intros i Hi. destruct (decide (i = k)) as [->|N].
    + rewrite lookup_insert. apply Nat.eqb_eq in Ek. rewrite Ek. done.
    + rewrite lookup_insert_ne by (intros E; apply N; symmetry; by apply Hh). rewrite (Hm i Hi), Nat.add_0_r. done.
  - intros i Hi. destruct (decide (i = k)) as [->|N].
    + rewrite lookup_insert. cbn [sr_Document sr_Hits]. apply Nat.eqb_neq in Ek.
      replace (c k + 1 =? 0)%nat with false by (symmetry; apply Nat.eqb_neq; lia). do 2 f_equal. lia.
    + rewrite lookup_insert_ne by (intros E; apply N; symmetry; by apply Hh). rewrite (Hm i Hi), Nat.add_0_r. done.
Qed.

Lemma hit_tokens_any ix n doc ts (m : gmap N SearchResult) (c : nat -> nat) :
  (forall i, (i < n)%nat -> ix_Document ix (Z.of_nat i) = Ok (doc i)) ->
  (forall i j, (i < n)%nat -> (j < n)%nat -> Hash (doc i) = Hash (doc j) -> i = j) ->
  (forall t l j, t ∈ ts -> ix_Indexed ix t = Some l -> j ∈ l -> 0 <= j < Z.of_nat n) ->
  (forall i, (i < n)%nat -> m !! Hash (doc i) = if (c i =? 0)%nat then None else Some (MkSR (doc i) (Z.of_nat (c i)))) ->
  exists m', ofold (hit_token ix) m ts = Ok m' /\
    (forall i, (i < n)%nat -> m' !! Hash (doc i) =
       if (c i + listed ix ts (Z.of_nat i) =? 0)%nat then None
       else Some (MkSR (doc i) (Z.of_nat (c i + listed ix ts (Z.of_nat i))))).
Proof.
  intros Hd Hh. revert m c. induction ts as [|t ts IH]; intros m c Hl Hm.
  { exists m. split; [done|]. intros i Hi. unfold listed. cbn. rewrite Nat.add_0_r. by apply Hm. }
  cbn [ofold]. unfold hit_token at 1. destruct (ix_Indexed ix t) as [l|] eqn:El; cbn [obind].
  - destruct (hit_docs_any ix n doc l m c Hd Hh) as (m1 & E1 & Hm1); [intros j; by apply (Hl t); [left|]|done|].
    rewrite E1. cbn [obind].
    destruct (IH m1 (fun i => c i + countn i l)%nat) as (m' & E & Hm'); [|exact Hm1|].
    { intros t' l' j Ht'. apply Hl. by right. }
    exists m'. split; [done|]. intros i Hi. rewrite (Hm' i Hi).
    unfold listed. cbn [map list_sum foldr]. rewrite El. cbn [default]. unfold countn.
    change (foldr Nat.add 0%nat) with list_sum. cbn. rewrite <- Nat.add_assoc. done.
  - destruct (IH m c) as (m' & E & Hm'); [|exact Hm|].
    { intros t' l' j Ht'. apply Hl. by right. }
    exists m'. split; [done|]. intros i Hi. rewrite (Hm' i Hi).
    unfold listed. cbn [map list_sum foldr]. rewrite El. done.
Qed.

(** HitsSearch returns, ordered by the sorting procedure, exactly the documents
    listed at least as often as there are query tokens (and at least once), with
    the number of times as Hits. *)
Theorem C65_hits_search_any_indexer :
  forall srt (ix : Indexer) n doc ts, holds ix n doc ts ->
    HitsSearch srt ts ix = Ok (srt (flat_map (fun i =>
      let k := listed ix ts (Z.of_nat i) in
      if (1 <=? k)%nat && (length ts <=? k)%nat then [MkSR (doc i) (Z.of_nat k)] else []) (seq 0 n))).
Proof.
  intros srt ix n doc ts [H1 H2 H3 H4]. unfold HitsSearch.
  destruct (hit_tokens_any ix n doc ts ∅ (fun _ => 0%nat) H2 H3 H4) as (m & E & Hm); [intros; apply lookup_empty|].
  rewrite E. cbn [obind]. rewrite H1. unfold upto. rewrite Nat2Z.id.
  set (g := fun i => let k := listed ix ts (Z.of_nat i) in
      if (1 <=? k)%nat && (length ts <=? k)%nat then [MkSR (doc i) (Z.of_nat k)] else []).
  assert (Hf : forall l acc, Forall (fun i => (i < n)%nat) l ->
    ofold (hit_filter ix (Z.of_nat (length ts)) m) acc (map Z.of_nat l) = Ok (acc ++ flat_map g l)).
  { induction l as [|i l IH]; intros acc Hl; [cbn; by rewrite app_nil_r|].
    apply Forall_cons in Hl as [Hi Hl]. cbn [map ofold flat_map]. unfold hit_filter at 1. rewrite (H2 i Hi). cbn [obind].
    rewrite (Hm i Hi). rewrite Nat.add_0_l. unfold g at 1. cbn zeta.
    destruct (listed ix ts (Z.of_nat i) =? 0)%nat eqn:E0.
    - apply Nat.eqb_eq in E0. rewrite E0. cbn [Nat.leb andb obind app]. by apply IH.
    - apply Nat.eqb_neq in E0. cbn [sr_Hits].
      replace (1 <=? listed ix ts (Z.of_nat i))%nat with true by lia. cbn [andb].
      destruct (length ts <=? listed ix ts (Z.of_nat i))%nat eqn:E1.
      + replace (Z.of_nat (listed ix ts (Z.of_nat i)) >=? Z.of_nat (length ts)) with true by lia. cbn [obind].
        rewrite IH by done. by rewrite <- app_assoc.
      + replace (Z.of_nat (listed ix ts (Z.of_nat i)) >=? Z.of_nat (length ts)) with false by lia. cbn [obind].
        by apply IH. }
  rewrite (Hf _ []); [done|]. apply Forall_seq. lia.
Qed.
Print Assumptions C65_hits_search_any_indexer.

(** If no posting list repeats a position, those are the documents listed under
    every query token, whatever the order of the lists. *)
Theorem C65_and_semantics_without_repetition :
  forall srt (ix : Indexer) n doc ts rs,
    sort_contract srt -> holds ix n doc ts ->
    (forall t l, t ∈ ts -> ix_Indexed ix t = Some l -> NoDup l) ->
    HitsSearch srt ts ix = Ok rs ->
    forall r, r ∈ rs <-> exists i, (i < n)%nat /\ r = MkSR (doc i) (Z.of_nat (length ts)) /\ ts <> [] /\
                                forall t, t ∈ ts -> lists ix t (Z.of_nat i).
Proof.
  intros srt ix n doc ts rs Hsrt Hh Hnd. rewrite (C65_hits_search_any_indexer srt ix n doc ts Hh).
  set (rows := flat_map _ _). intros [= <-] r. rewrite (proj1 (Hsrt _)). unfold rows. clear rows.
  assert (Hc : forall t i, t ∈ ts ->
    length (filter (fun x => x = Z.of_nat i) (default [] (ix_Indexed ix t))) =
    if bool_decide (Z.of_nat i ∈ default [] (ix_Indexed ix t)) then 1%nat else 0%nat).
  { intros t i Ht. destruct (ix_Indexed ix t) as [l|] eqn:El; [|done]. cbn [default]. cbn.
    specialize (Hnd t l Ht El). clear El. induction Hnd as [|x l Hx Hnd IH]; [done|].
    rewrite filter_cons. destruct (decide (x = Z.of_nat i)) as [->|N].
    - rewrite bool_decide_true by left. cbn [length]. rewrite IH, bool_decide_false by done. done.
    - rewrite IH. assert (E : Z.of_nat i ∈ l <-> Z.of_nat i ∈ x :: l) by (rewrite elem_of_cons; naive_solver).
      by rewrite (bool_decide_ext _ _ E). }
  assert (Hls : forall i t, lists ix t (Z.of_nat i) <-> Z.of_nat i ∈ default [] (ix_Indexed ix t)).
  { intros i t. unfold lists. destruct (ix_Indexed ix t) as [l|]; cbn.
    - split; [intros (l' & [= <-] & H); done|eauto].
    - split; [intros (l' & ? & _); done|intros H; by apply elem_of_nil in H]. }
  assert (Hsum : forall i, (listed ix ts (Z.of_nat i) <= length ts)%nat /\
     (listed ix ts (Z.of_nat i) = length ts <-> forall t, t ∈ ts -> lists ix t (Z.of_nat i))).
  { intros i. unfold listed. clear Hh Hnd. induction ts as [|t ts IH].
    - split; [done|]. split; [|done]. intros _ t Ht. by apply elem_of_nil in Ht.
    - destruct IH as [IH1 IH2]; [intros; apply Hc; by right|].
      cbn [map list_sum foldr length]. change (foldr Nat.add 0%nat) with list_sum. rewrite (Hc t i) by left.
      destruct (bool_decide _) eqn:Eb.
      + apply bool_decide_eq_true in Eb. split; [lia|]. split.
        * intros E t' Ht'. apply elem_of_cons in Ht' as [->|Ht']; [by apply Hls|]. apply IH2; [lia|done].
        * intros H. rewrite (proj2 IH2); [lia|]. intros t' Ht'. apply H. by right.
      + apply bool_decide_eq_false in Eb. split; [lia|]. split; [lia|].
        intros H. destruct Eb. apply Hls, H. left. }
  rewrite elem_of_list_In, in_flat_map. split.
  - intros (i & Hi & Hr). apply in_seq in Hi. cbn zeta in Hr. destruct (Hsum i) as [S1 S2].
    destruct ((1 <=? listed ix ts (Z.of_nat i))%nat && (length ts <=? listed ix ts (Z.of_nat i))%nat) eqn:Eb; [|destruct Hr].
    apply andb_true_iff in Eb as [E1 E2]. destruct Hr as [<-|[]].
    assert (E : listed ix ts (Z.of_nat i) = length ts) by lia.
    exists i. rewrite E. split; [lia|]. split; [done|]. split; [intros ->; cbn in *; lia|by apply S2].
  - intros (i & Hi & -> & Hne & Ht). exists i. split; [apply in_seq; lia|]. cbn zeta. destruct (Hsum i) as [S1 S2].
    rewrite (proj2 S2 Ht). replace (1 <=? length ts)%nat with true by (destruct ts; [done|]; cbn; lia).
    rewrite Nat.leb_refl. cbn [andb]. by left.
Qed.
Print Assumptions C65_and_semantics_without_repetition.

(** With repetition it is false: document 1 is found for "a b" although it is not
    listed under "b". *)
Theorem C65_and_semantics_with_repetition_refuted :
  exists ix n doc ts, holds ix n doc ts /\
    HitsSearch insertion_sort ts ix = Ok [MkSR (NewDoc "1" "") 2] /\
    "b" ∈ ts /\ ~ lists ix "b" 1.
Proof.
  exists (five (fun t => if (t =? "a")%string then Some [1; 1] else None)), 5%nat,
    (fun i => NewDoc (nth i ["0"; "1"; "2"; "3"; "4"] "") ""), ["a"; "b"].
  split; [split|split; [|split]].
  - done.
  - intros i Hi. do 5 (destruct i as [|i]; [done|]). lia.
  - intros i j Hi Hj. do 5 (destruct i as [|i]; [do 5 (destruct j as [|j]; [vm_compute; done|]); lia|]). lia.
  - intros t l j Ht. repeat (apply elem_of_cons in Ht as [->|Ht]); [| |by apply elem_of_nil in Ht].
    + intros [= <-] Hj. repeat (apply elem_of_cons in Hj as [->|Hj]); [lia|lia|by apply elem_of_nil in Hj].
    + done.
  - vm_compute. done.
  - right. left.
  - intros (l & ? & _). done.
Qed.
Print Assumptions C65_and_semantics_with_repetition_refuted.

Example C65_example :
  let ix := five (fun t => if (t =? "a")%string then Some [4; 2; 0] else Some [2; 1; 4]) in
  HitsSearch insertion_sort ["a"; "b"] ix = Ok [MkSR (NewDoc "2" "") 2; MkSR (NewDoc "4" "") 2].
Proof. vm_compute. done. Qed.
