(** * The slices of a MemoryIndex are its own. *)
From Coq Require Import Lia.
From stdpp Require Import list gmap.
From Verif Require Import Entities Search SpecSearch Heap.
Open Scope nat_scope.

Definition wfs {A} (m : mem A) (s : slc) : Prop :=
  exists l, m_arrs m !! s_arr s = Some l /\ length l = s_cap s /\ s_len s <= s_cap s /\ s_arr s < m_next m.

Definition owf {A} (m : mem A) (s : option slc) : Prop := match s with Some s => wfs m s | None => True end.

Lemma wfs_mono {A} (m m' : mem A) s :
  m_arrs m' !! s_arr s = m_arrs m !! s_arr s -> m_next m <= m_next m' -> wfs m s -> wfs m' s.
Proof. intros E Hn (l & H1 & H2 & H3 & H4). exists l. rewrite E. repeat split; [done..|lia]. Qed.

Lemma elems_mono {A} (m m' : mem A) s :
  m_arrs m' !! s_arr s = m_arrs m !! s_arr s -> elems m' (Some s) = elems m (Some s).
Proof. intros E. unfold elems. by rewrite E. Qed.

Lemma append_spec {A} extra (z : A) m s x m' s' :
  owf m s -> go_append extra z m s x = (m', s') ->
  wfs m' s' /\ elems m' (Some s') = elems m s ++ [x] /\ s_len s' = S (length (elems m s)) /\
  m_next m <= m_next m' /\
  ((exists s0, s = Some s0 /\ s_arr s' = s_arr s0) \/ s_arr s' = m_next m) /\
  (forall a, a <> s_arr s' -> m_arrs m' !! a = m_arrs m !! a).
Proof.
  intros Hs Ha. unfold go_append in Ha. destruct s as [s|].
  - destruct Hs as (l & H1 & H2 & H3 & H4).
    assert (He : elems m (Some s) = take (s_len s) l) by (unfold elems; by rewrite H1).
    assert (Hlen : length (take (s_len s) l) = s_len s) by (rewrite take_length; lia).
    destruct (s_len s <? s_cap s) eqn:E.
    + apply Nat.ltb_lt in E. injection Ha as <- <-. unfold store. cbn [m_arrs m_next s_arr s_len s_cap].
      split; [|split; [|split; [|split; [|split]]]].
      * exists (<[s_len s := x]> l). cbn [m_arrs m_next s_arr s_len s_cap]. rewrite lookup_alter, H1. split; [done|].
        rewrite insert_length. lia.
      * rewrite He. unfold elems. cbn [m_arrs s_arr s_len]. rewrite lookup_alter, H1. cbn [fmap option_fmap option_map default].
        cbn. rewrite (take_S_r _ _ x) by (apply list_lookup_insert; lia).
        by rewrite take_insert by lia.
      * by rewrite He, Hlen.
      * lia.
      * eauto.
      * intros a Hne. by rewrite lookup_alter_ne by done.
    + apply Nat.ltb_ge in E. rewrite He in Ha. set (l0 := take (s_len s) l) in *. clearbody l0.
      cbn [alloc] in Ha. injection Ha as <- <-. cbn [m_arrs m_next s_arr s_len s_cap].
      split; [|split; [|split; [|split; [|split]]]].
      * eexists. cbn [m_arrs m_next s_arr s_len s_cap]. rewrite lookup_insert. split; [done|].
        rewrite app_length, Hlen. simpl. rewrite replicate_length. lia.
      * rewrite He. unfold elems. cbn [m_arrs s_arr s_len]. rewrite lookup_insert. cbn [default].
        rewrite (cons_middle x l0), app_assoc. cbn. rewrite take_app_alt; [done|]. rewrite app_length, Hlen. simpl. lia.
      * by rewrite He, Hlen.
      * lia.
      * by right.
      * intros a Hne. by rewrite lookup_insert_ne by done.
  - cbn [alloc] in Ha. injection Ha as <- <-. cbn [m_arrs m_next s_arr s_len s_cap].
    split; [|split; [|split; [|split; [|split]]]].
    + eexists. cbn [m_arrs m_next s_arr s_len s_cap]. rewrite lookup_insert. split; [done|].
      simpl. rewrite replicate_length. lia.
    + unfold elems. cbn [m_arrs s_arr s_len]. rewrite lookup_insert. cbn. done.
    + done.
    + lia.
    + by right.
    + intros a Hne. by rewrite lookup_insert_ne by done.
Qed.

(** The postings: every stored slice is well formed and has an array of its own,
    which no caller holds. *)
Record own (held : list slc) (inv : gmap string slc) (m : mem Z) (g : gmap string (list Z)) : Prop := {
  own_some : forall t s, inv !! t = Some s -> wfs m s /\ g !! t = Some (elems m (Some s));
  own_none : forall t, inv !! t = None -> g !! t = None;
  own_inj : forall t t' s s', inv !! t = Some s -> inv !! t' = Some s' -> s_arr s = s_arr s' -> t = t';
  own_held : forall t s s', inv !! t = Some s -> s' ∈ held -> s_arr s' <> s_arr s;
  own_lt : forall s, s ∈ held -> s_arr s < m_next m }.

Lemma own_token extra next held inv m g t :
  own held inv m g ->
  own held (h_put_token extra next (inv, m) t).1 (h_put_token extra next (inv, m) t).2 (put_token next g t) /\
  m_next m <= m_next (h_put_token extra next (inv, m) t).2 /\
  (forall s, s ∈ held -> m_arrs (h_put_token extra next (inv, m) t).2 !! s_arr s = m_arrs m !! s_arr s).
Proof.
  intros H. unfold h_put_token, put_token. cbn [fst snd].
  assert (Hg : default [] (g !! t) = elems m (inv !! t)).
  { destruct (inv !! t) as [s|] eqn:E; [by destruct (own_some _ _ _ _ H t s E) as [_ ->]|].
    by rewrite (own_none _ _ _ _ H t E). }
  rewrite Hg. destruct (has_doc next (elems m (inv !! t))); [done|].
  destruct (go_append extra 0%Z m (inv !! t) next) as [m' s'] eqn:Ea. cbn [fst snd].
  assert (Hw : owf m (inv !! t)).
  { destruct (inv !! t) as [s|] eqn:E; [|done]. by apply (own_some _ _ _ _ H t s E). }
  destruct (append_spec _ _ _ _ _ _ _ Hw Ea) as (A1 & A2 & A3 & A4 & A5 & A6).
  assert (Hother : forall t2 s2, t2 <> t -> inv !! t2 = Some s2 -> s_arr s2 <> s_arr s').
  { intros t2 s2 Hne H2 E. destruct A5 as [(s0 & E0 & E1)|E1].
    - apply Hne. eapply (own_inj _ _ _ _ H); [exact H2|exact E0|congruence].
    - destruct (own_some _ _ _ _ H _ _ H2) as [(l & _ & _ & _ & Hlt) _]. lia. }
  assert (Hheld : forall s, s ∈ held -> s_arr s <> s_arr s').
  { intros s Hs E. destruct A5 as [(s0 & E0 & E1)|E1].
    - eapply (own_held _ _ _ _ H t s0 s); [done|done|congruence].
    - pose proof (own_lt _ _ _ _ H s Hs). lia. }
  split; [|split; [done|]].
  2:{ intros s Hs. by apply A6, Hheld. }
  split.
  - intros t2 s2 H2. destruct (decide (t2 = t)) as [->|Hne].
    + rewrite lookup_insert in H2. injection H2 as <-. rewrite lookup_insert, A2. done.
    + rewrite lookup_insert_ne in H2 by done. rewrite lookup_insert_ne by done.
      destruct (own_some _ _ _ _ H _ _ H2) as [W E].
      assert (Es : m_arrs m' !! s_arr s2 = m_arrs m !! s_arr s2) by (by apply A6, (Hother t2)).
      split; [by eapply wfs_mono|]. by rewrite (elems_mono m).
  - intros t2 H2. destruct (decide (t2 = t)) as [->|Hne]; [by rewrite lookup_insert in H2|].
    rewrite lookup_insert_ne in H2 by done. rewrite lookup_insert_ne by done. by apply (own_none _ _ _ _ H).
  - intros t1 t2 s1 s2 H1 H2 E.
    destruct (decide (t1 = t)) as [->|N1], (decide (t2 = t)) as [->|N2]; [done| | |].
    + rewrite lookup_insert in H1. rewrite lookup_insert_ne in H2 by done. injection H1 as <-.
      by destruct (Hother t2 s2 N2 H2).
    + rewrite lookup_insert in H2. rewrite lookup_insert_ne in H1 by done. injection H2 as <-.
      by destruct (Hother t1 s1 N1 H1).
    + rewrite lookup_insert_ne in H1, H2 by done. by eapply (own_inj _ _ _ _ H).
  - intros t1 s1 s2 H1 H2. destruct (decide (t1 = t)) as [->|N1].
    + rewrite lookup_insert in H1. injection H1 as <-. by apply Hheld.
    + rewrite lookup_insert_ne in H1 by done. by eapply (own_held _ _ _ _ H).
  - intros s Hs. pose proof (own_lt _ _ _ _ H s Hs). lia.
Qed.

Lemma own_tokens extra next held toks inv m g :
  own held inv m g ->
  let r := fold_left (h_put_token extra next) toks (inv, m) in
  own held r.1 r.2 (fold_left (put_token next) toks g) /\
  m_next m <= m_next r.2 /\ (forall s, s ∈ held -> m_arrs r.2 !! s_arr s = m_arrs m !! s_arr s).
Proof.
  revert inv m g. induction toks as [|t toks IH]; intros inv m g H; [done|]. cbn [fold_left].
  destruct (own_token extra next held inv m g t H) as (H1 & H2 & H3).
  destruct (h_put_token extra next (inv, m) t) as [inv' m']. cbn [fst snd] in *.
  destruct (IH inv' m' _ H1) as (K1 & K2 & K3). split; [done|]. split; [lia|].
  intros s Hs. rewrite K3 by done. by apply H3.
Qed.

(** The whole index. *)
Record agrees (held : list slc) (h : hindex) (mi : MemoryIndex) : Prop := {
  ag_name : h_name h = mi_name mi;
  ag_tok : h_tokenizer h = mi_tokenizer mi;
  ag_docs : exists s, h_Docs h = Some s /\ wfs (h_docmem h) s /\ elems (h_docmem h) (Some s) = mi_Docs mi;
  ag_inv : own held (h_Inverted h) (h_mem h) (mi_Inverted mi) }.

Lemma elems_length {A} (m : mem A) s : wfs m s -> length (elems m (Some s)) = s_len s.
Proof. intros (l & H1 & H2 & H3 & _). unfold elems. rewrite H1. cbn [default]. cbn. rewrite take_length. lia. Qed.

Lemma agrees_new name tk : agrees [] (h_New name tk) (NewMemoryIndex name tk).
Proof.
  split; [done|done| |].
  - exists (MkSlc 0 0 0). split; [done|]. split; [|done]. exists []. split; [done|]. cbn. lia.
  - split; cbn.
    + intros t s. by rewrite lookup_empty.
    + intros t _. apply lookup_empty.
    + intros t t' s s'. by rewrite lookup_empty.
    + intros t s s'. by rewrite lookup_empty.
    + intros s Hs. by apply elem_of_nil in Hs.
Qed.

Lemma agrees_Len held h mi : agrees held h mi -> h_Len h = Len mi.
Proof.
  intros [_ _ (s & Hs & Hw & He) _]. unfold h_Len, Len. rewrite Hs, <- He. by rewrite elems_length.
Qed.

Lemma agrees_Document held h mi i : agrees held h mi -> h_Document h i = Document mi i.
Proof. intros [_ _ (s & Hs & Hw & He) _]. unfold h_Document, Document. by rewrite Hs, He. Qed.

Lemma agrees_put extra held h mi r :
  agrees held h mi ->
  agrees held (h_Put extra h r) (Put mi r) /\
  (forall s, s ∈ held -> m_arrs (h_mem (h_Put extra h r)) !! s_arr s = m_arrs (h_mem h) !! s_arr s).
Proof.
  intros H. pose proof (agrees_Len _ _ _ H) as Hlen. destruct H as [Hn Ht (s & Hs & Hw & He) Hi].
  unfold h_Put. rewrite Hs, Hlen, Ht.
  destruct (go_append extra zero_doc (h_docmem h) (Some s) (NewDoc (req_ID r) (req_Raw r))) as [dm docs] eqn:Ed.
  destruct (append_spec _ _ _ _ _ _ _ (Hw : owf _ (Some s)) Ed) as (A1 & A2 & _).
  destruct (own_tokens extra (Len mi) held (mi_tokenizer mi (req_Statement r)) _ _ _ Hi) as (K1 & K2 & K3).
  revert K1 K2 K3. destruct (fold_left (h_put_token extra (Len mi)) _ _) as [inv m]. cbn [fst snd].
  intros K1 K2 K3. split; [|done]. split; [done|done| |done].
  exists docs. split; [done|]. split; [done|]. cbn [h_docmem]. by rewrite A2, He.
Qed.

Lemma agrees_Indexed ckn held h mi t :
  agrees held h mi ->
  let r := h_Indexed ckn h t in
  agrees (match r.2 with Some s => s :: held | None => held end) r.1 mi /\
  (match r.2 with Some s => Some (elems (h_mem r.1) (Some s)) | None => None end) = Indexed ckn mi t /\
  (forall s, s ∈ held -> m_arrs (h_mem r.1) !! s_arr s = m_arrs (h_mem h) !! s_arr s) /\
  (forall s s', r.2 = Some s -> s' ∈ held -> s_arr s <> s_arr s').
Proof.
  intros H. unfold h_Indexed, Indexed. destruct H as [Hn Ht Hd Hi].
  set (data := h_Inverted h !! t).
  assert (Hdata : mi_Inverted mi !! t = (fun s => elems (h_mem h) (Some s)) <$> data).
  { unfold data. destruct (h_Inverted h !! t) as [s|] eqn:E.
    - by destruct (own_some _ _ _ _ Hi _ _ E) as [_ ->].
    - by rewrite (own_none _ _ _ _ Hi _ E). }
  rewrite Hdata. destruct (match data with Some _ => false | None => ckn end) eqn:Ec.
  { destruct data; [done|]. subst ckn. cbn [fst snd]. done. }
  cbn [alloc fst snd]. set (l := elems (h_mem h) data).
  assert (Hfresh : forall s, s ∈ held -> s_arr s <> m_next (h_mem h)).
  { intros s Hs. pose proof (own_lt _ _ _ _ Hi s Hs). lia. }
  split; [|split; [|split]].
  - split; cbn [h_name h_tokenizer h_Docs h_docmem h_Inverted h_mem]; [done..|].
    split; cbn [m_arrs m_next].
    + intros t2 s2 H2. destruct (own_some _ _ _ _ Hi _ _ H2) as [W E]. pose proof W as (l2 & _ & _ & _ & Hlt).
      split.
      * eapply wfs_mono; [| |exact W]; cbn [m_arrs m_next]; [|lia]. rewrite lookup_insert_ne by lia. done.
      * rewrite E. f_equal. symmetry. apply elems_mono. cbn [m_arrs]. rewrite lookup_insert_ne by lia. done.
    + apply (own_none _ _ _ _ Hi).
    + apply (own_inj _ _ _ _ Hi).
    + intros t2 s2 s' H2 Hin. apply elem_of_cons in Hin as [->|Hin]; [|by eapply (own_held _ _ _ _ Hi)].
      cbn [s_arr]. destruct (own_some _ _ _ _ Hi _ _ H2) as [(l2 & _ & _ & _ & Hlt) _]. lia.
    + intros s' Hin. apply elem_of_cons in Hin as [->|Hin]; cbn [s_arr]; [lia|].
      pose proof (own_lt _ _ _ _ Hi _ Hin). lia.
  - unfold elems at 1. cbn [h_mem m_arrs s_arr s_len]. rewrite lookup_insert. cbn [default]. cbn.
    rewrite take_ge by done. unfold l. destruct data; [done|]. by destruct ckn.
  - intros s Hs. cbn [h_mem m_arrs]. by rewrite lookup_insert_ne by (apply not_eq_sym, Hfresh, Hs).
  - intros s s' [= <-] Hs. cbn [s_arr]. apply not_eq_sym, Hfresh, Hs.
Qed.

Lemma agrees_scribble held h mi s i x :
  agrees held h mi -> s ∈ held ->
  agrees held (h_scribble h s i x) mi /\
  (forall a, a <> s_arr s -> m_arrs (h_mem (h_scribble h s i x)) !! a = m_arrs (h_mem h) !! a).
Proof.
  intros [Hn Ht Hd Hi] Hs. split.
  2:{ intros a Ha. cbn. by rewrite lookup_alter_ne by done. }
  split; [done..|]. cbn [h_scribble h_Inverted h_mem].
  assert (Hne : forall t s2, h_Inverted h !! t = Some s2 ->
    m_arrs (store (h_mem h) (s_arr s) i x) !! s_arr s2 = m_arrs (h_mem h) !! s_arr s2).
  { intros t s2 H2. unfold store. cbn [m_arrs]. rewrite lookup_alter_ne; [done|]. by eapply (own_held _ _ _ _ Hi). }
  split.
  - intros t s2 H2. destruct (own_some _ _ _ _ Hi _ _ H2) as [W E]. split.
    + apply (wfs_mono (h_mem h)); [by eapply Hne|done|exact W].
    + rewrite E. f_equal. symmetry. apply elems_mono. by eapply Hne.
  - apply (own_none _ _ _ _ Hi).
  - apply (own_inj _ _ _ _ Hi).
  - apply (own_held _ _ _ _ Hi).
  - intros s' Hin. cbn. by apply (own_lt _ _ _ _ Hi).
Qed.
