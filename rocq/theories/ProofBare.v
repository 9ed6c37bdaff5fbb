(** * Goroutines that share a MemoryIndex. *)
From Coq Require Import Lia.
From stdpp Require Import gmap list.
From Verif Require Import Entities Search SpecSearch ProofSearch Heap ProofHeap Trace Print Bare SpecBare.
Open Scope nat_scope.

(** ** Calls that change nothing *)
Inductive sees (h : hindex) (R : mprog -> Prop) : mprog -> Prop :=
| S_Done r : R (MDone r) -> sees h R (MDone r)
| S_Throw : R MThrow -> sees h R MThrow
| S_Spin : R MSpin -> sees h R MSpin
| S_GetDocs k : sees h R (k (h_Docs h)) -> sees h R (MGetDocs k)
| S_LoadDoc s i k :
    sees h R (k (default zero_doc (default [] (m_arrs (h_docmem h) !! s_arr s) !! i))) -> sees h R (MLoadDoc s i k)
| S_GetKey t k : sees h R (k (h_Inverted h !! t)) -> sees h R (MGetKey t k)
| S_Range k : (forall l, l ≡ₚ map_to_list (h_Inverted h) -> sees h R (k l)) -> sees h R (MRange k)
| S_Load s k : sees h R (k (elems (h_mem h) s)) -> sees h R (MLoad s k).

Lemma sees_step extra h R p p' h' : sees h R p -> bstep extra p h p' h' -> h' = h /\ sees h R p'.
Proof. intros Hs Hb. destruct Hb; inversion Hs; subst; auto. Qed.
Lemma sees_touches h R p l w : sees h R p -> touches p l w -> w = false.
Proof. intros Hs Ht. destruct Ht; inversion Hs; done. Qed.

Lemma sees_pool extra h Rs ps qs h' :
  Forall2 (sees h) Rs ps -> rtc (bpool extra) (ps, h) (qs, h') -> h' = h /\ Forall2 (sees h) Rs qs.
Proof.
  intros Hf Hr.
  refine (rtc_ind_r (R := bpool extra) (fun q => q.2 = h /\ Forall2 (sees h) Rs q.1) _ _ _ _ Hr); [done|].
  intros [ps1 h1] q _ Hs [E IH]. cbn [fst snd] in *. subst h1. inversion Hs as [? ? i p p' h2 Hi Hb]; subst. cbn [fst snd].
  destruct (Forall2_lookup_r _ _ _ _ _ IH Hi) as (R & HR & Hp). destruct (sees_step _ _ _ _ _ _ Hp Hb) as [-> Hp'].
  split; [done|]. rewrite <- (list_insert_id Rs i R HR). by apply Forall2_insert.
Qed.

Lemma sees_no_race h Rs ps : Forall2 (sees h) Rs ps -> ~ brace ps.
Proof.
  intros Hf (i & j & p & q & l & w & w' & Hi & Hj & _ & Hp & Hq & Hw).
  destruct (Forall2_lookup_r _ _ _ _ _ Hf Hi) as (R & _ & Hsp). destruct (Forall2_lookup_r _ _ _ _ _ Hf Hj) as (R' & _ & Hsq).
  rewrite (sees_touches _ _ _ _ _ Hsp Hp), (sees_touches _ _ _ _ _ Hsq Hq) in Hw. by destruct Hw.
Qed.

Section reading.
  Context (ckn : bool) (held : list slc) (h : hindex) (mi : MemoryIndex) (HA : agrees held h mi).

  Lemma own_lookup held' inv m g t : own held' inv m g -> g !! t = (fun s => elems m (Some s)) <$> inv !! t.
  Proof.
    intros Ho. destruct (inv !! t) as [s|] eqn:E.
    - by destruct (own_some _ _ _ _ Ho _ _ E) as [_ ->].
    - by rewrite (own_none _ _ _ _ Ho _ E).
  Qed.
  Lemma copied_Indexed t : copied ckn (h_Inverted h !! t) (elems (h_mem h) (h_Inverted h !! t)) = Indexed ckn mi t.
  Proof. unfold Indexed. rewrite (own_lookup _ _ _ _ t (ag_inv _ _ _ HA)). by destruct (h_Inverted h !! t). Qed.
  Lemma len_Len : len_of (h_Docs h) = Len mi.
  Proof. rewrite <- (agrees_Len _ _ _ HA). done. Qed.

  Lemma sees_Document (R : mprog -> Prop) i k :
    (forall d, Document mi i = Ok d -> sees h R (k d)) -> (Document mi i = Panic -> R MThrow) -> sees h R (Document_m i k).
  Proof.
    intros Hok Hno. pose proof (agrees_Document _ _ _ i HA) as E. unfold h_Document in E.
    unfold Document_m. apply S_GetDocs. destruct (ag_docs _ _ _ HA) as (s & Hs & Hw & He). rewrite Hs in E |- *.
    assert (Hlen := elems_length _ _ Hw). unfold slice_get in E.
    destruct ((0 <=? i)%Z && (i <? Z.of_nat (s_len s))%Z) eqn:Eb.
    - apply andb_true_iff in Eb as [E1 E2]. apply Z.leb_le in E1. apply Z.ltb_lt in E2.
      assert (Hlt : Z.to_nat i < length (elems (h_docmem h) (Some s))) by lia.
      destruct (lookup_lt_is_Some_2 _ _ Hlt) as [d Hd].
      assert (Hd' : default [] (m_arrs (h_docmem h) !! s_arr s) !! Z.to_nat i = Some d).
      { unfold elems in Hd. rewrite lookup_take in Hd by lia. done. }
      apply S_LoadDoc. rewrite Hd'. apply Hok. rewrite <- E.
      rewrite Hd. by rewrite (proj2 (Z.ltb_ge i 0)).
    - apply S_Throw. apply Hno. rewrite <- E. destruct (i <? 0)%Z eqn:E1; [done|]. apply Z.ltb_ge in E1.
      rewrite (proj2 (Z.leb_le 0 i)) in Eb by done. cbn in Eb. apply Z.ltb_ge in Eb.
      rewrite lookup_ge_None_2; [done|]. rewrite Hlen. lia.
  Qed.

  Lemma sees_engine (R : mprog -> Prop) p :
    (forall l, (irun (indexer_of ckn mi) p).2 = Some (Ok l) -> R (MDone (BResults l))) ->
    ((irun (indexer_of ckn mi) p).2 = Some Panic -> R MThrow) ->
    ((irun (indexer_of ckn mi) p).2 = None -> R MSpin) -> sees h R (engine_m ckn p).
  Proof.
    induction p as [l| |k IH|t k IH|i k IH]; cbn [irun engine_m fst snd]; intros H1 H2 H3.
    - apply S_Done. by apply H1.
    - apply S_Spin. by apply H3.
    - apply S_GetDocs. rewrite len_Len. by apply IH.
    - apply S_GetKey, S_Load. rewrite copied_Indexed. by apply IH.
    - cbn [ix_Document indexer_of] in H1, H2, H3. apply sees_Document.
      + intros d E. rewrite E in H1, H2, H3. by apply IH.
      + intros E. rewrite E in H2. by apply H2.
  Qed.

  Lemma sees_print (R : mprog -> Prop) es buf :
    R (MDone (BText (fold_left write_token ((fun e => (e.1, elems (h_mem h) (Some e.2))) <$> es) buf ++ newline ++ "}"))%string) ->
    sees h R (print_m es buf).
  Proof. revert buf. induction es as [|[t s] es IH]; intros buf HR; cbn; [by apply S_Done|]. apply S_Load. by apply IH. Qed.

  Lemma entries_perm es :
    es ≡ₚ map_to_list (h_Inverted h) -> ((fun e => (e.1, elems (h_mem h) (Some e.2))) <$> es) ≡ₚ map_to_list (mi_Inverted mi).
  Proof.
    intros Hp. assert (E : mi_Inverted mi = (fun s => elems (h_mem h) (Some s)) <$> h_Inverted h).
    { apply map_eq. intros t. rewrite lookup_fmap. by apply (own_lookup held), (ag_inv _ _ _ HA). }
    rewrite Hp, E, map_to_list_fmap. apply reflexive_eq. apply list_fmap_ext. by intros ? [].
  Qed.

  Lemma sees_call c :
    looks c -> sees h (answer_of ckn mi c) (bprog ckn (mi_name mi) (mi_tokenizer mi) c).
  Proof.
    destruct c as [r|q e| |t|i|]; intros Hl; cbn [bprog]; [done|..].
    - apply sees_engine; cbn [answer_of].
      + intros l ->. done.
      + by intros ->.
      + by intros ->.
    - apply S_GetDocs, S_Done. cbn. rewrite len_Len. done.
    - apply S_GetKey, S_Load, S_Done. cbn. by rewrite copied_Indexed.
    - apply sees_Document.
      + intros d E. apply S_Done. cbn. unfold Document in E. by rewrite E.
      + intros E. cbn. unfold Document in E. by rewrite E.
    - apply S_Range. intros es Hes. apply sees_print. cbn [answer_of].
      exists (fun _ => (fun e => (e.1, elems (h_mem h) (Some e.2))) <$> es). split; [by apply entries_perm|].
      reflexivity.
  Qed.
End reading.

(** ** Runs of one goroutine, and of one among others *)
Definition brun (extra : nat -> nat) : mprog * hindex -> mprog * hindex -> Prop :=
  rtc (fun a b => bstep extra a.1 a.2 b.1 b.2).

Lemma brun_step extra p h p1 h1 q : bstep extra p h p1 h1 -> brun extra (p1, h1) q -> brun extra (p, h) q.
Proof. intros H1 H2. by eapply (rtc_l _ (p, h) (p1, h1)). Qed.

Lemma brun_pool extra p h p' h' ps i :
  brun extra (p, h) (p', h') -> ps !! i = Some p -> rtc (bpool extra) (ps, h) (<[i := p']> ps, h').
Proof.
  intros Hr Hi.
  refine (rtc_ind_r (R := fun a b => bstep extra a.1 a.2 b.1 b.2) (fun q => rtc (bpool extra) (ps, h) (<[i := q.1]> ps, q.2)) _ _ _ _ Hr).
  - cbn. by rewrite list_insert_id.
  - intros [p1 h1] [p2 h2] _ Hs IH. cbn [fst snd] in *. eapply rtc_r; [exact IH|].
    rewrite <- (list_insert_insert ps i p2 p1). econstructor; [|exact Hs]. apply list_lookup_insert. by eapply lookup_lt_Some.
Qed.

Definition with_inv (h : hindex) (r : gmap string slc * mem Z) : hindex :=
  MkH (h_name h) (h_tokenizer h) (h_Docs h) r.1 (h_docmem h) r.2.

(** The loop over the tokens, alone. *)
Lemma tokens_alone extra next toks h :
  brun extra (tokens_m next toks, h)
    (MDone BIndex, with_inv h (fold_left (h_put_token extra next) toks (h_Inverted h, h_mem h))).
Proof.
  revert h. induction toks as [|tok toks IH]; intros h; cbn [tokens_m fold_left].
  { destruct h. apply rtc_refl. }
  eapply brun_step; [constructor|]. eapply brun_step; [constructor|].
  unfold h_put_token at 2. cbn [fst snd]. destruct (has_doc next _); [by apply IH|].
  destruct (go_append extra 0%Z (h_mem h) (h_Inverted h !! tok) next) as [m s] eqn:E.
  eapply brun_step; [by constructor|]. eapply brun_step; [constructor|]. by apply (IH (set_key (set_mem h m) tok s)).
Qed.

(** The first half of a Put, up to the moment when it sets Docs. *)
Lemma put_docs extra tk r h m s :
  go_append extra zero_doc (h_docmem h) (h_Docs h) (NewDoc (req_ID r) (req_Raw r)) = (m, s) ->
  brun extra (Put_m tk r, h) (MSetDocs s (tokens_m (h_Len h) (tk (req_Statement r))), set_docmem h m).
Proof.
  intros E. unfold Put_m. eapply brun_step; [constructor|]. eapply brun_step; [constructor|].
  eapply brun_step; [by constructor|]. apply rtc_refl.
Qed.

Lemma put_alone extra r h : brun extra (Put_m (h_tokenizer h) r, h) (MDone BIndex, h_Put extra h r).
Proof.
  destruct (go_append extra zero_doc (h_docmem h) (h_Docs h) (NewDoc (req_ID r) (req_Raw r))) as [m s] eqn:E.
  etrans; [by apply put_docs|]. eapply brun_step; [constructor|].
  unfold h_Put. rewrite E.
  pose proof (tokens_alone extra (h_Len h) (h_tokenizer h (req_Statement r)) (set_docs (set_docmem h m) s)) as H.
  cbn [h_Inverted h_mem set_docs set_docmem] in H.
  destruct (fold_left (h_put_token extra (h_Len h)) _ _) as [inv mm]. exact H.
Qed.

(** ** Calls that keep to one half of the index *)
Inductive mapside (inv : gmap string slc) (m : mem Z) : mprog -> Prop :=
| MS_Done r : mapside inv m (MDone r)
| MS_Throw : mapside inv m MThrow
| MS_Spin : mapside inv m MSpin
| MS_GetKey t k : mapside inv m (k (inv !! t)) -> mapside inv m (MGetKey t k)
| MS_Range k : (forall l, l ≡ₚ map_to_list inv -> mapside inv m (k l)) -> mapside inv m (MRange k)
| MS_Load s k : mapside inv m (k (elems m s)) -> mapside inv m (MLoad s k).
Inductive docside : mprog -> Prop :=
| DS_Done r : docside (MDone r)
| DS_GetDocs k : (forall s, docside (k s)) -> docside (MGetDocs k)
| DS_PushDoc s d k : (forall s, docside (k s)) -> docside (MPushDoc s d k)
| DS_SetDocs s k : docside k -> docside (MSetDocs s k).

Lemma mapside_step extra h p p' h' :
  mapside (h_Inverted h) (h_mem h) p -> bstep extra p h p' h' -> h' = h /\ mapside (h_Inverted h) (h_mem h) p'.
Proof. intros Hs Hb. destruct Hb; inversion Hs; subst; auto. Qed.
Lemma docside_step extra h p p' h' :
  docside p -> bstep extra p h p' h' -> h_Inverted h' = h_Inverted h /\ h_mem h' = h_mem h /\ docside p'.
Proof. intros Hs Hb. destruct Hb; inversion Hs; subst; auto. Qed.

Lemma sides_pool extra p q h ps h' :
  docside p -> mapside (h_Inverted h) (h_mem h) q -> rtc (bpool extra) ([p; q], h) (ps, h') ->
  exists p' q', ps = [p'; q'] /\ docside p' /\ mapside (h_Inverted h') (h_mem h') q'.
Proof.
  intros Hp Hq Hr.
  refine (rtc_ind_r (R := bpool extra) (fun x => exists p' q', x.1 = [p'; q'] /\ docside p' /\ mapside (h_Inverted x.2) (h_mem x.2) q') _ _ _ _ Hr).
  - by exists p, q.
  - intros [ps1 h1] x _ Hs (p1 & q1 & E & Hp1 & Hq1). cbn [fst snd] in *. subst ps1.
    inversion Hs as [? ? i p2 p3 h3 Hi Hb]; subst. cbn [fst snd]. destruct i as [|[|i]]; simplify_eq/=.
    + destruct (docside_step _ _ _ _ _ Hp1 Hb) as (E1 & E2 & Hp3). exists p3, q1. split_and!; [done..|]. by rewrite E1, E2.
    + destruct (mapside_step _ _ _ _ _ Hq1 Hb) as (-> & Hq3). by exists p1, p3.
Qed.

Lemma sides_no_race inv m p q : docside p -> mapside inv m q -> ~ brace [p; q].
Proof.
  intros Hp Hq (i & j & x & y & l & w & w' & Hi & Hj & Hij & Hx & Hy & Hw).
  assert (Hd : forall l w, touches p l w -> match l with AtDocs | AtDoc _ _ => True | _ => False end) by (intros ? ? Ht; destruct Ht; inversion Hp; done).
  assert (Hm : forall l w, touches q l w -> match l with AtMap | AtPosition _ _ => True | _ => False end) by (intros ? ? Ht; destruct Ht; inversion Hq; done).
  destruct i as [|[|i]], j as [|[|j]]; simplify_eq/=; [apply Hd in Hx; apply Hm in Hy|apply Hm in Hx; apply Hd in Hy]; by destruct l.
Qed.

Lemma docside_put tk r : tk (req_Statement r) = [] -> docside (Put_m tk r).
Proof. intros E. unfold Put_m. rewrite E. repeat (constructor; intros). Qed.

(** An engine that asks for no documents, and one that does. *)
Section sides.
  Context (ckn : bool) (held : list slc) (h : hindex) (mi : MemoryIndex) (HA : agrees held h mi).

  Lemma mapside_engine p :
    ~ Exists reads_docs (irun (indexer_of ckn mi) p).1 -> mapside (h_Inverted h) (h_mem h) (engine_m ckn p).
  Proof.
    induction p as [l| |k IH|t k IH|i k IH]; cbn [irun engine_m fst snd]; intros Hno.
    - constructor.
    - constructor.
    - exfalso. apply Hno. by left.
    - do 2 constructor. rewrite (copied_Indexed ckn held h mi HA). apply IH. intros He. apply Hno. by right.
    - exfalso. apply Hno. cbn [ix_Document indexer_of]. destruct (Document mi i); by left.
  Qed.
  Lemma mapside_print es buf : mapside (h_Inverted h) (h_mem h) (print_m es buf).
  Proof. revert buf. induction es as [|[t s] es IH]; intros buf; cbn; constructor. apply IH. Qed.

  Lemma engine_docs extra p h1 :
    h_Inverted h1 = h_Inverted h -> h_mem h1 = h_mem h -> Exists reads_docs (irun (indexer_of ckn mi) p).1 ->
    exists k, brun extra (engine_m ckn p, h1) (MGetDocs k, h1).
  Proof.
    intros E1 E2. induction p as [l| |k IH|t k IH|i k IH]; cbn [irun engine_m fst snd]; intros He.
    - by apply Exists_nil in He.
    - by apply Exists_nil in He.
    - eexists. apply rtc_refl.
    - apply Exists_cons in He as [He|He]; [done|]. apply IH in He as [k' Hk']. exists k'.
      eapply brun_step; [constructor|]. eapply brun_step; [constructor|].
      by rewrite E1, E2, (copied_Indexed ckn held h mi HA).
    - eexists. apply rtc_refl.
  Qed.
End sides.

(** ** Appending to a slice that somebody else appends to *)
Lemma append_keeps {A} extra (z : A) m s x m' s' :
  wfs m s -> go_append extra z m (Some s) x = (m', s') -> wfs m' s /\ elems m' (Some s) = elems m (Some s).
Proof.
  intros (l & H1 & H2 & H3 & H4) Ha. unfold go_append, alloc in Ha. destruct (s_len s <? s_cap s) eqn:E; simplify_eq.
  - unfold wfs, elems, store. cbn [m_arrs m_next]. rewrite lookup_alter, H1. cbn. split.
    + eexists. split; [done|]. by rewrite insert_length.
    + by rewrite take_insert by done.
  - split.
    + apply (wfs_mono m); [| |by exists l]; cbn; [|lia]. by rewrite lookup_insert_ne by lia.
    + apply elems_mono. cbn. by rewrite lookup_insert_ne by lia.
Qed.

(** ** Several goroutines, of which at most one writes *)

(** Calls that only look at the postings, with what they answer. *)
Inductive looksup (inv : gmap string slc) (m : mem Z) (R : mprog -> Prop) : mprog -> Prop :=
| LU_Done r : R (MDone r) -> looksup inv m R (MDone r)
| LU_Throw : R MThrow -> looksup inv m R MThrow
| LU_Spin : R MSpin -> looksup inv m R MSpin
| LU_GetKey t k : looksup inv m R (k (inv !! t)) -> looksup inv m R (MGetKey t k)
| LU_Range k : (forall l, l ≡ₚ map_to_list inv -> looksup inv m R (k l)) -> looksup inv m R (MRange k)
| LU_Load s k : looksup inv m R (k (elems m s)) -> looksup inv m R (MLoad s k).

Lemma looksup_step extra h R p p' h' :
  looksup (h_Inverted h) (h_mem h) R p -> bstep extra p h p' h' -> h' = h /\ looksup (h_Inverted h) (h_mem h) R p'.
Proof. intros Hs Hb. destruct Hb; inversion Hs; subst; auto. Qed.
Lemma looksup_sides inv m R h p : mapside inv m p -> inv = h_Inverted h -> m = h_mem h -> sees h R p -> looksup inv m R p.
Proof.
  intros Hm -> ->. induction Hm as [| | |t k _ IH|k _ IH|s k _ IH]; intros Hs; inversion Hs; subst; constructor; auto.
Qed.

(** A Put never ranges over the map, so its steps are determined. *)
Inductive settled : mprog -> Prop :=
| SD_Done r : settled (MDone r)
| SD_GetDocs k : (forall s, settled (k s)) -> settled (MGetDocs k)
| SD_SetDocs s k : settled k -> settled (MSetDocs s k)
| SD_PushDoc s d k : (forall s, settled (k s)) -> settled (MPushDoc s d k)
| SD_GetKey t k : (forall s, settled (k s)) -> settled (MGetKey t k)
| SD_SetKey t s k : settled k -> settled (MSetKey t s k)
| SD_Load s k : (forall l, settled (k l)) -> settled (MLoad s k)
| SD_Push s x k : (forall s, settled (k s)) -> settled (MPush s x k).

Lemma settled_tokens next toks : settled (tokens_m next toks).
Proof.
  induction toks as [|tok toks IH]; cbn [tokens_m]; [constructor|]. constructor. intros s. constructor. intros l.
  destruct (has_doc next l); [done|]. constructor. intros s'. by constructor.
Qed.
Lemma settled_Put tk r : settled (Put_m tk r).
Proof. unfold Put_m. do 3 (constructor; intros). constructor. apply settled_tokens. Qed.

Lemma settled_det extra p h p1 h1 p2 h2 :
  settled p -> bstep extra p h p1 h1 -> bstep extra p h p2 h2 -> p1 = p2 /\ h1 = h2.
Proof.
  intros Hs H1 H2. destruct H1; inversion H2; subst; try done; try (by inversion Hs).
  all: repeat match goal with H : go_append _ _ _ _ _ = _, H' : go_append _ _ _ _ _ = _ |- _ => rewrite H in H'; injection H' as <- <- end; done.
Qed.
Lemma settled_step extra p h p' h' : settled p -> bstep extra p h p' h' -> settled p'.
Proof. intros Hs Hb. destruct Hb; inversion Hs; subst; auto. Qed.
Lemma settled_brun extra a b : brun extra a b -> settled a.1 -> settled b.1.
Proof. induction 1 as [|x y z Hxy _ IH]; [done|]. intros Hs. apply IH. by eapply settled_step. Qed.
Lemma settled_progress extra p h : settled p -> (exists r, p = MDone r) \/ exists p' h', bstep extra p h p' h'.
Proof.
  intros Hs. destruct Hs; [by left; eexists|right..]; try (eexists _, _; by constructor).
  - destruct (go_append extra zero_doc (h_docmem h) s d) as [m s'] eqn:E. eexists _, _. by constructor.
  - destruct (go_append extra 0%Z (h_mem h) s x) as [m s'] eqn:E. eexists _, _. by constructor.
Qed.

(** Whatever has been run of it, a program that is settled ends where it ends alone. *)
Lemma settled_end extra a r h :
  settled a.1 -> brun extra a (MDone r, h) -> forall b, brun extra a b -> brun extra b (MDone r, h).
Proof.
  intros Hs Hz b Hb. revert Hs Hz. induction Hb as [x|x y z Hxy Hyz IH]; intros Hs Hz; [done|].
  apply IH; [by eapply settled_step|].
  inversion Hz as [E|? w ? Hxw Hwz]; subst.
  - cbn in Hxy. inversion Hxy.
  - destruct y as [y1 y2], w as [w1 w2]. cbn in *. by destruct (settled_det _ _ _ _ _ _ _ Hs Hxy Hxw) as [-> ->].
Qed.

(** Two goroutines of a pool run as they would without the others. *)
Lemma pool_two extra p q h ps h' all i j :
  rtc (bpool extra) ([p; q], h) (ps, h') -> i <> j -> all !! i = Some p -> all !! j = Some q ->
  exists p' q', ps = [p'; q'] /\ rtc (bpool extra) (all, h) (<[i := p']> (<[j := q']> all), h').
Proof.
  intros Hr Hij Hi Hj.
  refine (rtc_ind_r (R := bpool extra) (fun x => exists p' q', x.1 = [p'; q'] /\ rtc (bpool extra) (all, h) (<[i := p']> (<[j := q']> all), x.2)) _ _ _ _ Hr).
  - exists p, q. split; [done|]. rewrite (list_insert_id all j) by done. rewrite list_insert_id by done. apply rtc_refl.
  - intros [ps1 h1] x _ Hs (p1 & q1 & E & IH). cbn [fst snd] in *. subst ps1.
    assert (Hli : i < length all) by (by eapply lookup_lt_Some). assert (Hlj : j < length all) by (by eapply lookup_lt_Some).
    inversion Hs as [? ? n p2 p3 h3 Hn Hb]; subst. cbn [fst snd]. destruct n as [|[|n]]; simplify_eq/=.
    + exists p3, q1. split; [done|]. eapply rtc_r; [exact IH|]. rewrite <- (list_insert_insert _ i p3 p2).
      econstructor; [|exact Hb]. apply list_lookup_insert. by rewrite insert_length.
    + exists p1, p3. split; [done|]. eapply rtc_r; [exact IH|].
      replace (<[i := p1]> (<[j := p3]> all)) with (<[j := p3]> (<[i := p1]> (<[j := p2]> all))).
      2: { rewrite (list_insert_commute _ i j) by done. rewrite list_insert_insert. by rewrite list_insert_commute. }
      econstructor; [|exact Hb]. rewrite list_lookup_insert_ne by done. by apply list_lookup_insert.
Qed.
