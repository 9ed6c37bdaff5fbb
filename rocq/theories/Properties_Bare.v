(** * Property C95: a MemoryIndex shared by goroutines, without a repo. *)
From Coq Require Import Lia.
From stdpp Require Import gmap list.
From Verif Require Import Entities Search SpecSearch ProofSearch Properties_Search Heap ProofHeap Properties_Heap
  Trace Print Properties_Trace Bare SpecBare ProofBare.
Open Scope list_scope.
Open Scope nat_scope.

Definition bstart ckn name tk (cs : list bcall) : list mprog := bprog ckn name tk <$> cs.

Lemma life_name name tk reqs : mi_name (index_after name tk reqs) = name.
Proof.
  unfold index_after. change name with (mi_name (NewMemoryIndex name tk)) at 2. generalize (NewMemoryIndex name tk).
  induction reqs as [|r reqs IH]; intros mi; [done|]. cbn [fold_left]. by rewrite IH.
Qed.
Lemma life_tk ckn extra name tk h held reqs : life ckn extra name tk h held reqs -> h_tokenizer h = tk.
Proof.
  intros Hl. rewrite (ag_tok _ _ _ (life_agrees _ _ _ _ _ _ _ Hl)). by destruct (rep_index_after name tk reqs).
Qed.

(** ** Any number of calls that change nothing *)
Theorem C95_readers :
  forall ckn extra name tk h held reqs cs ps h',
    life ckn extra name tk h held reqs -> Forall looks cs ->
    rtc (bpool extra) (bstart ckn name tk cs, h) (ps, h') ->
    h' = h /\ ~ brace ps /\
    forall i c p, cs !! i = Some c -> ps !! i = Some p ->
      match p with
      | MDone _ | MThrow | MSpin => answer_of ckn (index_after name tk reqs) c p
      | _ => exists p' h1, bstep extra p h p' h1
      end.
Proof.
  intros ckn extra name tk h held reqs cs ps h' Hl Hcs Hr. pose proof (life_agrees _ _ _ _ _ _ _ Hl) as HA.
  pose proof (rep_index_after name tk reqs) as [Htk _ _].
  pose proof (life_name name tk reqs) as Hname.
  assert (Hf : Forall2 (sees h) ((fun c => answer_of ckn (index_after name tk reqs) c) <$> cs) (bstart ckn name tk cs)).
  { unfold bstart. apply Forall2_fmap, Forall_Forall2_diag. eapply Forall_impl; [exact Hcs|]. intros c Hc.
    pose proof (sees_call ckn held h _ HA c Hc) as Hx. by rewrite Hname, Htk in Hx. }
  destruct (sees_pool _ _ _ _ _ _ Hf Hr) as [-> Hf']. split; [done|]. split; [by eapply sees_no_race|].
  intros i c p Hc Hp. destruct (Forall2_lookup_r _ _ _ _ _ Hf' Hp) as (R & HR & Hs).
  rewrite list_lookup_fmap, Hc in HR. cbn in HR. apply Some_inj in HR. subst R.
  destruct p; try (by inversion Hs); try (eexists _, _; constructor; done).
Qed.
Print Assumptions C95_readers.

(** With the engines of the package, results are those of Search.v. *)
Theorem C95_searches :
  forall ckn extra name tk h held reqs cs ps h' i q e engine p,
    life ckn extra name tk h held reqs -> Forall looks cs ->
    rtc (bpool extra) (bstart ckn name tk cs, h) (ps, h') ->
    cs !! i = Some (KSearch q e) -> ps !! i = Some p -> (forall p' h1, ~ bstep extra p h p' h1) ->
    (e = NoopZero_i /\ engine = NoopZeroSearch) \/ (e = Linear_i /\ engine = LinearSearch) \/
      (exists fuel, (length reqs <= fuel)%nat /\
         ((e = NoopAll_i fuel /\ engine = NoopAllSearch) \/ exists srt, e = Hits_i srt fuel /\ engine = HitsSearch srt)) ->
    match mi_Search ckn (index_after name tk reqs) q engine with
    | Ok l => p = MDone (BResults l)
    | Panic => p = MThrow
    end.
Proof.
  intros ckn extra name tk h held reqs cs ps h' i q e engine p Hl Hcs Hr Hi Hp Hend He.
  destruct (C95_readers _ _ _ _ _ _ _ _ _ _ Hl Hcs Hr) as (_ & _ & Ha). specialize (Ha _ _ _ Hi Hp).
  assert (Ha' : answer_of ckn (index_after name tk reqs) (KSearch q e) p).
  { destruct p; try done; destruct Ha as (p' & h1 & Hb); by apply Hend in Hb. }
  clear Ha. cbn [answer_of] in Ha'. unfold mi_Search.
  set (ix := indexer_of ckn (index_after name tk reqs)) in *. set (ts := mi_tokenizer (index_after name tk reqs) q) in *.
  assert (Hx : (irun ix (e ts)).2 = Some (engine ts ix)).
  { destruct (C66_same_results ix ts) as (H1 & H2 & H3).
    destruct He as [(-> & ->)|[(-> & ->)|(fuel & Hf & He)]]; [done..|].
    assert (Hlen : (Z.to_nat (ix_Len ix) <= fuel)%nat).
    { unfold ix. cbn. unfold Len. pose proof (rep_index_after name tk reqs) as [_ Hd _]. rewrite Hd, map_length. lia. }
    destruct (H3 fuel Hlen) as [H4 H5]. destruct He as [(-> & ->)|(srt & -> & ->)]; [done|by apply H5]. }
  rewrite Hx in Ha'. by destruct (engine ts ix).
Qed.
Print Assumptions C95_searches.

(** ** A Put at the same time as another call *)
Lemma race_pair ps p q l w w' :
  ps = [p; q] -> touches p l w -> touches q l w' -> w = true \/ w' = true -> brace ps.
Proof. intros -> Hp Hq Hw. exists 0, 1, p, q, l, w, w'. split_and!; done. Qed.
Lemma race_swap p q : brace [p; q] -> brace [q; p].
Proof.
  intros (i & j & x & y & l & w & w' & Hi & Hj & Hij & Hx & Hy & Hw).
  destruct i as [|[|i]], j as [|[|j]]; simplify_eq/=.
  - exists 1, 0, x, y, l, w, w'. done.
  - exists 0, 1, x, y, l, w, w'. done.
Qed.
Lemma pool_swap extra p q h ps h' :
  rtc (bpool extra) ([p; q], h) (ps, h') -> exists p' q', ps = [p'; q'] /\ rtc (bpool extra) ([q; p], h) ([q'; p'], h').
Proof.
  intros Hr.
  refine (rtc_ind_r (R := bpool extra) (fun x => exists p' q', x.1 = [p'; q'] /\ rtc (bpool extra) ([q; p], h) ([q'; p'], x.2)) _ _ _ _ Hr).
  - exists p, q. split; [done|]. apply rtc_refl.
  - intros [ps1 h1] x _ Hs (p1 & q1 & E & IH). cbn [fst snd] in *. subst ps1.
    inversion Hs as [? ? i p2 p3 h3 Hi Hb]; subst. cbn [fst snd]. destruct i as [|[|i]]; simplify_eq/=.
    + exists p3, q1. split; [done|]. eapply rtc_r; [exact IH|]. by apply (BP _ [q1; p2] h1 1 p2 p3 h3).
    + exists p1, p3. split; [done|]. eapply rtc_r; [exact IH|]. by apply (BP _ [p2; p1] h1 0 p2 p3 h3).
Qed.

(** The positions in the map are those of documents. *)
Lemma positions_below name tk reqs t z :
  z ∈ default [] (mi_Inverted (index_after name tk reqs) !! t) -> (z < Len (index_after name tk reqs))%Z.
Proof.
  pose proof (rep_index_after name tk reqs) as [_ Hd Hi]. rewrite Hi. unfold Len. rewrite Hd, map_length.
  destruct (positions tk t 0 reqs) as [|z0 l] eqn:E; [intros Hz; by apply elem_of_nil in Hz|].
  change (default [] (Some (z0 :: l))) with (z0 :: l). rewrite <- E. intros Hz.
  apply positions_elem in Hz as (H0 & r & Hr & _). apply lookup_lt_Some in Hr. lia.
Qed.

Lemma put_to_map ckn extra name tk h held reqs r tok toks :
  life ckn extra name tk h held reqs -> tk (req_Statement r) = tok :: toks ->
  exists t s k h', brun extra (Put_m tk r, h) (MSetKey t s k, h').
Proof.
  intros Hl E. pose proof (life_agrees _ _ _ _ _ _ _ Hl) as HA.
  destruct (go_append extra zero_doc (h_docmem h) (h_Docs h) (NewDoc (req_ID r) (req_Raw r))) as [m s] eqn:Ea.
  destruct (go_append extra 0%Z (h_mem h) (h_Inverted h !! tok) (h_Len h)) as [m' s'] eqn:Eb.
  eexists tok, s', _, _. etrans; [by apply put_docs|]. rewrite E. eapply brun_step; [constructor|]. cbn [tokens_m].
  eapply brun_step; [constructor|]. eapply brun_step; [constructor|]. cbn [set_docs set_docmem h_Inverted h_mem].
  assert (Hno : has_doc (h_Len h) (elems (h_mem h) (h_Inverted h !! tok)) = false).
  { destruct (has_doc _ _) eqn:Eh; [|done]. exfalso.
    assert (Hin : h_Len h ∈ default [] (mi_Inverted (index_after name tk reqs) !! tok)).
    { rewrite (own_lookup _ _ _ _ tok (ag_inv _ _ _ HA)). clear -Eh. destruct (h_Inverted h !! tok) as [s|]; [|done].
      cbn [fmap option_fmap option_map default id]. revert Eh. generalize (elems (h_mem h) (Some s)) as l. intros l.
      change (default [] (Some l)) with l. induction l as [|z l IH]; [done|]. cbn. destruct (z =? h_Len h)%Z eqn:E.
      - intros _. apply Z.eqb_eq in E as ->. by left.
      - intros Hh. right. by apply IH. }
    apply positions_below in Hin. rewrite <- (agrees_Len _ _ _ HA) in Hin. lia. }
  rewrite Hno. eapply brun_step; [by constructor|]. apply rtc_refl.
Qed.

Lemma collides_race ckn extra name tk h held reqs c c' :
  life ckn extra name tk h held reqs -> collides ckn (index_after name tk reqs) c c' ->
  exists ps h', rtc (bpool extra) (bstart ckn name tk [c; c'], h) (ps, h') /\ brace ps.
Proof.
  intros Hl Hc. pose proof (life_agrees _ _ _ _ _ _ _ Hl) as HA.
  pose proof (rep_index_after name tk reqs) as [Htk _ _].
  destruct c as [r| | | | |]; try done. cbn [collides] in Hc. rewrite Htk in Hc.
  destruct (go_append extra zero_doc (h_docmem h) (h_Docs h) (NewDoc (req_ID r) (req_Raw r))) as [m s] eqn:Ea.
  pose proof (put_docs extra tk r h m s Ea) as Hd.
  assert (Hdocs : forall q, (exists k, brun extra (q, set_docmem h m) (MGetDocs k, set_docmem h m)) ->
    exists ps h', rtc (bpool extra) ([Put_m tk r; q], h) (ps, h') /\ brace ps).
  { intros q (k & Hk). eexists _, _. split.
    - etrans; [by apply (brun_pool _ _ _ _ _ _ 0 Hd)|]. by apply (brun_pool _ _ _ _ _ _ 1 Hk).
    - eapply race_pair; [reflexivity|apply T_SetDocs|apply T_GetDocs|by left]. }
  assert (Hmap : forall q, tk (req_Statement r) <> [] -> touches q AtMap false ->
    exists ps h', rtc (bpool extra) ([Put_m tk r; q], h) (ps, h') /\ brace ps).
  { intros q Ht Hq. destruct (tk (req_Statement r)) as [|tok toks] eqn:Et; [done|].
    destruct (put_to_map _ _ _ _ _ _ _ _ _ _ Hl Et) as (t & s1 & k & h1 & Hrun). eexists _, _. split.
    - by apply (brun_pool _ _ _ _ _ _ 0 Hrun).
    - eapply race_pair; [reflexivity|apply T_SetKey|exact Hq|by left]. }
  unfold bstart. cbn [fmap list_fmap bprog]. destruct c' as [r'|q e| |t|i|]; cbn [bprog].
  - apply Hdocs. eexists. apply rtc_refl.
  - assert (He : Exists reads_docs (irun (indexer_of ckn (index_after name tk reqs)) (e (tk q))).1 ->
      exists ps h', rtc (bpool extra) ([Put_m tk r; engine_m ckn (e (tk q))], h) (ps, h') /\ brace ps).
    { intros Hx. apply Hdocs. by eapply (engine_docs ckn held h). }
    destruct Hc as [[Ht Hne]|Hx]; [|by apply He].
    destruct (e (tk q)) as [l| |k|t k|i k] eqn:Ee; cbn [irun fst] in Hne, He; try done.
    + apply He. by left.
    + cbn [engine_m]. apply Hmap; [done|constructor].
    + apply He. cbn [ix_Document indexer_of]. destruct (Document _ i); by left.
  - apply Hdocs. eexists. apply rtc_refl.
  - apply Hmap; [done|constructor].
  - apply Hdocs. eexists. apply rtc_refl.
  - apply Hmap; [done|constructor].
Qed.

Lemma no_collision ckn extra name tk h held reqs r c ps h' :
  life ckn extra name tk h held reqs -> ~ collides ckn (index_after name tk reqs) (KPut r) c ->
  rtc (bpool extra) (bstart ckn name tk [KPut r; c], h) (ps, h') -> ~ brace ps.
Proof.
  intros Hl Hc Hr. pose proof (life_agrees _ _ _ _ _ _ _ Hl) as HA.
  pose proof (rep_index_after name tk reqs) as [Htk _ _]. cbn [collides] in Hc. rewrite Htk in Hc.
  unfold bstart in Hr. cbn [fmap list_fmap] in Hr.
  assert (Hside : tk (req_Statement r) = [] -> mapside (h_Inverted h) (h_mem h) (bprog ckn name tk c) -> ~ brace ps).
  { intros Et Hm. destruct (sides_pool _ _ _ _ _ _ (docside_put _ _ Et) Hm Hr) as (p & q & -> & Hp & Hq). by eapply sides_no_race. }
  destruct (decide (tk (req_Statement r) = [])) as [Et|Et].
  - apply Hside; [done|]. destruct c as [r'|q e| |t|i|]; try (by exfalso; apply Hc); cbn [bprog].
    + eapply mapside_engine; [done|]. intros Hx. apply Hc. by right.
    + repeat constructor.
    + constructor. intros l _. apply mapside_print.
  - destruct c as [r'|q e| |t|i|]; try (by exfalso; apply Hc). cbn [bprog] in Hr.
    assert (Ee : (exists l, e (tk q) = IRet l) \/ e (tk q) = ISpin).
    { destruct (e (tk q)) as [l| |k|t k|i k]; [by eauto|by eauto|exfalso; apply Hc; left; split; [done|]..]; cbn [irun fst]; try done.
      by destruct (ix_Document _ i). }
    assert (Hq : exists p q1, ps = [p; q1] /\ (forall l w, ~ touches q1 l w) /\ forall h p' h', ~ bstep extra q1 h p' h').
    { refine (rtc_ind_r (R := bpool extra) (fun x => exists p q1, x.1 = [p; q1] /\ (forall l w, ~ touches q1 l w) /\ forall h p' h', ~ bstep extra q1 h p' h') _ _ _ _ Hr).
      - eexists _, _. split; [reflexivity|]. destruct Ee as [[l ->]| ->]; split; intros; intros Hx; inversion Hx.
      - intros [ps1 h1] x _ Hs (p1 & q1 & E & Ht & Hb). cbn [fst snd] in *. subst ps1.
        inversion Hs as [? ? i p2 p3 h3 Hi Hb']; subst. cbn [fst snd]. destruct i as [|[|i]]; simplify_eq/=; [|by apply Hb in Hb'].
        by exists p3, q1. }
    destruct Hq as (p & q1 & -> & Ht & _). intros (i & j & x & y & l & w & w' & Hi & Hj & Hij & Hx & Hy & _).
    destruct i as [|[|i]], j as [|[|j]]; simplify_eq/=; by eapply Ht.
Qed.

Lemma collides_dec ckn mi c c' : {collides ckn mi c c'} + {~ collides ckn mi c c'}.
Proof.
  assert (Hd : Decision (collides ckn mi c c')); [|exact Hd]. destruct c, c'; cbn [collides]; try (apply _). apply or_dec.
  - apply and_dec; [apply _|]. destruct (irun _ _).1; [by right; intros []|by left].
  - apply Exists_dec. intros []; cbn; [by left|by right; intros []|by left].
Qed.

(** Two calls can race exactly if they collide. *)
Theorem C95_races :
  forall ckn extra name tk h held reqs c c',
    life ckn extra name tk h held reqs ->
    (exists ps h', rtc (bpool extra) (bstart ckn name tk [c; c'], h) (ps, h') /\ brace ps) <->
    collides ckn (index_after name tk reqs) c c' \/ collides ckn (index_after name tk reqs) c' c.
Proof.
  intros ckn extra name tk h held reqs c c' Hl.
  assert (Hdec : forall c c', ~ ~ collides ckn (index_after name tk reqs) c c' -> collides ckn (index_after name tk reqs) c c').
  { intros c1 c2 Hnn. by destruct (collides_dec ckn (index_after name tk reqs) c1 c2). }
  split.
  - intros (ps & h' & Hr & Hrace). pose proof Hr as Hr0. unfold bstart in Hr. cbn [fmap list_fmap] in Hr.
    destruct c as [r| | | | |]; [left; apply Hdec; intros Hno; by eapply no_collision|..].
    all: destruct c' as [r'| | | | |];
      [right; apply Hdec; intros Hno; destruct (pool_swap _ _ _ _ _ _ Hr) as (p' & q' & -> & Hr');
       eapply no_collision; [done|done|exact Hr'|by apply race_swap]|..].
    all: exfalso; eapply C95_readers; [exact Hl| |exact Hr0|exact Hrace]; by repeat constructor.
  - intros [Hc|Hc]; [by eapply collides_race|].
    destruct (collides_race _ extra _ _ _ _ _ _ _ Hl Hc) as (ps & h' & Hr & Hrace).
    destruct (pool_swap _ _ _ _ _ _ Hr) as (p' & q' & -> & Hr'). exists [q'; p'], h'. split; [done|by apply race_swap].
Qed.
Print Assumptions C95_races.

(** ** Any number of calls *)
Definition apart ckn mi (cs : list bcall) : Prop :=
  forall i j c c', i <> j -> cs !! i = Some c -> cs !! j = Some c' -> ~ collides ckn mi c c'.

(** A call that does not collide with a Put: it makes no accesses at all, or the Put
    has no tokens and it keeps to the postings. *)
Lemma beside_put ckn extra name tk h held reqs r c :
  life ckn extra name tk h held reqs -> ~ collides ckn (index_after name tk reqs) (KPut r) c ->
  let R := answer_of ckn (index_after name tk reqs) c in
  (match bprog ckn name tk c with MDone _ | MThrow | MSpin => R (bprog ckn name tk c) | _ => False end) \/
  (tk (req_Statement r) = [] /\ looksup (h_Inverted h) (h_mem h) R (bprog ckn name tk c)).
Proof.
  intros Hl Hc R. pose proof (life_agrees _ _ _ _ _ _ _ Hl) as HA.
  pose proof (rep_index_after name tk reqs) as [Htk _ _]. cbn [collides] in Hc. rewrite Htk in Hc.
  assert (Hlk : looks c) by (destruct c; [by apply Hc|done..]).
  assert (Hsee : sees h R (bprog ckn name tk c)).
  { pose proof (sees_call ckn held h _ HA c Hlk) as Hx. by rewrite life_name, Htk in Hx. }
  destruct (decide (tk (req_Statement r) = [])) as [Et|Et].
  - right. split; [done|]. apply (looksup_sides _ _ _ h); [|done..].
    destruct c as [r'|q e| |t|i|]; try (by exfalso; apply Hc); cbn [bprog].
    + eapply mapside_engine; [done|]. intros Hx. apply Hc. by right.
    + repeat constructor.
    + constructor. intros l _. apply mapside_print.
  - left. destruct c as [r'|q e| |t|i|]; try (by exfalso; apply Hc). cbn [bprog] in *.
    destruct (e (tk q)) as [l| |k|t k|i k]; cbn [engine_m] in *; [by inversion Hsee|by inversion Hsee|exfalso; apply Hc; left; split; [done|]..];
      cbn [irun fst]; try done. by destruct (ix_Document _ i).
Qed.

(** If no two calls collide there is no race, each call answers as alone, and the index
    ends as the Put, if there is one, leaves it. *)
Theorem C95_apart :
  forall ckn extra name tk h held reqs cs ps h',
    life ckn extra name tk h held reqs -> apart ckn (index_after name tk reqs) cs ->
    rtc (bpool extra) (bstart ckn name tk cs, h) (ps, h') ->
    ~ brace ps /\
    forall i c p, cs !! i = Some c -> ps !! i = Some p ->
      match p with
      | MDone _ | MThrow | MSpin =>
          match c with
          | KPut r => p = MDone BIndex /\ h' = h_Put extra h r
          | _ => answer_of ckn (index_after name tk reqs) c p
          end
      | _ => exists p' h1, bstep extra p h' p' h1
      end.
Proof.
  intros ckn extra name tk h held reqs cs ps h' Hl Hap Hr.
  assert (Hput : Forall looks cs \/ exists i0 r, cs !! i0 = Some (KPut r)).
  { clear. induction cs as [|c cs [IH|(i0 & r & Hi)]].
    - by left.
    - destruct c as [r| | | | |]; [right; by exists 0, r|left; by constructor..].
    - right. by exists (S i0), r. }
  destruct Hput as [Hlk|(i0 & r & Hi0)].
  { destruct (C95_readers _ _ _ _ _ _ _ _ _ _ Hl Hlk Hr) as (-> & Hno & Ha). split; [done|]. intros i c p Hi Hp.
    specialize (Ha i c p Hi Hp). pose proof (Forall_lookup_1 _ _ _ _ Hlk Hi) as Hc.
    destruct p; try done; by destruct c. }
  pose proof (life_tk _ _ _ _ _ _ _ Hl) as Htk.
  set (R := fun c => answer_of ckn (index_after name tk reqs) c).
  set (ok := fun (x : list mprog * hindex) =>
    length x.1 = length cs /\
    (exists p0, x.1 !! i0 = Some p0 /\ brun extra (Put_m tk r, h) (p0, x.2) /\
       (tk (req_Statement r) = [] -> docside p0 /\ h_Inverted x.2 = h_Inverted h /\ h_mem x.2 = h_mem h)) /\
    forall j c p, j <> i0 -> cs !! j = Some c -> x.1 !! j = Some p ->
      match p with MDone _ | MThrow | MSpin => R c p | _ => False end \/
      (tk (req_Statement r) = [] /\ looksup (h_Inverted h) (h_mem h) (R c) p)).
  assert (Hok : ok (ps, h')).
  { refine (rtc_ind_r (R := bpool extra) ok _ _ _ _ Hr).
    - split; [cbn; unfold bstart; by rewrite fmap_length|]. split.
      + exists (Put_m tk r). cbn [fst snd]. split; [unfold bstart; by rewrite list_lookup_fmap, Hi0|]. split; [apply rtc_refl|].
        intros Et. split; [by apply docside_put|done].
      + intros j c p Hj Hc Hp. cbn [fst snd] in Hp. unfold bstart in Hp. rewrite list_lookup_fmap, Hc in Hp. cbn in Hp. apply Some_inj in Hp. subst p.
        eapply beside_put; [exact Hl|]. by apply (Hap i0 j).
    - intros [ps1 h1] x _ Hs (Hlen & (p0 & Hp0 & Hrun & Hd) & Hrest). cbn [fst snd] in *.
      inversion Hs as [? ? i p p' h2 Hi Hb]; subst. destruct (decide (i = i0)) as [->|Hne].
      + rewrite Hp0 in Hi. apply Some_inj in Hi. subst p. split; [cbn; by rewrite insert_length|]. split.
        * exists p'. cbn [fst snd]. split; [apply list_lookup_insert; by eapply lookup_lt_Some|]. split; [by eapply rtc_r|].
          intros Et. destruct (Hd Et) as (Hd1 & Hd2 & Hd3). destruct (docside_step _ _ _ _ _ Hd1 Hb) as (E1 & E2 & Hd4).
          split; [done|]. by rewrite E1, E2.
        * intros j c q Hj Hc Hq. cbn [fst snd] in Hq. rewrite list_lookup_insert_ne in Hq by done. by apply (Hrest j c q).
      + destruct (lookup_lt_is_Some_2 cs i) as [c Hc]; [rewrite <- Hlen; by eapply lookup_lt_Some|].
        destruct (Hrest i c p Hne Hc Hi) as [Hfin|[Et Hlu]]; [by destruct Hb|].
        destruct (Hd Et) as (Hd1 & Hd2 & Hd3). rewrite <- Hd2, <- Hd3 in Hlu.
        destruct (looksup_step _ _ _ _ _ _ Hlu Hb) as [-> Hlu']. rewrite Hd2, Hd3 in Hlu'.
        split; [cbn; by rewrite insert_length|]. split.
        * exists p0. cbn [fst snd]. rewrite list_lookup_insert_ne by done. done.
        * intros j c1 q Hj Hc1 Hq. cbn [fst snd] in Hq. destruct (decide (i = j)) as [->|Hij].
          -- rewrite list_lookup_insert in Hq by (by eapply lookup_lt_Some). apply Some_inj in Hq. subst q.
             rewrite Hc in Hc1. apply Some_inj in Hc1. subst c1. by right.
          -- rewrite list_lookup_insert_ne in Hq by done. by apply (Hrest j c1 q). }
  destruct Hok as (Hlen & (p0 & Hp0 & Hrun & Hd) & Hrest). cbn [fst snd] in *.
  assert (Hset : settled p0) by (by apply (settled_brun _ _ _ Hrun), settled_Put).
  split.
  - intros (i & j & p & q & l & w & w' & Hi & Hj & Hij & Htp & Htq & Hw).
    assert (Hread : forall j c q l w, j <> i0 -> cs !! j = Some c -> ps !! j = Some q -> touches q l w ->
      w = false /\ tk (req_Statement r) = [] /\ match l with AtMap | AtPosition _ _ => True | _ => False end).
    { intros j1 c1 q1 l1 w1 H1 H2 H3 Ht. destruct (Hrest j1 c1 q1 H1 H2 H3) as [Hf|[Et Hf]]; [by destruct Ht|].
      destruct Ht; inversion Hf; done. }
    assert (Hdoc : tk (req_Statement r) = [] -> forall l w, touches p0 l w -> match l with AtDocs | AtDoc _ _ => True | _ => False end).
    { intros Et l1 w1 Ht. destruct (Hd Et) as [Hds _]. destruct Ht; inversion Hds; done. }
    destruct (lookup_lt_is_Some_2 cs i) as [c Hc]; [rewrite <- Hlen; by eapply lookup_lt_Some|].
    destruct (lookup_lt_is_Some_2 cs j) as [c' Hc']; [rewrite <- Hlen; by eapply lookup_lt_Some|].
    destruct (decide (i = i0)) as [->|Hi1].
    + rewrite Hp0 in Hi. apply Some_inj in Hi. subst p. destruct (Hread j c' q l w') as (_ & Et & Hm); [done..|].
      apply (Hdoc Et) in Htp. by destruct l.
    + destruct (Hread i c p l w Hi1 Hc Hi Htp) as (-> & Et & Hm). destruct (decide (j = i0)) as [->|Hj1].
      * rewrite Hp0 in Hj. apply Some_inj in Hj. subst q. apply (Hdoc Et) in Htq. by destruct l.
      * destruct (Hread j c' q l w' Hj1 Hc' Hj Htq) as (-> & _). by destruct Hw.
  - intros i c p Hc Hp. destruct (decide (i = i0)) as [->|Hi].
    + rewrite Hi0 in Hc. apply Some_inj in Hc. subst c. rewrite Hp0 in Hp. apply Some_inj in Hp. subst p.
      destruct (settled_progress extra p0 h' Hset) as [(b & ->)|Hstep].
      * pose proof (put_alone extra r h) as Ha. rewrite Htk in Ha.
        pose proof (settled_end _ _ _ _ (settled_Put tk r : settled (_, h).1) Ha _ Hrun) as He.
        inversion He as [E|? [? ?] ? Hx]; [done|]. cbn in Hx. inversion Hx.
      * destruct Hset; try done. destruct Hstep as (? & ? & Hx). inversion Hx.
    + pose proof (Hap i0 i _ _ (not_eq_sym Hi) Hi0 Hc) as Hnc.
      destruct (Hrest i c p Hi Hc Hp) as [Hf|[Et Hf]].
      * destruct p; try done; destruct c; try done; by exfalso; apply Hnc.
      * destruct (Hd Et) as (_ & E1 & E2).
        assert (Hcl : looks c) by (destruct c; [by apply Hnc|done..]).
        destruct p; inversion Hf; subst; try (by destruct c); eexists _, _; by constructor.
Qed.
Print Assumptions C95_apart.

(** A pool can race exactly if two of its calls collide. *)
Theorem C95_pool_races :
  forall ckn extra name tk h held reqs cs,
    life ckn extra name tk h held reqs ->
    (exists ps h', rtc (bpool extra) (bstart ckn name tk cs, h) (ps, h') /\ brace ps) <->
    exists i j c c', i <> j /\ cs !! i = Some c /\ cs !! j = Some c' /\ collides ckn (index_after name tk reqs) c c'.
Proof.
  intros ckn extra name tk h held reqs cs Hl. split.
  - intros (ps & h' & Hr & Hrace).
    set (bad := fun ij : nat * nat => exists c c', ij.1 <> ij.2 /\ cs !! ij.1 = Some c /\ cs !! ij.2 = Some c' /\ collides ckn (index_after name tk reqs) c c').
    assert (Hbd : forall ij, Decision (bad ij)).
    { intros [i j]. unfold bad. cbn [fst snd]. destruct (cs !! i) as [c|] eqn:Ei; [|right; intros (? & ? & ? & ? & _); done].
      destruct (cs !! j) as [c'|] eqn:Ej; [|right; intros (? & ? & ? & ? & ? & _); done].
      destruct (decide (i = j)) as [->|Hij]; [right; by intros (? & ? & ? & _)|].
      destruct (collides_dec ckn (index_after name tk reqs) c c') as [Hc|Hc]; [left; by exists c, c'|right].
      intros (c1 & c2 & _ & E1 & E2 & Hx). by simplify_eq. }
    set (pairs := i ← seq 0 (length cs); (fun j => (i, j)) <$> seq 0 (length cs)).
    destruct (decide (Exists bad pairs)) as [He|He].
    + apply Exists_exists in He as ([i j] & _ & c & c' & Hx). by exists i, j, c, c'.
    + exfalso. assert (Hap : apart ckn (index_after name tk reqs) cs).
      { intros i j c c' Hij Hi Hj Hc. apply He, Exists_exists. exists (i, j). split; [|by exists c, c'].
        apply lookup_lt_Some in Hi as Hi', Hj as Hj'. unfold pairs. apply elem_of_list_bind. exists i.
        split; [|apply elem_of_seq; lia]. apply elem_of_list_fmap. exists j. split; [done|]. apply elem_of_seq. lia. }
      by destruct (C95_apart _ _ _ _ _ _ _ _ _ _ Hl Hap Hr) as [Hno _].
  - intros (i & j & c & c' & Hij & Hi & Hj & Hc).
    destruct (collides_race _ extra _ _ _ _ _ _ _ Hl Hc) as (ps & h' & Hr & Hrace).
    destruct (pool_two _ _ _ _ _ _ (bstart ckn name tk cs) i j Hr Hij) as (p' & q' & -> & Hr').
    { unfold bstart. by rewrite list_lookup_fmap, Hi. }
    { unfold bstart. by rewrite list_lookup_fmap, Hj. }
    eexists _, _. split; [exact Hr'|].
    assert (Hlen : length (bstart ckn name tk cs) = length cs) by (unfold bstart; by rewrite fmap_length).
    apply lookup_lt_Some in Hi, Hj.
    assert (Hpi : <[i := p']> (<[j := q']> (bstart ckn name tk cs)) !! i = Some p') by (apply list_lookup_insert; rewrite insert_length; lia).
    assert (Hpj : <[i := p']> (<[j := q']> (bstart ckn name tk cs)) !! j = Some q') by (rewrite list_lookup_insert_ne by done; apply list_lookup_insert; lia).
    destruct Hrace as (a & b & x & y & l & w & w' & Ha & Hb & Hab & Hx & Hy & Hw).
    destruct a as [|[|a]], b as [|[|b]]; simplify_eq/=.
    + exists i, j, x, y, l, w, w'. done.
    + exists j, i, x, y, l, w, w'. done.
Qed.
Print Assumptions C95_pool_races.

(** ** What such races do *)
Theorem C95_put_alone :
  forall extra r h, rtc (bpool extra) ([Put_m (h_tokenizer h) r], h) ([MDone BIndex], h_Put extra h r).
Proof. intros extra r h. by apply (brun_pool _ _ _ _ _ [_] 0 (put_alone extra r h)). Qed.
Print Assumptions C95_put_alone.

(** The index as seen through its methods, from an abstract index. *)
Lemma agrees_view ckn held h mi : agrees held h mi ->
  ix_Len (view_of ckn h) = Len mi /\ (forall t, ix_Indexed (view_of ckn h) t = Indexed ckn mi t) /\
  forall i, ix_Document (view_of ckn h) i = Document mi i.
Proof.
  intros HA. split; [by eapply agrees_Len|]. split.
  - intros t. destruct (agrees_Indexed ckn held h mi t HA) as (_ & E & _). cbn. rewrite <- E. by destruct (h_Indexed ckn h t).2.
  - intros i. by eapply agrees_Document.
Qed.
Definition doc_put (r : DocRequest) : Doc := NewDoc (req_ID r) (req_Raw r).

(** Two Puts may leave one of their documents behind. *)
Theorem C95_lost_document :
  forall ckn extra name tk h held reqs r r',
    life ckn extra name tk h held reqs ->
    exists h', rtc (bpool extra) (bstart ckn name tk [KPut r; KPut r'], h) ([MDone BIndex; MDone BIndex], h') /\
      ix_Len (view_of ckn h') = (Z.of_nat (length reqs) + 1)%Z /\
      ix_Document (view_of ckn h') (Z.of_nat (length reqs)) = Ok (doc_put r').
Proof.
  intros ckn extra name tk h held reqs r r' Hl. pose proof (life_agrees _ _ _ _ _ _ _ Hl) as HA.
  pose proof (rep_index_after name tk reqs) as [Htk Hdocs _].
  destruct (ag_docs _ _ _ HA) as (s & Hs & Hw & He). rewrite Hdocs in He.
  destruct (go_append extra zero_doc (h_docmem h) (Some s) (doc_put r)) as [m1 s1] eqn:E1.
  destruct (append_keeps _ _ _ _ _ _ _ Hw E1) as [Hw1 He1].
  destruct (go_append extra zero_doc m1 (Some s) (doc_put r')) as [m2 s2] eqn:E2.
  destruct (append_spec _ _ _ _ _ _ _ (Hw1 : owf _ (Some s)) E2) as (Hw2 & He2 & _).
  set (n := h_Len h).
  assert (Hstart : forall r, brun extra (Put_m tk r, h) (MPushDoc (Some s) (doc_put r) (fun s' => MSetDocs s' (tokens_m n (tk (req_Statement r)))), h)).
  { intros r0. unfold Put_m. eapply brun_step; [constructor|]. eapply brun_step; [constructor|]. rewrite Hs. unfold n, h_Len. rewrite Hs. apply rtc_refl. }
  set (h1 := set_docmem h m1). set (h2 := set_docmem h1 m2). set (h3 := set_docs h2 s1). set (h4 := set_docs h3 s2).
  set (h5 := with_inv h4 (fold_left (h_put_token extra n) (tk (req_Statement r)) (h_Inverted h4, h_mem h4))).
  set (h6 := with_inv h5 (fold_left (h_put_token extra n) (tk (req_Statement r')) (h_Inverted h5, h_mem h5))).
  exists h6. split.
  - unfold bstart. cbn [fmap list_fmap bprog].
    etrans; [by apply (brun_pool _ _ _ _ _ [_; _] 0 (Hstart r))|]. etrans; [by apply (brun_pool _ _ _ _ _ [_; _] 1 (Hstart r'))|]. cbn [insert list_insert].
    eapply rtc_l; [eapply (BP _ _ _ 0); [reflexivity|apply (B_PushDoc _ _ _ _ h m1 s1 E1)]|]. cbn [insert list_insert].
    eapply rtc_l; [eapply (BP _ _ _ 1); [reflexivity|apply (B_PushDoc _ _ _ _ (set_docmem h m1) m2 s2 E2)]|]. cbn [insert list_insert].
    eapply rtc_l; [eapply (BP _ _ _ 0); [reflexivity|apply B_SetDocs]|]. cbn [insert list_insert].
    eapply rtc_l; [eapply (BP _ _ _ 1); [reflexivity|apply B_SetDocs]|]. cbn [insert list_insert].
    etrans; [apply (brun_pool _ _ _ _ _ [_; _] 0 (tokens_alone extra n (tk (req_Statement r)) h4)); reflexivity|]. cbn [insert list_insert].
    etrans; [apply (brun_pool _ _ _ _ _ [_; _] 1 (tokens_alone extra n (tk (req_Statement r')) h5)); reflexivity|]. apply rtc_refl.
  - assert (Hel : elems (h_docmem h6) (h_Docs h6) = map doc_of reqs ++ [doc_put r']) by (change (elems m2 (Some s2) = map doc_of reqs ++ [doc_put r']); by rewrite He2, He1, He).
    assert (Hlen : h_Len h6 = Z.of_nat (length (elems (h_docmem h6) (h_Docs h6)))) by (change (Z.of_nat (s_len s2) = Z.of_nat (length (elems m2 (Some s2)))); by rewrite (elems_length _ _ Hw2)).
    split.
    + cbn [ix_Len view_of]. rewrite Hlen, Hel, app_length, map_length. cbn. lia.
    + cbn [ix_Document view_of]. unfold h_Document, slice_get. rewrite Hel. rewrite (proj2 (Z.ltb_ge _ 0)) by lia.
      rewrite Nat2Z.id. rewrite lookup_app_r by (by rewrite map_length). by rewrite map_length, Nat.sub_diag.
Qed.
Print Assumptions C95_lost_document.

(** The rest of a Put that took [next] for the position of its document. *)
Definition late_put (tk : Tokenizer) (next : Z) (r : DocRequest) : mprog :=
  MGetDocs (fun s => MPushDoc s (doc_put r) (fun s' => MSetDocs s' (tokens_m next (tk (req_Statement r))))).
Lemma late_put_runs extra tk next r held h mi :
  agrees held h mi ->
  exists h', brun extra (late_put tk next r, h) (MDone BIndex, h') /\
    agrees held h' (MkMI (mi_name mi) (mi_tokenizer mi) (mi_Docs mi ++ [doc_put r])
                      (fold_left (put_token next) (tk (req_Statement r)) (mi_Inverted mi))).
Proof.
  intros [Hn Ht (s & Hs & Hw & He) Hi].
  destruct (go_append extra zero_doc (h_docmem h) (Some s) (doc_put r)) as [m s'] eqn:E.
  destruct (append_spec _ _ _ _ _ _ _ (Hw : owf _ (Some s)) E) as (A1 & A2 & _).
  eexists. split.
  - unfold late_put. eapply brun_step; [constructor|]. eapply brun_step; [constructor; by rewrite Hs|]. eapply brun_step; [constructor|]. apply tokens_alone.
  - destruct (own_tokens extra next held (tk (req_Statement r)) _ _ _ Hi) as (K1 & _ & _).
    split; [done|done| |exact K1]. exists s'. split; [done|]. split; [done|]. cbn [h_docmem mi_Docs with_inv set_docs set_docmem]. by rewrite A2, He.
Qed.

Lemma put_tokens_keep next toks (inv : gmap string (list Z)) t z :
  z ∈ default [] (inv !! t) -> z ∈ default [] (fold_left (put_token next) toks inv !! t).
Proof.
  revert inv. induction toks as [|tok toks IH]; intros inv Hz; [done|]. cbn [fold_left]. apply IH.
  unfold put_token. destruct (has_doc _ _); [done|]. destruct (decide (tok = t)) as [->|Hne].
  - rewrite lookup_insert. cbn [default]. apply elem_of_app. by left.
  - by rewrite lookup_insert_ne.
Qed.

(** Or its words are taken for words of the other document. *)
Theorem C95_wrong_document :
  forall ckn extra name tk h held reqs r r',
    life ckn extra name tk h held reqs ->
    let n := Z.of_nat (length reqs) in
    exists h', rtc (bpool extra) (bstart ckn name tk [KPut r; KPut r'], h) ([MDone BIndex; MDone BIndex], h') /\
      ix_Len (view_of ckn h') = (n + 2)%Z /\
      ix_Document (view_of ckn h') n = Ok (doc_put r') /\ ix_Document (view_of ckn h') (n + 1) = Ok (doc_put r) /\
      (forall t l, ix_Indexed (view_of ckn h') t = Some l -> (n + 1)%Z ∉ l) /\
      (forall t, t ∈ tk (req_Statement r) -> positions tk t 0 reqs = [] ->
         LinearSearch [t] (view_of ckn h') = Ok [MkSR (doc_put r') 1]).
Proof.
  intros ckn extra name tk h held reqs r r' Hl n. pose proof (life_agrees _ _ _ _ _ _ _ Hl) as HA.
  pose proof (rep_index_after name tk reqs) as [Htk Hdocs Hinv].
  pose proof (agrees_put extra held h _ r' HA) as [HA1 _].
  destruct (late_put_runs extra tk n r held _ _ HA1) as (h2 & Hr2 & HA2).
  set (mi2 := MkMI _ _ _ _) in HA2. destruct (agrees_view ckn _ _ _ HA2) as (V1 & V2 & V3).
  assert (Hn : Z.of_nat (length (mi_Docs (index_after name tk reqs))) = n) by (by rewrite Hdocs, map_length).
  assert (Hfold : forall t, mi_Inverted mi2 !! t =
    if decide (t ∈ tk (req_Statement r') ++ tk (req_Statement r)) then Some (positions tk t 0 reqs ++ [n]) else mi_Inverted (index_after name tk reqs) !! t).
  { intros t. unfold mi2. cbn [mi_Inverted Put]. rewrite Hn, Htk. rewrite <- fold_left_app.
    assert (Hd : default [] (mi_Inverted (index_after name tk reqs) !! t) = positions tk t 0 reqs) by (rewrite Hinv; by destruct (positions tk t 0 reqs)).
    rewrite put_tokens_lookup, Hd; [done|]. rewrite Hd. intros Hin. apply positions_elem in Hin as (_ & x & Hx & _).
    apply lookup_lt_Some in Hx. unfold n in Hx. lia. }
  assert (Hd2 : mi_Docs mi2 = map doc_of reqs ++ [doc_put r'; doc_put r]).
  { unfold mi2. cbn [mi_Docs Put]. rewrite Hdocs. by rewrite <- app_assoc. }
  exists h2. split_and!.
  - unfold bstart. cbn [fmap list_fmap bprog].
    assert (H1 : brun extra (Put_m tk r, h) (late_put tk n r, h)).
    { eapply brun_step; [constructor|]. rewrite (len_Len held h _ HA). unfold Len. rewrite Hn. apply rtc_refl. }
    etrans; [by apply (brun_pool _ _ _ _ _ [_; _] 0 H1)|]. cbn [insert list_insert].
    pose proof (put_alone extra r' h) as H2. rewrite (life_tk _ _ _ _ _ _ _ Hl) in H2.
    etrans; [by apply (brun_pool _ _ _ _ _ [_; _] 1 H2)|]. cbn [insert list_insert].
    etrans; [by apply (brun_pool _ _ _ _ _ [_; _] 0 Hr2)|]. apply rtc_refl.
  - rewrite V1. unfold Len. rewrite Hd2, app_length, map_length. cbn. unfold n. lia.
  - rewrite V3. unfold Document, slice_get. rewrite Hd2, (proj2 (Z.ltb_ge _ 0)) by (unfold n; lia).
    unfold n. rewrite Nat2Z.id, lookup_app_r, map_length by (by rewrite map_length). by rewrite Nat.sub_diag.
  - rewrite V3. unfold Document, slice_get. rewrite Hd2, (proj2 (Z.ltb_ge _ 0)) by (unfold n; lia).
    replace (Z.to_nat (n + 1)) with (length reqs + 1) by (unfold n; lia).
    rewrite lookup_app_r, map_length by (rewrite map_length; lia). by replace (length reqs + 1 - length reqs) with 1 by lia.
  - intros t l. rewrite V2. unfold Indexed. rewrite Hfold, Hinv.
    assert (Hbelow : forall z, z ∈ positions tk t 0 reqs -> (z < n)%Z).
    { intros z Hz. apply positions_elem in Hz as (H0 & x & Hx & _). apply lookup_lt_Some in Hx. unfold n. lia. }
    case_decide.
    + intros E. simplify_eq. rewrite elem_of_app, elem_of_list_singleton. intros [Hin|Hin]; [apply Hbelow in Hin|]; lia.
    + destruct (positions tk t 0 reqs) as [|z l0] eqn:Ep.
      * destruct ckn; intros E; simplify_eq. apply not_elem_of_nil.
      * intros E. simplify_eq. intros Hin. apply Hbelow in Hin. lia.
  - intros t Ht Hp. cbn [LinearSearch]. rewrite V2. unfold Indexed. rewrite Hfold, decide_True, Hp by (apply elem_of_app; by right).
    cbn [linear_loop obind ofold app]. rewrite V3. unfold Document, slice_get. rewrite Hd2, (proj2 (Z.ltb_ge _ 0)) by (unfold n; lia).
    unfold n. rewrite Nat2Z.id, lookup_app_r, map_length by (by rewrite map_length). by rewrite Nat.sub_diag.
Qed.
Print Assumptions C95_wrong_document.

Lemma fetch_panics (ix : Indexer) bad l (f : list SearchResult -> Doc -> list SearchResult) acc :
  bad ∈ l -> ix_Document ix bad = Panic ->
  ofold (fun results j => obind (ix_Document ix j) (fun doc => Ok (f results doc))) acc l = Panic.
Proof.
  intros Hin Hbad. revert acc. induction l as [|z l IH]; intros acc; [by apply elem_of_nil in Hin|].
  cbn [ofold]. apply elem_of_cons in Hin as [<-|Hin]; [by rewrite Hbad|].
  destruct (ix_Document ix z) as [d|]; [|done]. cbn [obind]. by apply IH.
Qed.

(** Three Puts may leave an index that panics from then on. *)
Theorem C95_broken_index :
  forall ckn extra name tk h held reqs r1 r2 r3,
    life ckn extra name tk h held reqs ->
    exists h', rtc (bpool extra) (bstart ckn name tk [KPut r1; KPut r2; KPut r3], h)
                 ([MDone BIndex; MDone BIndex; MDone BIndex], h') /\
      forall t, t ∈ tk (req_Statement r3) -> LinearSearch [t] (view_of ckn h') = Panic.
Proof.
  intros ckn extra name tk h held reqs r1 r2 r3 Hl. pose proof (life_agrees _ _ _ _ _ _ _ Hl) as HA.
  pose proof (rep_index_after name tk reqs) as [Htk Hdocs _].
  pose proof HA as [A1 A2 (s & Hs & Hw & He) A4]. rewrite Hdocs in He.
  destruct (go_append extra zero_doc (h_docmem h) (h_Docs h) (doc_put r1)) as [m1 s1] eqn:E1.
  pose proof (put_docs extra tk r1 h m1 s1 E1) as Hrun1. rewrite Hs in E1.
  destruct (append_spec _ _ _ _ _ _ _ (Hw : owf _ (Some s)) E1) as (_ & _ & Hlen1 & _).
  destruct (append_keeps _ _ _ _ _ _ _ Hw E1) as [Hw1 He1].
  set (h1 := set_docmem h m1) in Hrun1.
  assert (HA1 : agrees held h1 (index_after name tk reqs)).
  { split; [done|done| |done]. exists s. split; [done|]. split; [done|]. change (elems m1 (Some s) = mi_Docs (index_after name tk reqs)). by rewrite He1, He, Hdocs. }
  pose proof (agrees_put extra held h1 _ r2 HA1) as [HA2 _].
  pose proof (agrees_put extra held _ _ r3 HA2) as [HA3 _].
  set (h3 := h_Put extra (h_Put extra h1 r2) r3) in HA3.
  set (n := h_Len h).
  set (h4 := set_docs h3 s1).
  set (h5 := with_inv h4 (fold_left (h_put_token extra n) (tk (req_Statement r1)) (h_Inverted h4, h_mem h4))).
  exists h5. split.
  - unfold bstart. cbn [fmap list_fmap bprog].
    etrans; [by apply (brun_pool _ _ _ _ _ [_; _; _] 0 Hrun1)|]. cbn [insert list_insert].
    assert (Et1 : h_tokenizer h1 = tk) by (by apply (life_tk _ _ _ _ _ _ _ Hl)).
    pose proof (put_alone extra r2 h1) as P2. rewrite Et1 in P2.
    etrans; [by apply (brun_pool _ _ _ _ _ [_; _; _] 1 P2)|]. cbn [insert list_insert].
    pose proof (put_alone extra r3 (h_Put extra h1 r2)) as P3.
    rewrite (ag_tok _ _ _ HA2) in P3. cbn [Put mi_tokenizer] in P3. rewrite Htk in P3.
    etrans; [by apply (brun_pool _ _ _ _ _ [_; _; _] 2 P3)|]. cbn [insert list_insert].
    eapply rtc_l; [eapply (BP _ _ _ 0); [reflexivity|apply B_SetDocs]|]. cbn [insert list_insert].
    etrans; [apply (brun_pool _ _ _ _ _ [_; _; _] 0 (tokens_alone extra n (tk (req_Statement r1)) h4)); reflexivity|]. apply rtc_refl.
  - intros t Ht.
    set (mi3 := Put (Put (index_after name tk reqs) r2) r3) in HA3.
    assert (HA5 : agrees held (with_inv h3 (fold_left (h_put_token extra n) (tk (req_Statement r1)) (h_Inverted h3, h_mem h3)))
      (MkMI (mi_name mi3) (mi_tokenizer mi3) (mi_Docs mi3) (fold_left (put_token n) (tk (req_Statement r1)) (mi_Inverted mi3)))).
    { destruct HA3 as [B1 B2 B3 B4]. destruct (own_tokens extra n held (tk (req_Statement r1)) _ _ _ B4) as (K1 & _ & _). by split. }
    destruct (agrees_view ckn _ _ _ HA5) as (_ & V2 & _). specialize (V2 t).
    assert (V5 : ix_Indexed (view_of ckn h5) t =
      ix_Indexed (view_of ckn (with_inv h3 (fold_left (h_put_token extra n) (tk (req_Statement r1)) (h_Inverted h3, h_mem h3)))) t).
    { cbn [ix_Indexed view_of]. unfold h_Indexed, h5, h4. cbn [h_Inverted h_mem with_inv set_docs].
      destruct (match _ !! t with Some _ => false | None => ckn end); done. }
    rewrite <- V5 in V2. clear V5.
    set (bad := Z.of_nat (S (length reqs))).
    assert (Hin : bad ∈ default [] (fold_left (put_token n) (tk (req_Statement r1)) (mi_Inverted mi3) !! t)).
    { apply put_tokens_keep. pose proof (rep_index_after name tk (reqs ++ [r2; r3])) as [_ _ Hinv3].
      assert (Em : mi3 = index_after name tk (reqs ++ [r2; r3])) by (unfold mi3, index_after; by rewrite fold_left_app).
      rewrite Em, Hinv3.
      assert (Hb : bad ∈ positions tk t 0 (reqs ++ [r2; r3])).
      { apply positions_elem. split; [unfold bad; lia|]. exists r3. rewrite Z.sub_0_r. unfold bad. rewrite Nat2Z.id.
        rewrite lookup_app_r by lia. replace (S (length reqs) - length reqs) with 1 by lia. split; [done|].
        unfold contains. by apply bool_decide_eq_true. }
      destruct (positions tk t 0 (reqs ++ [r2; r3])); [by apply elem_of_nil in Hb|done]. }
    assert (Hbad : ix_Document (view_of ckn h5) bad = Panic).
    { cbn [ix_Document view_of]. unfold h_Document, slice_get. rewrite (proj2 (Z.ltb_ge _ 0)) by (unfold bad; lia).
      unfold bad. rewrite Nat2Z.id. rewrite lookup_ge_None_2; [done|]. cbn [h5 h4 h_Docs h_docmem with_inv set_docs elems].
      rewrite take_length, Hlen1, He, map_length. lia. }
    cbn [LinearSearch]. rewrite V2. unfold Indexed. cbn [mi_Inverted].
    destruct (fold_left (put_token n) _ _ !! t) as [l|]; [|by apply elem_of_nil in Hin]. cbn [default] in Hin. change (bad ∈ l) in Hin.
    cbn [linear_loop obind]. by apply (fetch_panics _ bad l (fun results doc => results ++ [MkSR doc (Z.of_nat (length [t]))])).
Qed.
Print Assumptions C95_broken_index.

Definition dA : DocRequest := NewDocRequest "1" "a b".
Definition dB : DocRequest := NewDocRequest "2" "b c".
Definition dC : DocRequest := NewDocRequest "3" "a c".

(** An index with two documents, and calls of all kinds. *)
Example C95_example :
  exists h, life true (fun n => n) "i" letters h [] [dA; dB] /\
    Forall looks [KSearch "a" Linear_i; KLen; KIndexed "a"; KDocument 7; KString] /\
    letters (req_Statement dC) <> [] /\
    collides true (index_after "i" letters [dA; dB]) (KPut dC) (KSearch "a" Linear_i) /\
    ~ collides true (index_after "i" letters [dA; dB]) (KPut dC) (KSearch "a" NoopZero_i).
Proof.
  exists (h_Put (fun n => n) (h_Put (fun n => n) (h_New "i" letters) dA) dB).
  split; [apply (L_put _ _ _ _ _ [] [dA]), (L_put _ _ _ _ _ [] []), L_new|]. split; [by repeat constructor|].
  split; [done|]. split; [left; done|]. intros [[_ H]|H]; [done|]. by apply Exists_nil in H.
Qed.

(** A Put of a text without words beside calls that look at the postings. *)
Example C95_example_apart :
  letters "" = [] /\
  apart true (index_after "i" letters [dA; dB])
    [KIndexed "a"; KPut (NewDocRequest "0" ""); KString; KSearch "a" NoopZero_i; KIndexed "b"].
Proof.
  split; [done|]. intros i j c c' Hij Hi Hj Hc.
  do 5 (try destruct i as [|i]; simplify_eq/=; try done); do 5 (try destruct j as [|j]; simplify_eq/=; try done); try (by apply Hc).
  destruct Hc as [[_ H]|H]; [done|]. by apply Exists_nil in H.
Qed.
