(** * Property C93: whatever the machine of atomic sections allows can happen.

    C57 and C58 say that concurrent calls do nothing that a machine with one or two
    atomic sections per call (SpecConc.v) does not do.  Here: they can do everything
    that the machine does, so the machine describes the possible outcomes exactly. *)
From Coq Require Import Lia.
From stdpp Require Import gmap list.
From Verif Require Import Entities Search SpecSearch Properties_Search Repo Sem RepoWp SpecRepo
  ProofRepo ProofTotal ProofReach Properties_Repo SpecConc Locks Race ProofRace Reduce ProofConc ProofSim Run
  Properties_Conc SpecExact ProofAlone ProofNames ProofWhole.
Open Scope string_scope.
Open Scope list_scope.
Open Scope nat_scope.

(** A run of the machine, none of whose sections leaves a lock behind, and which stops
    with all calls between two sections, is a run of the code: the same calls have
    been answered, with the same answers, the others have not returned; the indices
    and aliases are the same; and all locks are free. *)
Theorem C93_everything_happens :
  forall ckn tk s v cs w xs w',
    tracks ckn tk s v -> unblocked v -> pictures tk s w ->
    rtc (tstep_of ckn tk) (APool (cstart cs) w) (APool (Between <$> xs) w') ->
    exists ts s', rtc pstep (Pool (start cs) s) (Pool ts s') /\ Forall2 (arrived cs s') xs ts /\
      r_imu s' = rw_free /\ r_amu s' = rw_free /\
      stored s' = m_stored tk w' /\ lists s' = c_ali w'.
Proof.
  intros ckn tk s v cs w xs w' Ht Hu Hp Hr.
  destruct (pictures_shC _ _ _ _ _ (reach_shape _ _ _ _ _ Ht) Hu Hp) as (Hsh & Hfree & _).
  destruct (machine_happens true ckn tk id w w s cs xs w' (ren_id _ _ _ _ _ Hsh) Hsh Hfree ltac:(by left) Hr)
    as (ts & s' & R1 & R2 & R3 & R4 & _ & R5 & R6).
  exists ts, s'. split_and!; auto.
Qed.
Print Assumptions C93_everything_happens.

(** The same for the death of the process. *)
Theorem C93_every_crash_happens :
  forall ckn tk s v cs w,
    tracks ckn tk s v -> unblocked v -> pictures tk s w ->
    rtc (tstep_of ckn tk) (APool (cstart cs) w) ACrashed -> rtc pstep (Pool (start cs) s) PCrashed.
Proof.
  intros ckn tk s v cs w Ht Hu Hp Hr.
  destruct (pictures_shC _ _ _ _ _ (reach_shape _ _ _ _ _ Ht) Hu Hp) as (Hsh & Hfree & _).
  eapply (machine_crash_happens true); [by eapply ren_id|done|done|by left|done].
Qed.
Print Assumptions C93_every_crash_happens.

(** Every state has a picture. *)
Theorem C93_picture :
  forall ckn tk s v, tracks ckn tk s v -> unblocked v -> exists w, pictures tk s w /\ view_of w = v.
Proof. intros ckn tk s v Ht Hu. eapply pictures_init; [by eapply reach_shape|done]. Qed.
Print Assumptions C93_picture.

Lemma answers_same cs p a a' s :
  answers p a -> answers p a' -> (without_rename cs -> read_as s p a /\ read_as s p a') -> same_answer cs a' a.
Proof.
  intros H1 H2 Hs. destruct p; try done.
  - destruct r; simpl in H1, H2; destruct a as [o|], a' as [o'|]; try done.
    1-3,5-7: specialize (H1 s); specialize (H2 s); simpl in *; subst; done.
    destruct o, o'; try done. simpl. split; [congruence|]. intros Hw. destruct (Hs Hw) as [E1 E2]. simpl in E1, E2. congruence.
  - by destruct a, a'.
Qed.
Lemma answers_related cs p a a' s :
  answers p a' -> (without_rename cs -> read_as s p a') -> same_answer cs a' a -> answers p a /\ (without_rename cs -> read_as s p a).
Proof.
  intros H1 H2 Ha. unfold same_answer in Ha. destruct a' as [o'|]; [|by subst].
  destruct o'; try (by subst a). destruct a as [o|]; [|done]. destruct o; try done. destruct Ha as [Hn Hw].
  destruct p; try done. destruct r; simpl in *; try by specialize (H1 s).
  split; [congruence|]. intros Hwr. rewrite <- Hw by done. by apply H2.
Qed.

Lemma code_machine ckn tk s cs w la m ali :
  shC false ckn tk (dat s) w -> alone_ok s none_held -> separate cs ->
  code_can s cs la m ali -> machine_can ckn tk w cs la m ali.
Proof.
  intros Hsh [E1 E2] Hsep (ts & s' & Hr & Hla & <- & <-).
  destruct (separate_mode cs Hsep) as (md & Hmd & Hal & Hrow).
  pose proof (simR_simulation md Hmd false ckn tk cs ltac:(done)) as HS.
  assert (HR : simR md false ckn tk cs (start cs) s (cstart cs) w) by by apply simR_start.
  destruct (simulation_reach _ _ _ _ _ _ _ _ _ HS HR Hr) as (l' & w' & HR' & Hm).
  destruct (sim_agrees _ _ _ _ HS _ _ _ _ HR') as [A1 A2 A3 A4 A5].
  assert (Hfin : Forall finished ts).
  { clear -Hla. induction Hla as [|t a ts la (p & -> & Ha & _) Hla IH]; constructor; [|done]. by destruct p. }
  assert (exists la', l' = (fun a => Between (Answered a)) <$> la' /\ Forall2 (same_answer cs) la' la) as (la' & -> & Hlk).
  { assert (Hrows : without_rename cs -> forall i r, ts !! i = Some (TRun (Ret r)) -> l' !! i = Some (Between (Answered (Returned (see s' r))))).
    { intros Hw. apply A5. apply bool_decide_eq_true. by apply Hrow. }
    clear -A1 A2 Hla Hfin Hrows. revert l' A1 A2 Hrows. induction Hla as [|t a ts la (p & -> & Ha & Hs) Hla IH]; intros l' A1 A2 Hrows.
    - destruct l'; [|done]. exists []. split; [done|constructor].
    - destruct l' as [|x l']; [done|]. inversion Hfin as [|? ? Hf1 Hf2]; subst.
      destruct (A2 0 p eq_refl Hf1) as (a' & [= ->] & Ha').
      destruct (IH Hf2 l') as (la' & -> & Hlk).
      + by injection A1.
      + intros i q Hi. apply (A2 (S i) q Hi).
      + intros Hw i r Hi. by apply (Hrows Hw (S i)).
      + exists (a' :: la'). split; [done|]. constructor; [|done]. eapply answers_same; [done|done|].
        intros Hw. split; [by apply Hs|]. destruct p; try done.
        specialize (Hrows Hw 0 r eq_refl). injection Hrows as ->. done. }
  exists la', w'. split; [done|]. split; [done|].
  specialize (A3 (or_intror Hfin)). specialize (A4 (or_intror Hfin)). split; [|by symmetry]. symmetry. by apply stored_shows.
Qed.

Lemma machine_code str ckn tk f w w2 s cs la m ali :
  ren str f w w2 -> shC false ckn tk (dat s) w2 -> alone_ok s none_held -> (str = true \/ forall show, CString show ∉ cs) ->
  kept cs la -> machine_can ckn tk w cs la m ali ->
  exists m', code_can s cs la m' ali /\ unnamed <$> m' = unnamed <$> m /\ (str = true -> m' = m).
Proof.
  intros Hren Hsh Hfree Hstr Hk (la' & w' & Hr & Hla & <- & <-).
  assert (Hk' : kept cs la').
  { intros i a n Hi Hn Hf. destruct (Forall2_lookup_l _ _ _ _ _ Hla Hf) as (a2 & Ha2 & Hs). simpl in Hs. subst a2. by eapply Hk. }
  apply (kept_tidy ckn tk cs) in Hr; [|by apply origin_start|done].
  assert (Er : (fun a => Between (Answered a)) <$> la' = Between <$> (Answered <$> la') :> list cthr) by (by rewrite <- list_fmap_compose).
  rewrite Er in Hr.
  destruct (machine_happens str ckn tk f w w2 s cs _ w' Hren Hsh Hfree Hstr Hr) as (ts & s' & R1 & R2 & R3 & R4 & R5 & R6 & R7).
  exists (stored s'). split; [|done]. exists ts, s'. split_and!; [done| |done|done].
  assert (R2' : Forall2 (fun t a => arrived cs s' (Answered a) t) ts la').
  { clear -R2. revert ts R2. induction la' as [|a la' IH]; intros ts R2; inversion R2; subst; constructor; auto. }
  eapply Forall2_transitive; [|exact R2'|exact Hla].
  intros t a' a (p & -> & Ha & Hs) Hal. exists p. split; [done|]. by eapply answers_related.
Qed.

(** So the possible outcomes of concurrent calls on a repo with any history are those
    of the machine: exactly the same answers together with exactly the same memory
    afterwards.  ([separate]: Rename and UnAlias are not both among the calls; [kept]:
    no UnAlias of an index from an alias fails, as that leaves a lock behind.) *)
Theorem C93_exactly :
  forall ckn tk s v cs w la m ali,
    tracks ckn tk s v -> unblocked v -> pictures tk s w -> separate cs -> kept cs la ->
    code_can s cs la m ali <-> machine_can ckn tk w cs la m ali.
Proof.
  intros ckn tk s v cs w la m ali Ht Hu Hp Hs Hk.
  destruct (pictures_shC _ _ _ _ _ (reach_shape _ _ _ _ _ Ht) Hu Hp) as (Hsh & Hfree & _).
  split; [by apply code_machine|]. intros Hm.
  destruct (machine_code true ckn tk id w w s cs la m ali (ren_id _ _ _ _ _ Hsh) Hsh Hfree ltac:(by left) Hk Hm) as (m' & Hc & _ & E).
  by rewrite <- E.
Qed.
Print Assumptions C93_exactly.

(** The same for the death of the process, if UnAlias only removes whole aliases. *)
Theorem C93_crash_exactly :
  forall ckn tk s v cs w,
    tracks ckn tk s v -> unblocked v -> pictures tk s w -> separate cs -> whole_unalias cs ->
    rtc pstep (Pool (start cs) s) PCrashed <-> rtc (cstep ckn tk) (APool (cstart cs) w) ACrashed.
Proof.
  intros ckn tk s v cs w Ht Hu Hp Hs Hk.
  destruct (pictures_shC _ _ _ _ _ (reach_shape _ _ _ _ _ Ht) Hu Hp) as (Hsh & [E1 E2] & _). split.
  - intros Hr. destruct (separate_mode cs Hs) as (md & Hmd & Hal & Hrow).
    pose proof (simR_simulation md Hmd false ckn tk cs ltac:(done)) as HS.
    assert (HR : simR md false ckn tk cs (start cs) s (cstart cs) w) by by apply simR_start.
    exact (simulation_reach _ _ _ _ _ _ _ _ _ HS HR Hr).
  - intros Hm. eapply C93_every_crash_happens; [done..|]. eapply whole_crash_tidy; [done|apply origin_start|done].
Qed.
Print Assumptions C93_crash_exactly.

(** What concurrent calls other than String can do depends on nothing but the view:
    repos with different histories, but the same documents under the same names and
    the same aliases, behave the same. *)
Theorem C93_only_the_view_matters :
  forall ckn tk s1 s2 v cs la m1 ali,
    tracks ckn tk s1 v -> tracks ckn tk s2 v -> unblocked v -> separate cs -> kept cs la ->
    (forall show, CString show ∉ cs) ->
    code_can s1 cs la m1 ali ->
    exists m2, code_can s2 cs la m2 ali /\ unnamed <$> m2 = unnamed <$> m1.
Proof.
  intros ckn tk s1 s2 v cs la m1 ali Ht1 Ht2 Hu Hs Hk Hstr Hc.
  destruct (C93_picture _ _ _ _ Ht1 Hu) as (w1 & Hp1 & Hv1). destruct (C93_picture _ _ _ _ Ht2 Hu) as (w2 & Hp2 & Hv2).
  destruct (pictures_shC _ _ _ _ _ (reach_shape _ _ _ _ _ Ht1) Hu Hp1) as (Hsh1 & Hfree1 & _).
  destruct (pictures_shC _ _ _ _ _ (reach_shape _ _ _ _ _ Ht2) Hu Hp2) as (Hsh2 & Hfree2 & _).
  destruct (ren_same_view _ _ _ _ _ _ Hsh1 Hsh2 (pic_obj _ _ _ Hp1) ltac:(congruence)) as [f Hf].
  apply (code_machine ckn tk s1 cs w1) in Hc; [|done..].
  destruct (machine_code false ckn tk f w1 w2 s2 cs la m1 ali Hf Hsh2 Hfree2 ltac:(by right) Hk Hc) as (m2 & Hm2 & E & _).
  by exists m2.
Qed.
Print Assumptions C93_only_the_view_matters.

Theorem C93_only_the_view_matters_for_crashes :
  forall ckn tk s1 s2 v cs,
    tracks ckn tk s1 v -> tracks ckn tk s2 v -> unblocked v -> separate cs -> whole_unalias cs ->
    (forall show, CString show ∉ cs) ->
    rtc pstep (Pool (start cs) s1) PCrashed -> rtc pstep (Pool (start cs) s2) PCrashed.
Proof.
  intros ckn tk s1 s2 v cs Ht1 Ht2 Hu Hs Hk Hstr Hc.
  destruct (C93_picture _ _ _ _ Ht1 Hu) as (w1 & Hp1 & Hv1). destruct (C93_picture _ _ _ _ Ht2 Hu) as (w2 & Hp2 & Hv2).
  destruct (pictures_shC _ _ _ _ _ (reach_shape _ _ _ _ _ Ht1) Hu Hp1) as (Hsh1 & Hfree1 & _).
  destruct (pictures_shC _ _ _ _ _ (reach_shape _ _ _ _ _ Ht2) Hu Hp2) as (Hsh2 & Hfree2 & _).
  destruct (ren_same_view _ _ _ _ _ _ Hsh1 Hsh2 (pic_obj _ _ _ Hp1) ltac:(congruence)) as [f Hf].
  apply (C93_crash_exactly ckn tk s1 v cs w1) in Hc; [|done..].
  eapply (machine_crash_happens false); [exact Hf|done|done|by right|].
  eapply whole_crash_tidy; [done|apply origin_start|done].
Qed.
Print Assumptions C93_only_the_view_matters_for_crashes.

(** ** An application *)

Lemma kept_without cs la : (forall a i, CUnAlias a i ∉ cs) -> kept cs la.
Proof. intros H i a n Hi. exfalso. eapply H. by eapply elem_of_list_lookup_2. Qed.

(** Two calls of Put with a name that is not in use: each of them may return although
    its document is not stored, whatever else is in the repo. *)
Theorem C93_a_document_can_be_lost :
  forall ckn tk s v n d1 d2,
    tracks ckn tk s v -> unblocked v -> v_idx v !! n = None -> v_ali v !! n = None ->
    code_can s [CPut n d1; CPut n d2] [Returned OUnit; Returned OUnit]
      (<[n := index_after n tk [d2]]> (stored s)) (lists s) /\
    code_can s [CPut n d1; CPut n d2] [Returned OUnit; Returned OUnit]
      (<[n := index_after n tk [d1]]> (stored s)) (lists s).
Proof.
  intros ckn tk s v n d1 d2 Ht Hu Hn Ha.
  destruct (C93_picture _ _ _ _ Ht Hu) as (w & Hp & Hv).
  assert (Hsep : separate [CPut n d1; CPut n d2]) by (left; intros old new; set_solver).
  assert (Hk : forall la, kept [CPut n d1; CPut n d2] la) by (intros la; apply kept_without; intros a i; set_solver).
  assert (Hidx : c_idx w !! n = None).
  { rewrite <- Hv in Hn. simpl in Hn. rewrite lookup_omap in Hn. destruct (c_idx w !! n) as [p|] eqn:E; [|done]. cbn in Hn.
    destruct (pic_idx _ _ _ Hp) as [_ Hx]. destruct (Hx _ _ E) as (nm & reqs & Ho & _). by rewrite Ho in Hn. }
  assert (Hali : c_ali w !! n = None) by (by rewrite <- Hv in Ha).
  assert (Htg : targets w n = None) by (unfold targets; by rewrite Hidx, Hali).
  assert (Hst : stored s = m_stored tk w) by (by apply stored_shows, Hp).
  assert (Hli : lists s = c_ali w) by exact (pic_ali _ _ _ Hp).
  set (p1 := base.fresh (dom (c_obj w))).
  assert (Hp1 : c_obj w !! p1 = None) by (apply not_elem_of_dom, is_fresh).
  set (p2 := base.fresh (dom (c_obj w) ∪ {[p1]})).
  assert (Hp2 : p2 ∉ dom (c_obj w) ∪ {[p1]}) by apply is_fresh.
  apply not_elem_of_union in Hp2 as [Hp2 Hne]. apply not_elem_of_dom in Hp2. apply not_elem_of_singleton in Hne.
  assert (Hgo : forall i j da db, i <> j -> [CPut n d1; CPut n d2] !! i = Some (CPut n da) -> [CPut n d1; CPut n d2] !! j = Some (CPut n db) ->
    code_can s [CPut n d1; CPut n d2] [Returned OUnit; Returned OUnit] (<[n := index_after n tk [db]]> (stored s)) (lists s)).
  { intros i j da db Hij Hi Hj. apply (C93_exactly ckn tk s v _ w); [done..|apply Hk|].
    set (w1 := MkC (<[n := p1]> (c_idx w)) (<[p1 := (n, [da])]> (c_obj w)) (c_ali w)).
    set (w2 := MkC (<[n := p2]> (c_idx w1)) (<[p2 := (n, [db])]> (c_obj w1)) (c_ali w)).
    exists [Returned OUnit; Returned OUnit], w2. split; [|split; [by repeat constructor|split; [|by rewrite Hli]]].
    - assert (Hst1 : rtc (cstep ckn tk) (APool (cstart [CPut n d1; CPut n d2]) w)
        (APool [Between (PutAt n d1 None); Between (PutAt n d2 None)] w)).
      { eapply rtc_l; [apply (as_commit _ _ _ _ _ _ 0 (Todo (CPut n d1)) (Next (PutAt n d1 None)) w); [done|]; simpl; by rewrite Htg|].
        eapply rtc_l; [by apply (as_return _ _ _ _ _ _ 0 (Next (PutAt n d1 None)) (PutAt n d1 None))|].
        eapply rtc_l; [apply (as_commit _ _ _ _ _ _ 1 (Todo (CPut n d2)) (Next (PutAt n d2 None)) w); [done|]; simpl; by rewrite Htg|].
        eapply rtc_l; [by apply (as_return _ _ _ _ _ _ 1 (Next (PutAt n d2 None)) (PutAt n d2 None))|]. done. }
      etrans; [exact Hst1|]. clear Hst1.
      assert (E : forall k dk, [CPut n d1; CPut n d2] !! k = Some (CPut n dk) ->
        ([Between (PutAt n d1 None); Between (PutAt n d2 None)] : list cthr) !! k = Some (Between (PutAt n dk None))).
      { intros k dk Hk'. destruct k as [|[|k]]; simpl in Hk'; simplify_eq; done. }
      pose proof (E _ _ Hi) as Ei. pose proof (E _ _ Hj) as Ej.
      assert (Hi2 : i < 2) by (by apply lookup_lt_Some in Hi). assert (Hj2 : j < 2) by (by apply lookup_lt_Some in Hj).
      eapply rtc_l; [apply (as_commit _ _ _ _ _ _ i (PutAt n da None) (ret_obs OUnit) w1); [done|]; simpl; by exists p1|].
      eapply rtc_l; [apply (as_return _ _ _ _ _ _ i (ret_obs OUnit) (Answered (Returned OUnit))); [by apply list_lookup_insert|done]|].
      eapply rtc_l; [apply (as_commit _ _ _ _ _ _ j (PutAt n db None) (ret_obs OUnit) w2); [by rewrite !list_lookup_insert_ne by done|]|].
      { simpl. exists p2. split_and!; [|done|done]. by rewrite lookup_insert_ne. }
      eapply rtc_l; [apply (as_return _ _ _ _ _ _ j (ret_obs OUnit) (Answered (Returned OUnit)));
        [apply list_lookup_insert; by rewrite !insert_length|done]|].
      rewrite !list_insert_insert.
      destruct i as [|[|i]], j as [|[|j]]; try lia; done.
    - rewrite Hst. apply map_eq. intros m. unfold m_stored, w2, w1. cbn [c_idx c_obj].
      rewrite lookup_omap. destruct (decide (m = n)) as [->|Hm].
      + rewrite !lookup_insert. cbn. by rewrite lookup_insert.
      + rewrite !lookup_insert_ne by done. rewrite lookup_omap. destruct (c_idx w !! m) as [p|] eqn:E; [|done]. cbn.
        destruct (pic_idx _ _ _ Hp) as [_ Hx]. destruct (Hx _ _ E) as (nm & reqs & Ho & _).
        rewrite !lookup_insert_ne by congruence. done. }
  split; [by apply (Hgo 0 1 d1 d2)|by apply (Hgo 1 0 d2 d1)].
Qed.
Print Assumptions C93_a_document_can_be_lost.

(** The hypotheses hold for a new repo: whatever happens to the other call, each of
    the two documents can be the only one there is. *)
Example C93_example :
  tracks true letters Properties_Conc.fresh new_view /\ unblocked new_view /\
  (exists w, pictures letters Properties_Conc.fresh w) /\
  separate [CPut "p" dA; CPut "p" dB] /\ whole_unalias [CPut "p" dA; CPut "p" dB] /\
  kept [CPut "p" dA; CPut "p" dB] [Returned OUnit; Returned OUnit] /\
  code_can Properties_Conc.fresh [CPut "p" dA; CPut "p" dB] [Returned OUnit; Returned OUnit]
    {["p" := index_after "p" letters [dB]]} ∅.
Proof.
  split_and!; [apply tracks_new|done..| | | | |].
  - destruct (C93_picture true letters Properties_Conc.fresh new_view) as (w & Hw & _); [apply tracks_new|done|by exists w].
  - left. intros a i. set_solver.
  - intros a i. set_solver.
  - apply kept_without. intros a i. set_solver.
  - destruct (C93_a_document_can_be_lost true letters Properties_Conc.fresh new_view "p" dA dB (tracks_new _ _)) as [H _]; [done..|].
    assert (stored Properties_Conc.fresh = ∅) as E1 by (apply omap_empty).
    assert (lists Properties_Conc.fresh = ∅) as E2 by (apply fmap_empty).
    rewrite E1, E2 in H. exact H.
Qed.
