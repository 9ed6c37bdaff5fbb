(** * Lemmas for C93: from the machine with whole sections to the calls of the repo. *)
From Coq Require Import Lia.
From stdpp Require Import list gmap.
From Verif Require Import Entities Search SpecSearch Repo Sem RepoWp SpecRepo ProofRepo ProofReach SpecConc Locks Reduce ProofMachine ProofConc ProofSim
  SpecExact ProofAlone ProofNames.
Open Scope nat_scope.

(** ** Pictures *)
Lemma pictures_shC ckn tk s v w :
  shape ckn tk s v -> unblocked v -> pictures tk s w ->
  shC false ckn tk (dat s) w /\ alone_ok s none_held /\ v_ali v = c_ali w.
Proof.
  intros [HI HA E1 E2] [L1 L2] [[Hm Hobj] Hali Hp].
  assert (v_ali v = c_ali w) as Ev.
  { rewrite <- Hali. apply map_eq. intros a. rewrite lookup_fmap. destruct (a_map (r_A s) !! a) as [sl|] eqn:E; simpl.
    - by apply (shA_fwd _ _ HA).
    - by apply (shA_none _ _ HA). }
  split; [|split; [|done]].
  - split; simpl; [apply HI|apply HI|done| | | | |done].
    + intros p nm reqs Ho. destruct (Hp p) as [n Hn]; [by eexists|].
      destruct (Hobj _ _ Hn) as (nm' & reqs' & Ho' & Hh). rewrite Ho in Ho'. simplify_eq. split; [|done].
      rewrite <- Hm in Hn. by apply (shI_fwd _ _ _ _ HI) in Hn as [? _].
    + intros n p Hn. destruct (Hobj _ _ Hn) as (nm & reqs & -> & _). eauto.
    + intros n1 n2 p. rewrite <- Hm. apply HI.
    + by rewrite <- Ev.
  - split; simpl; [by rewrite E1, L1|by rewrite E2, L2].
Qed.

Lemma pictures_init ckn tk s v :
  shape ckn tk s v -> unblocked v -> exists w, pictures tk s w /\ view_of w = v.
Proof.
  intros Hsh Hu.
  destruct (init_view false ckn tk s v Hsh Hu ltac:(done)) as (w0 & Hw & Hv & _).
  set (w := MkC (c_idx w0) (filter (fun x => exists n, n ∈ dom (c_idx w0) /\ c_idx w0 !! n = Some x.1) (c_obj w0)) (c_ali w0)).
  assert (Hl : forall n p, c_idx w0 !! n = Some p -> c_obj w !! p = c_obj w0 !! p).
  { intros n p Hn. simpl. destruct (c_obj w0 !! p) as [x|] eqn:E.
    - apply map_filter_lookup_Some. split; [done|]. exists n. split; [|done]. by apply elem_of_dom_2 in Hn.
    - apply map_filter_lookup_None. by left. }
  exists w. split.
  - pose proof (shows_I false ckn tk s _ _ Hw eq_refl) as [H1 H2]. split.
    + split; [done|]. intros n p Hn. rewrite (Hl n p Hn). by apply H2 with n.
    + exact (shows_A false ckn tk s _ _ Hw eq_refl).
    + intros p [x Hx]. simpl in Hx. apply map_filter_lookup_Some in Hx as (_ & n & _ & Hn). by exists n.
  - rewrite <- Hv. unfold view_of. f_equal. simpl. apply map_eq. intros n. rewrite !lookup_omap.
    destruct (c_idx w0 !! n) as [p|] eqn:E; [|done]. cbn [mbind option_bind]. by rewrite <- (Hl n p E).
Qed.

Lemma ren_id str ckn tk D w : shC false ckn tk D w -> ren str id w w.
Proof.
  intros H. split; [by rewrite map_fmap_id|done| |done|].
  - intros p nm reqs Hp. by exists nm.
  - intros n p. apply H.
Qed.

Lemma ren_view str f w w2 : ren str f w w2 -> view_of w2 = view_of w.
Proof.
  intros H. unfold view_of. rewrite (rn_ali _ _ _ _ H). f_equal. apply map_eq. intros n. rewrite !lookup_omap.
  rewrite (ren_lookup _ _ _ _ H). destruct (c_idx w !! n) as [p|] eqn:E; [|done]. cbn.
  destruct (rn_wf _ _ _ _ H _ _ E) as [[nm reqs] Ho]. destruct (rn_obj _ _ _ _ H _ _ _ Ho) as (nm2 & Ho2 & _).
  by rewrite Ho, Ho2.
Qed.

(** Pictures with the same view differ in the numbering of the objects, and in the
    names the objects were created with. *)
Lemma ren_same_view ckn tk D1 D2 w1 w2 :
  shC false ckn tk D1 w1 -> shC false ckn tk D2 w2 ->
  (forall p, is_Some (c_obj w1 !! p) -> exists n, c_idx w1 !! n = Some p) ->
  view_of w1 = view_of w2 -> exists f, ren false f w1 w2.
Proof.
  intros H1 H2 Hp Hv.
  assert (Hidx : forall n, (c_idx w1 !! n ≫= fun p => snd <$> c_obj w1 !! p) = (c_idx w2 !! n ≫= fun p => snd <$> c_obj w2 !! p)).
  { intros n. unfold view_of in Hv. injection Hv as Hi _. rewrite <- !lookup_omap. by rewrite Hi. }
  assert (Hali : c_ali w2 = c_ali w1) by (unfold view_of in Hv; by injection Hv).
  set (nm := fun p => (default (""%string, 0) (head (filter (fun x => x.2 = p) (map_to_list (c_idx w1))))).1).
  assert (Hnm : forall n p, c_idx w1 !! n = Some p -> nm p = n).
  { intros n p Hn. unfold nm.
    assert (Hin : (n, p) ∈ filter (fun x => x.2 = p) (map_to_list (c_idx w1))).
    { apply elem_of_list_filter. split; [done|]. by apply elem_of_map_to_list. }
    destruct (filter _ _) as [|[n' p'] l] eqn:E; [by apply elem_of_nil in Hin|]. simpl.
    assert (Hin' : (n', p') ∈ filter (fun x => x.2 = p) (map_to_list (c_idx w1))) by (rewrite E; left).
    apply elem_of_list_filter in Hin' as [Ep Hin']. simpl in Ep. subst p'. apply elem_of_map_to_list in Hin'.
    by eapply (sc_inj _ _ _ _ _ H1). }
  set (f := fun p => default 0 (c_idx w2 !! nm p)).
  assert (Hf : forall n p, c_idx w1 !! n = Some p -> c_idx w2 !! n = Some (f p)).
  { intros n p Hn. unfold f. rewrite (Hnm _ _ Hn). specialize (Hidx n). rewrite Hn in Hidx. cbn in Hidx.
    destruct (sc_obj _ _ _ _ _ H1 _ _ Hn) as [x Hx]. rewrite Hx in Hidx. cbn in Hidx.
    by destruct (c_idx w2 !! n). }
  exists f. split.
  - apply map_eq. intros n. rewrite lookup_fmap. destruct (c_idx w1 !! n) as [p|] eqn:E; [by apply Hf|]. cbn.
    specialize (Hidx n). rewrite E in Hidx. cbn in Hidx. destruct (c_idx w2 !! n) as [q|] eqn:E2; [|done]. cbn in Hidx.
    destruct (sc_obj _ _ _ _ _ H2 _ _ E2) as [x Hx]. by rewrite Hx in Hidx.
  - done.
  - intros p nm0 reqs Ho. destruct (Hp p ltac:(by eexists)) as [n Hn]. pose proof (Hf _ _ Hn) as Hn2.
    specialize (Hidx n). rewrite Hn, Hn2 in Hidx. cbn in Hidx. rewrite Ho in Hidx. cbn in Hidx.
    destruct (c_obj w2 !! f p) as [[nm2 reqs2]|]; [|done]. cbn in Hidx. injection Hidx as <-. by exists nm2.
  - intros p q Hp1 Hq1 E. destruct (Hp p Hp1) as [n Hn]. destruct (Hp q Hq1) as [m Hm].
    pose proof (Hf _ _ Hn) as Hn2. pose proof (Hf _ _ Hm) as Hm2. rewrite E in Hn2.
    assert (n = m) as -> by (by eapply (sc_inj _ _ _ _ _ H2)). congruence.
  - intros n p. apply H1.
Qed.

(** ** The memory *)
Lemma stored_shows tk s w : shows_indices tk s w -> stored s = m_stored tk w.
Proof.
  intros [H1 H2]. unfold stored, m_stored. rewrite H1. apply map_eq. intros n. rewrite !lookup_omap.
  destruct (c_idx w !! n) as [p|] eqn:E; [|done]. cbn. destruct (H2 _ _ E) as (nm & reqs & -> & ->). done.
Qed.
Lemma ren_stored f w w2 tk : ren true f w w2 -> m_stored tk w2 = m_stored tk w.
Proof.
  intros H. unfold m_stored. apply map_eq. intros n. rewrite !lookup_omap.
  rewrite (ren_lookup _ _ _ _ H). destruct (c_idx w !! n) as [p|] eqn:E; [|done]. cbn.
  destruct (rn_wf _ _ _ _ H _ _ E) as [[nm reqs] Ho]. destruct (rn_obj _ _ _ _ H _ _ _ Ho) as (nm2 & Ho2 & En).
  rewrite Ho, Ho2. by rewrite En.
Qed.
Lemma unnamed_after nm tk reqs : unnamed (index_after nm tk reqs) = index_after "" tk reqs.
Proof.
  unfold index_after. change (NewMemoryIndex "" tk) with (unnamed (NewMemoryIndex nm tk)).
  generalize (NewMemoryIndex nm tk). induction reqs as [|d reqs IH]; intros mi; [done|]. simpl. by rewrite IH.
Qed.
Lemma ren_unnamed str f w w2 tk : ren str f w w2 -> unnamed <$> m_stored tk w2 = unnamed <$> m_stored tk w.
Proof.
  intros H. unfold m_stored. apply map_eq. intros n. rewrite !lookup_fmap, !lookup_omap.
  rewrite (ren_lookup _ _ _ _ H). destruct (c_idx w !! n) as [p|] eqn:E; [|done]. cbn.
  destruct (rn_wf _ _ _ _ H _ _ E) as [[nm reqs] Ho]. destruct (rn_obj _ _ _ _ H _ _ _ Ho) as (nm2 & Ho2 & En).
  rewrite Ho, Ho2. change (Some (unnamed (index_after nm2 tk reqs)) = Some (unnamed (index_after nm tk reqs))). by rewrite !unnamed_after.
Qed.

(** ** Runs of the machine in which no UnAlias fails leave no lock behind *)
Definition origin (c : call) (x : stage) : Prop :=
  match x with
  | Todo c' => c' = c
  | PutAt n d _ => c = CPut n d
  | DropAt n => c = CDrop n
  | UnAliasAt a i => c = CUnAlias a i /\ i <> ""%string
  | Answered _ => True
  end.
Definition origin_thr (c : call) (t : cthr) : Prop :=
  match t with Between x => origin c x | Inside b => forall x, leave b x -> origin c x end.

Lemma origin_section ckn tk c x w b w' x' : origin c x -> section ckn tk x w b w' -> leave b x' -> origin c x'.
Proof.
  intros Ho He Hb. destruct b as [y|ol]; simpl in Hb.
  - subst y. unfold section, ret_obs in He.
    destruct x as [[]|n d [ps|]|n|a i|a]; simpl in Ho, He; repeat first [case_decide|case_match]; naive_solver.
  - destruct Hb as (? & ? & _ & _ & ->). done.
Qed.

Lemma origin_step ckn tk cs l w l' w' :
  Forall2 origin_thr cs l -> cstep ckn tk (APool l w) (APool l' w') -> Forall2 origin_thr cs l'.
Proof.
  intros Hf Hs. inversion Hs as [l0 w0 i x b w1 Hi He|l0 w0 i b x Hi Hb| |]; subst.
  - destruct (Forall2_lookup_r _ _ _ _ _ Hf Hi) as (c & Hc & Ho).
    rewrite <- (list_insert_id cs i c) by done. apply Forall2_insert; [done|]. intros x' Hx'. by eapply origin_section.
  - destruct (Forall2_lookup_r _ _ _ _ _ Hf Hi) as (c & Hc & Ho).
    rewrite <- (list_insert_id cs i c) by done. apply Forall2_insert; [done|]. simpl. by apply Ho.
Qed.

(** An answer stays. *)
Lemma answered_stays ckn tk o i l w l' w' :
  rtc (cstep ckn tk) (APool l w) (APool l' w') ->
  (l !! i = Some (Inside (ret_obs o)) \/ l !! i = Some (Between (Answered (Returned o)))) ->
  (l' !! i = Some (Inside (ret_obs o)) \/ l' !! i = Some (Between (Answered (Returned o)))).
Proof.
  intros Hr. remember (APool l w) as a eqn:Ea. remember (APool l' w') as z eqn:Ez. revert l w Ea.
  induction Hr as [a|a b z Hs Hr IH]; intros l w -> Hl; [by simplify_eq|].
  inversion Hs as [l0 w0 j x bb w1 Hj He|l0 w0 j bb x Hj Hb| |]; subst.
  - apply (IH eq_refl _ _ eq_refl). destruct (decide (i = j)) as [<-|Hne].
    + destruct Hl as [Hl|Hl]; rewrite Hj in Hl; simplify_eq. by destruct He.
    + by rewrite list_lookup_insert_ne.
  - apply (IH eq_refl _ _ eq_refl). destruct (decide (i = j)) as [<-|Hne].
    + destruct Hl as [Hl|Hl]; rewrite Hj in Hl; simplify_eq. simpl in Hb. subst x. right. apply list_lookup_insert. by eapply lookup_lt_Some.
    + by rewrite list_lookup_insert_ne.
  - exfalso. clear -Hr. inversion Hr as [|? ? ? Hx]; subst. inversion Hx.
  - exfalso. clear -Hr. inversion Hr as [|? ? ? Hx]; subst. inversion Hx.
Qed.

Lemma leaks_answer ckn tk x w b w' : leaks x w -> section ckn tk x w b w' -> b = ret_obs (OBool false).
Proof.
  intros Hk He. destruct x as [[]|n d [ps|]|n|a i|a]; simpl in *; try done.
  - destruct Hk as [Hi Hn]. rewrite decide_False in He by done. rewrite decide_True in He by done. by destruct He.
  - rewrite Hk in He. by destruct He.
Qed.

Lemma kept_tidy ckn tk cs la l w w' :
  rtc (cstep ckn tk) (APool l w) (APool ((fun a => Between (Answered a)) <$> la) w') ->
  Forall2 origin_thr cs l -> kept cs la ->
  rtc (tstep_of ckn tk) (APool l w) (APool ((fun a => Between (Answered a)) <$> la) w').
Proof.
  intros Hr. remember (APool l w) as a eqn:Ea. remember (APool _ w') as z eqn:Ez. revert l w Ea.
  induction Hr as [a|a b z Hs Hr IH]; intros l w -> Ho Hk; [done|]. subst z.
  assert (Hnocrash : b <> ACrashed). { intros ->. inversion Hr as [|? ? ? Hx]; subst. inversion Hx. }
  destruct b as [l1 w1|]; [|done]. pose proof (origin_step _ _ _ _ _ _ _ Ho Hs) as Ho1.
  eapply rtc_l; [|by eapply IH].
  inversion Hs as [l0 w0 i x bb w2 Hi He|l0 w0 i bb x Hi Hb| |]; subst; [|by econstructor].
  eapply as_commit; [done|]. split; [done|]. intros Hlk. pose proof (leaks_answer _ _ _ _ _ _ Hlk He) as ->.
  destruct (Forall2_lookup_r _ _ _ _ _ Ho Hi) as (c & Hc & Hoc).
  assert (exists al n, c = CUnAlias al n /\ n <> ""%string) as (al & n & -> & Hn).
  { destruct x as [[]|n d t|n|al n|ans]; simpl in *; try done; subst; [|by eauto]. by destruct Hlk; eauto. }
  eapply (Hk i al n); [done..|].
  destruct (answered_stays ckn tk (OBool false) i _ _ _ _ Hr) as [E|E].
  - left. apply list_lookup_insert. by eapply lookup_lt_Some.
  - rewrite list_lookup_fmap in E. by destruct (la !! i).
  - rewrite list_lookup_fmap in E. destruct (la !! i); simplify_eq/=. done.
Qed.

Lemma origin_start cs : Forall2 origin_thr cs (cstart cs).
Proof. unfold cstart. apply Forall2_fmap_r. induction cs; by constructor. Qed.

Lemma whole_crash_tidy ckn tk cs l w :
  rtc (cstep ckn tk) (APool l w) ACrashed -> Forall2 origin_thr cs l -> whole_unalias cs ->
  rtc (tstep_of ckn tk) (APool l w) ACrashed.
Proof.
  intros Hr. remember (APool l w) as a eqn:Ea. remember ACrashed as z eqn:Ez. revert l w Ea.
  induction Hr as [a|a b z Hs Hr IH]; intros l w -> Ho Hk; [done|]. subst z.
  destruct b as [l1 w1|].
  - pose proof (origin_step _ _ _ _ _ _ _ Ho Hs) as Ho1.
    eapply rtc_l; [|by eapply IH].
    inversion Hs as [l0 w0 i x bb w2 Hi He|l0 w0 i bb x Hi Hb| |]; subst; [|by econstructor].
    eapply as_commit; [done|]. split; [done|]. intros Hlk.
    destruct (Forall2_lookup_r _ _ _ _ _ Ho Hi) as (c & Hc & Hoc). apply elem_of_list_lookup_2 in Hc.
    destruct x as [[]|n d t|n|al n|ans]; simpl in *; try done; subst.
    + destruct Hlk as [Hlk _]. apply Hlk. by eapply Hk.
    + destruct Hoc as [-> Hoc]. apply Hoc. by eapply Hk.
  - eapply rtc_l; [|apply rtc_refl]. inversion Hs; subst; [by eapply as_crash_x|by eapply as_crash_b].
Qed.

Lemma tidy_step ckn tk a b : tstep_of ckn tk a b -> cstep ckn tk a b.
Proof.
  intros H. inversion H as [l w i x bb w' Hi [He _]|l w i bb x Hi Hb|l w i x Hi Hc|l w i bb Hi Hc]; subst;
    [by eapply as_commit|by eapply as_return|by eapply as_crash_x|by eapply as_crash_b].
Qed.

(** ** What happens *)
Lemma rename_mode cs : exists md, Forall (allowed md) cs /\ (without_rename cs -> md = NoRename).
Proof.
  assert (Hd : without_rename cs \/ exists old new, CRename old new ∈ cs).
  { induction cs as [|c cs [IH|(old & new & IH)]].
    - left. intros old new Hin. by apply elem_of_nil in Hin.
    - destruct c; try (left; intros o n Hin; apply elem_of_cons in Hin as [?|Hin]; [done|by apply (IH o n)]).
      right. eexists _, _. left.
    - right. exists old, new. by right. }
  destruct Hd as [Hd|(old & new & Hd)].
  - exists NoRename. split; [|done]. apply Forall_forall. intros c Hc old new ->. by apply (Hd old new).
  - exists Any. split; [by apply Forall_true|]. intros H. by destruct (H old new).
Qed.

Lemma reads_as s p a D : linkC NoRename false (Answered a) p D -> d_A D = r_A s -> read_as s p a.
Proof.
  intros Hl E. destruct a as [o|]; simpl in Hl; [|by subst].
  destruct Hl as (r & -> & Hr). simpl. destruct r; try (by apply Hr). destruct o; try done.
  destruct Hr as [_ Hr]. destruct (Hr eq_refl) as [_ <-]. rewrite E. done.
Qed.

Lemma finished_stage md x p D : linkC md false x p D -> match x with Answered _ => True | _ => ~ finished (TRun p) end.
Proof.
  intros Hl. destruct x; try done; intros Hf; by destruct (answers_link _ _ _ _ _ Hf Hl) as (a' & E & _).
Qed.

Lemma machine_happens str ckn tk f w w2 s cs xs w' :
  ren str f w w2 -> shC false ckn tk (dat s) w2 -> alone_ok s none_held ->
  (str = true \/ forall show, CString show ∉ cs) ->
  rtc (tstep_of ckn tk) (APool (cstart cs) w) (APool (Between <$> xs) w') ->
  exists ts s', rtc pstep (Pool (start cs) s) (Pool ts s') /\ Forall2 (arrived cs s') xs ts /\
    r_imu s' = rw_free /\ r_amu s' = rw_free /\
    unnamed <$> stored s' = unnamed <$> m_stored tk w' /\ (str = true -> stored s' = m_stored tk w') /\
    lists s' = c_ali w'.
Proof.
  intros Hren Hsh Hfree Hstr Hr. destruct (rename_mode cs) as (md & Hal & Hmd).
  destruct (whole_run _ _ _ _ _ _ Hr) as (xs0 & H2 & Hrun).
  assert (xs0 = Todo <$> cs) as ->.
  { unfold cstart in H2. clear -H2. revert xs0 H2. induction cs as [|c cs IH]; intros xs0 H2; inversion H2 as [|? ? ? ? E H2']; subst; [done|].
    simpl in E. subst. cbn. f_equal. by apply IH. }
  pose proof (real_start md str ckn tk f w w2 s cs Hren Hsh Hfree Hal Hstr) as Hre.
  destruct (real_run _ _ _ _ _ _ _ _ _ _ Hre Hrun) as (f' & w2' & ts & s' & R1 & [Hren' Hsh' Hfree' Hthr]).
  exists ts, s'. split; [done|]. split; [|split; [apply Hfree'|split; [apply Hfree'|]]].
  - eapply Forall2_impl; [exact Hthr|]. intros x t (p & -> & Hl & _). unfold arrived.
    destruct x as [c|n d t|n|a i|a].
    1-4: by apply finished_stage in Hl.
    simpl ren_stage in Hl. exists p. split; [done|].
    assert (Hf : finished (TRun p)). { destruct a; simpl in Hl; [destruct Hl as (? & -> & _)|subst]; done. }
    destruct (answers_link _ _ _ _ _ Hf Hl) as (a' & [= <-] & Ha). split; [done|]. intros Hwr. rewrite (Hmd Hwr) in Hl.
    by eapply reads_as.
  - rewrite (stored_shows tk s' w2') by (by eapply shows_I). split_and!.
    + by eapply ren_unnamed.
    + intros ->. by eapply ren_stored.
    + simpl in Hren'. rewrite <- (rn_ali _ _ _ _ Hren'). by apply (shows_A _ _ _ _ _ _ Hsh').
Qed.

Lemma machine_crash_happens str ckn tk f w w2 s cs :
  ren str f w w2 -> shC false ckn tk (dat s) w2 -> alone_ok s none_held ->
  (str = true \/ forall show, CString show ∉ cs) ->
  rtc (tstep_of ckn tk) (APool (cstart cs) w) ACrashed -> rtc pstep (Pool (start cs) s) PCrashed.
Proof.
  intros Hren Hsh Hfree Hstr Hr. destruct (rename_mode cs) as (md & Hal & Hmd).
  destruct (whole_crash _ _ _ _ Hr) as [(i & b & Hi & _)|(xs0 & a & H2 & Hrun & Hd)].
  - unfold cstart in Hi. rewrite list_lookup_fmap in Hi. by destruct (cs !! i).
  - assert (xs0 = Todo <$> cs) as ->.
    { unfold cstart in H2. clear -H2. revert xs0 H2. induction cs as [|c cs IH]; intros xs0 H2; inversion H2 as [|? ? ? ? E H2']; subst; [done|].
      simpl in E. subst. cbn. f_equal. by apply IH. }
    pose proof (real_start md str ckn tk f w w2 s cs Hren Hsh Hfree Hal Hstr) as Hre.
    destruct (real_run _ _ _ _ _ _ _ _ _ _ Hre Hrun) as (f' & w2' & ts & s' & R1 & Hre').
    etrans; [exact R1|]. by eapply real_dies.
Qed.
