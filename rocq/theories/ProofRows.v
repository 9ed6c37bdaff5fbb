(** * What happens to alias lists a caller got from ListAliases. *)
From Coq Require Import Lia.
From stdpp Require Import gmap list.
From Verif Require Import Entities Search SpecSearch Repo Sem RepoWp SpecRepo ProofRepo ProofTotal ProofExact
  SpecConc Locks Race ProofRace Reduce ProofConc ProofSim.
Open Scope nat_scope.

Definition keeps (x : Apart) (res : result) : Prop :=
  match res with Done _ s' | Panicked s' => stable x (r_A s') | _ => True end.

Ltac start H s v :=
  destruct s as [I A im am], v as [idx ali lI lA], H as [HI HA E1 E2];
  cbn [v_idx v_ali v_leakI v_leakA r_I r_A r_imu r_amu] in *; subst im am.
Ltac go := cbn [wp get_mu set_mu set_I set_A r_I r_A r_imu r_amu rw_readers rw_pending rw_writer orb keeps].

Lemma keeps_call ckn tk c s v :
  shape ckn tk s v -> (forall old new, c <> CRename old new) -> wp (prog_of c) s (keeps (r_A s)).
Proof.
  intros Hs Hc.
  assert (Hread : reading c -> wp (prog_of c) s (keeps (r_A s))).
  { intros Hr. eapply wp_mono; [apply (reading_same c s Hr)|]. intros [r s'|s'| |]; simpl; try done; by intros ->. }
  destruct c; try (by apply Hread); simpl.
  - (* Alias *)
    start Hs s v. unfold Alias_prog. go. destruct (i_map I !! index) as [p|]; go; [|done].
    destruct lA; go; [done|]. destruct (a_map A !! alias) as [sl|] eqn:Ea.
    + destruct (shA_fwd _ _ HA _ _ Ea) as [Hw _]. apply wp_scan; [done|lia|]. go.
      case_bool_decide; go; [done|]. intros cap Hcap.
      destruct (a_append sl index cap A) as [x' sl'] eqn:E. cbn [fst snd]. go. by eapply stable_append.
    + go. cbn [a_alloc fst snd length].
      apply stable_set; [|right; simpl; lia]. split_and!; simpl; [done|lia|].
      intros b Hb. apply lookup_insert_ne. lia.
  - (* UnAlias *)
    start Hs s v. unfold UnAlias_prog. destruct (decide (index = "")) as [->|Hi]; go.
    + destruct lA; go; [done|]. apply stable_del.
    + destruct (i_map I !! index) as [p|]; go; [|done]. destruct lA; go; [done|].
      destruct (a_map A !! alias) as [sl|] eqn:Ea; go; [|done].
      destruct (shA_fwd _ _ HA _ _ Ea) as [Hw _].
      pose proof (shA_bound _ _ _ _ HA Ea). pose proof (shA_pos _ _ HA).
      apply wp_filter with (l0 := a_next A); [done|done|done|lia|by left|by left|].
      go. intros x' acc He Hw' Hp' _. destruct (decide _); go.
      * by apply stable_ext.
      * by apply stable_set.
  - (* Put *)
    start Hs s v. unfold Put_prog, getIndices. go. destruct (i_map I !! index) as [p|]; go.
    + destruct lI; go; [|done]. split; [done|]. intros. go. done.
    + destruct lA; go; [done|]. destruct (a_map A !! index) as [sl|]; go.
      * apply wp_resolve_any. intros ps. go. destruct lI; go; [|done]. split; [done|]. intros. go. done.
      * destruct lI; go; done.
  - by destruct (Hc old new).
  - (* Drop *)
    start Hs s v. unfold Drop_prog. go. destruct (i_map I !! index) as [p|]; go; [|done].
    destruct lI; go; [|done]. destruct lA; go; [done|]. intros names Hn.
    eapply wp_drop; [exact HA|by eapply keys_nodup|intros a Ha; by eapply keys_elem in Ha|].
    intros x' m' Hx' Hst _. go. done.
Qed.

Lemma keeps_rows ckn tk c s v res :
  shape ckn tk s v -> (forall old new, c <> CRename old new) -> call_result c s res -> keeps (r_A s) res.
Proof. intros Hs Hc Hr. exact (wp_sound _ _ _ _ (keeps_call _ _ _ _ _ Hs Hc) Hr). Qed.

(** Calls made at once, unless an index is renamed: slices that were handed out
    before are not rewritten, and no call is about to write an element that a
    handed out slice shows. *)
Definition rows_inv ckn tk cs (x0 : Apart) (ts : list thr) (s : repo) : Prop :=
  exists gh l w Da, rinv (section ckn tk) leave dies_before dies_inside NoRename (leaks_of cs) false
    (fun D w => shC false ckn tk D w /\ stable x0 (d_A D)) (GC NoRename) (linkC NoRename false) (wrtC NoRename) gh ts s l w Da /\
    a_next (d_A Da) <= a_next (r_A s).

Lemma rows_sections ckn tk x0 x p D w :
  linkC NoRename false x p D -> shC false ckn tk D w /\ stable x0 (d_A D) -> ~ finished (TRun p) ->
  wpx (CMx (section ckn tk) (fun D w => shC false ckn tk D w /\ stable x0 (d_A D)) (GC NoRename) x D w)
    (FINx leave (linkC NoRename false)) (CRx dies_before dies_inside x w) false (wrtC NoRename D) p None (alone D none_held).
Proof.
  intros Hl [Hs1 Hs2] Hn. eapply wpx_weaken; [|by apply all_sections]. intros b D' (w2 & H1 & H2 & H3).
  exists w2. split_and!; [done| |done|done]. eapply stable_trans; [exact Hs2|by apply H3].
Qed.

Lemma rows_inv_start ckn tk s v cs :
  shape ckn tk s v -> unblocked v -> without_rename cs -> rows_inv ckn tk cs (r_A s) (start cs) s.
Proof.
  intros Hs Hu Hcs.
  destruct (init_view false ckn tk s v Hs Hu ltac:(done)) as (w & Hw & Hv & E1 & E2).
  assert (Hal : Forall (allowed NoRename) cs).
  { apply Forall_forall. intros c Hc old new ->. by apply (Hcs old new). }
  eexists _, _, w, _. split; [eapply rinv_start with (xs := Todo <$> cs) (wrt := wrtC NoRename); try done|done].
  - apply linkC_any.
  - intros. by apply rows_sections.
  - apply Forall2_fmap_r. clear -Hal. induction Hal; constructor; done.
Qed.
Lemma rows_inv_step ckn tk cs x0 ts s i t t' s' :
  rows_inv ckn tk cs x0 ts s -> ts !! i = Some t -> tstep s t (TNext t' s') ->
  rows_inv ckn tk cs x0 (<[i := t']> ts) s'.
Proof.
  intros (gh & l & w1 & Da & HR & Hn) Hi Ht.
  edestruct (sim_step (section ckn tk) leave dies_before dies_inside NoRename ltac:(done) (leaks_of cs) false
      (fun D w => shC false ckn tk D w /\ stable x0 (d_A D))
      (GC NoRename) (linkC NoRename false) (wrtC NoRename)) as (gh' & l' & w' & Da' & HR' & _ & _ & Hn' & _); [..|exact HR|exact Hi|exact Ht|].
  - apply GC_refl.
  - apply GC_trans.
  - apply linkC_G.
  - apply linkC_any.
  - intros. by apply rows_sections.
  - exists gh', l', w', Da'. split; [done|]. apply tstep_next in Ht. lia.
Qed.
Lemma rows_inv_rtc ckn tk cs x0 ts s ts' s' :
  rows_inv ckn tk cs x0 ts s -> rtc pstep (Pool ts s) (Pool ts' s') -> rows_inv ckn tk cs x0 ts' s'.
Proof.
  intros H0 Hr.
  refine (rtc_ind_r (R := pstep) (fun p => match p with Pool ts1 s1 => rows_inv ckn tk cs x0 ts1 s1 | PCrashed => True end) (Pool ts s) H0 _ (Pool ts' s') Hr).
  intros y z _ Hst IH. inversion Hst as [? ? i t t' ? Hi Ht|]; simplify_eq; [|done]. by eapply rows_inv_step.
Qed.

Lemma keeps_phase ckn tk s v cs ts s' :
  shape ckn tk s v -> unblocked v -> without_rename cs ->
  rtc pstep (Pool (start cs) s) (Pool ts s') -> Forall finished ts -> stable (r_A s) (r_A s').
Proof.
  intros Hs Hu Hcs Hr Hf.
  destruct (rows_inv_rtc _ _ _ _ _ _ _ _ (rows_inv_start _ _ _ _ _ Hs Hu Hcs) Hr) as (gh & l & w1 & Da & HR & _).
  assert (Hd : dat s' = Da) by (by eapply rinv_end). subst Da.
  by destruct (ri_sh _ _ _ _ _ _ _ _ _ _ _ _ _ _ _ _ _ HR) as [_ ?].
Qed.

(** A slice some caller may hold in the middle of a phase that began with the
    aliases [x0]: one of theirs, or one a call of the phase has returned. *)
Definition handed_out (x0 : Apart) (ts : list thr) (sl : slice) : Prop :=
  snap x0 sl \/
  exists i rows, ts !! i = Some (TRun (Ret (RRows rows))) /\ sl ∈ rows.*2.

Lemma handed_snap ckn tk cs x0 ts s sl :
  rows_inv ckn tk cs x0 ts s -> handed_out x0 ts sl ->
  exists gh l w Da, rinv (section ckn tk) leave dies_before dies_inside NoRename (leaks_of cs) false
    (fun D w => shC false ckn tk D w /\ stable x0 (d_A D)) (GC NoRename) (linkC NoRename false) (wrtC NoRename) gh ts s l w Da /\
    snap (d_A Da) sl /\ a_next (d_A Da) <= a_next (r_A s).
Proof.
  intros (gh & l & w & Da & HR & Hn) Hh. exists gh, l, w, Da. split_and!; [done| |done]. destruct Hh as [Hh|(i & rows & Hi & Hin)].
  - destruct (ri_sh _ _ _ _ _ _ _ _ _ _ _ _ _ _ _ _ _ HR) as [_ Hst]. by apply Hst.
  - edestruct (rinv_done (section ckn tk) leave dies_before dies_inside NoRename (leaks_of cs) false
      (fun D w => shC false ckn tk D w /\ stable x0 (d_A D))
      (GC NoRename) (linkC NoRename false) (wrtC NoRename)) as (x & Hx & Hl); [exact HR|exact Hi|done|].
    destruct (answers_link NoRename false _ (Ret (RRows rows)) _ I Hl) as (a & -> & _). destruct a as [o|]; [|done].
    destruct Hl as (r' & E & Hr). injection E as <-. destruct o; try done. destruct Hr as [_ Hr].
    destruct (Hr eq_refl) as [Hsn _]. rewrite Forall_forall in Hsn.
    apply elem_of_list_fmap in Hin as (row & -> & Hin). by apply Hsn.
Qed.

Lemma handed_unwritten ckn tk cs x0 ts s sl i t g k :
  rows_inv ckn tk cs x0 ts s -> handed_out x0 ts sl -> k < sl_len sl ->
  ts !! i = Some t -> ~ access t g (LElem (sl_arr sl) k) true.
Proof.
  intros HI Hh Hk Hi Hacc. destruct (handed_snap _ _ _ _ _ _ _ HI Hh) as (gh & l & w & Da & HR & Hs & _).
  assert (wrtC NoRename Da (sl_arr sl) k) as Hw.
  { eapply (sim_write (section ckn tk) leave dies_before dies_inside NoRename (leaks_of cs) false); [exact HR|done|done]. }
  specialize (Hw eq_refl sl Hs eq_refl). lia.
Qed.

Lemma handed_step ckn tk cs x0 ts s sl i t t' s' :
  rows_inv ckn tk cs x0 ts s -> handed_out x0 ts sl -> ts !! i = Some t -> tstep s t (TNext t' s') ->
  handed_out x0 (<[i := t']> ts) sl /\ a_cont (r_A s') sl = a_cont (r_A s) sl.
Proof.
  intros HI Hh Hi Ht. split.
  - destruct Hh as [?|(j & rows & Hj & Hin)]; [by left|]. right. exists j, rows. split; [|done].
    rewrite list_lookup_insert_ne; [done|]. intros ->. simplify_eq. inversion Ht.
  - destruct (handed_snap _ _ _ _ _ _ _ HI Hh) as (gh & l & w & Da & HR & Hs & Hn).
    destruct Hs as [->|[[_ Hs] _]]; [done|].
    unfold a_cont. apply list_eq. intros k. destruct (decide (k < sl_len sl)) as [Hk|Hk].
    + rewrite !lookup_take by done. eapply tstep_elem; [done|lia|]. intros g. by eapply handed_unwritten.
    + by rewrite !lookup_take_ge by lia.
Qed.
Lemma handed_rtc ckn tk cs x0 ts s sl ts' s' :
  rows_inv ckn tk cs x0 ts s -> handed_out x0 ts sl -> rtc pstep (Pool ts s) (Pool ts' s') ->
  handed_out x0 ts' sl /\ a_cont (r_A s') sl = a_cont (r_A s) sl.
Proof.
  intros H0 Hh Hr.
  refine (proj2 (rtc_ind_r (R := pstep) (fun p => match p with Pool ts1 s1 =>
     rows_inv ckn tk cs x0 ts1 s1 /\ handed_out x0 ts1 sl /\ a_cont (r_A s1) sl = a_cont (r_A s) sl | PCrashed => True end) (Pool ts s) _ _ (Pool ts' s') Hr)); [done|].
  intros y z _ Hst IH. inversion Hst as [? ? i t t' ? Hi Ht|]; simplify_eq; [|done]. destruct IH as (I1 & I2 & I3).
  destruct (handed_step _ _ _ _ _ _ _ _ _ _ _ I1 I2 Hi Ht) as [J1 J2]. split_and!; [by eapply rows_inv_step|done|congruence].
Qed.

(** The rows are the slices of the table itself. *)
Lemma rows_are_slices ckn tk s v rows s' :
  shape ckn tk s v -> call_result CListAliases s (Done (RRows rows) s') ->
  forall a sl, (a, sl) ∈ rows -> a_map (r_A s) !! a = Some sl.
Proof.
  intros Hs Hr.
  refine (wp_sound _ _ (fun res => match res with Done (RRows rows) _ =>
    forall a sl, (a, sl) ∈ rows -> a_map (r_A s) !! a = Some sl | _ => True end) _ _ Hr).
  start Hs s v. unfold prog_of, ListAliases_prog. go. destruct lA; go; [done|]. intros names Hn.
  eapply wp_rows; [exact HA|intros a Ha; by eapply keys_elem in Ha|]. intros rows' _ Hrows. go. done.
Qed.

(** Rename leaves the table of slices as it is and rewrites the elements. *)
Lemma rename_keeps_slices ckn tk s v old new r s' :
  shape ckn tk s v -> call_result (CRename old new) s (Done r s') -> a_map (r_A s') = a_map (r_A s).
Proof.
  intros Hs Hr.
  refine (wp_sound _ _ (fun res => match res with Done _ s' => a_map (r_A s') = a_map (r_A s) | _ => True end) _ _ Hr).
  start Hs s v. unfold prog_of, Rename_prog. go. destruct lI; go; [|done].
  destruct (i_map I !! old) as [p|]; go; [|done]. intros names Hn.
  eapply wp_rename_loop; [exact HA|by eapply keys_nodup|intros a Ha; by eapply keys_elem in Ha|].
  intros x' m' _ Em _. go. done.
Qed.
