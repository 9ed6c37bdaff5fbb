(** * Proof: every state reached by a history has the shape of its view *)
From Coq Require Import Lia.
From stdpp Require Import gmap list.
From Verif Require Import Entities Search SpecSearch Repo Sem RepoWp SpecRepo ProofRepo ProofTotal
  SpecConc Locks Race ProofRace Reduce ProofConc ProofSim ProofMachine.
Open Scope nat_scope.

Lemma allowed_without_rename cs : without_rename cs -> Forall (allowed NoRename) cs.
Proof. intros H. apply Forall_forall. intros c Hc old new ->. by eapply H. Qed.
Lemma allowed_without_unalias cs : without_unalias cs -> Forall (allowed NoUnAlias) cs.
Proof. intros H. apply Forall_forall. intros c Hc a i ->. by eapply H. Qed.


Lemma separate_mode cs :
  separate cs -> exists md, md <> Any /\ Forall (allowed md) cs /\ (without_rename cs -> md = NoRename).
Proof.
  intros Hs. assert (Hd : without_rename cs \/ ~ without_rename cs).
  { clear. induction cs as [|c cs IH]; [left; intros old new Hin; by apply elem_of_nil in Hin|].
    assert (Hc : (exists old new, c = CRename old new) \/ forall old new, c <> CRename old new) by (destruct c; eauto).
    destruct Hc as [(old & new & ->)|Hc]; [right; intros H; apply (H old new); by left|].
    destruct IH as [IH|IH].
    - left. intros old new Hin. apply elem_of_cons in Hin as [Hin|Hin]; [by apply (Hc old new)|by apply (IH old new)].
    - right. intros H. apply IH. intros old new Hin. apply (H old new). by right. }
  destruct Hd as [Hr|Hr].
  - exists NoRename. split_and!; [done|by apply allowed_without_rename|done].
  - destruct Hs as [Hs|Hs]; [done|]. exists NoUnAlias. split_and!; [done|by apply allowed_without_unalias|done].
Qed.

(** ** The end of a phase of concurrent calls *)

Lemma cnt_none x hs : (forall h, h ∈ hs -> h <> x) -> cnt x hs = 0.
Proof.
  intros H. unfold cnt. induction hs as [|h hs IH]; [done|]. rewrite filter_cons_False.
  - apply IH. intros y Hy. apply H. by right.
  - intros E. by apply (H h); [left|].
Qed.

(** No call of the phase can leave a lock behind. *)
Definition tidy (cs : list call) : Prop := forall a i, CUnAlias a i ∈ cs -> i = ""%string.

(** Once all calls have finished, only locks left behind are held. *)
Lemma pool_end md cs gh ts s :
  pool_inv md (leaks_of cs) gh ts s -> Forall finished ts ->
  exists n b, r_imu s = MkRW n false false /\ r_amu s = MkRW 0 false b /\ (tidy cs -> n = 0 /\ b = false).
Proof.
  intros Hp Hf.
  assert (Hfree : tidy cs -> forall g h, (g, h) ∈ gh -> h = none_held).
  { intros Ht g h Hin. apply elem_of_list_lookup in Hin as [i Hi].
    destruct (lookup_lt_is_Some_2 ts i) as [t Hti]; [rewrite <- (pi_len _ _ _ _ _ Hp); by eapply lookup_lt_Some|].
    destruct (pi_thr _ _ _ _ _ Hp _ _ _ _ Hti Hi) as [Hd _]. pose proof (Forall_lookup_1 _ _ _ _ Hf Hti) as Hft.
    destruct t as [p| | |]; try done. destruct p; try done; simpl in Hd.
    destruct Hd as [->|[(c & Hc & Hml) _]]; [done|]. destruct c as [| | | | |a j| | | | |]; try done. destruct Hml as [Hj _].
    destruct Hj. apply (Ht a). by eapply elem_of_list_lookup_2. }
  assert (Hh : forall g h, (g, h) ∈ gh -> h.1 <> HP /\ h.2 <> HP /\ h.1 <> HW /\ h.2 <> HR).
  { intros g h Hin. apply elem_of_list_lookup in Hin as [i Hi].
    destruct (lookup_lt_is_Some_2 ts i) as [t Ht]; [rewrite <- (pi_len _ _ _ _ _ Hp); by eapply lookup_lt_Some|].
    destruct (pi_thr _ _ _ _ _ Hp _ _ _ _ Ht Hi) as [Hd _]. pose proof (Forall_lookup_1 _ _ _ _ Hf Ht) as Hft.
    destruct t as [p| | |]; try done. destruct p; try done; simpl in Hd.
    - destruct Hd as [->|[_ Hd]]; done.
    - by subst. }
  pose proof (pi_lock _ _ _ _ _ Hp MI) as [K1 K2 K3 _ _].
  pose proof (pi_lock _ _ _ _ _ Hp MA) as [L1 L2 L3 _ _].
  assert (Hz : forall m x, (forall g h, (g, h) ∈ gh -> get_h m h <> x) -> cnt x ((fun y => get_h m y.2) <$> gh) = 0).
  { intros m x Hx. apply cnt_none. intros h Hin. apply elem_of_list_fmap in Hin as ([g h'] & -> & Hin). by eapply Hx. }
  rewrite (Hz MI HP) in K2 by (intros; simpl; by eapply Hh).
  rewrite (Hz MI HW) in K3 by (intros; simpl; by eapply Hh).
  rewrite (Hz MA HP) in L2 by (intros; simpl; by eapply Hh).
  rewrite (Hz MA HR) in L1 by (intros; simpl; by eapply Hh).
  assert (Htidy : tidy cs -> rw_readers (r_imu s) = 0 /\ rw_writer (r_amu s) = false).
  { intros Ht. rewrite (Hz MI HR) in K1 by (intros g h Hin; rewrite (Hfree Ht g h Hin); done).
    rewrite (Hz MA HW) in L3 by (intros g h Hin; rewrite (Hfree Ht g h Hin); done).
    split; [done|]. simpl in L3. by destruct (rw_writer (r_amu s)). }
  simpl in *. destruct (r_imu s) as [n p w], (r_amu s) as [n' p' w']. simpl in *. subst.
  destruct p, w, p'; try done. eauto.
Qed.

Lemma shC_shape strict ckn tk s w n b :
  shC strict ckn tk (dat s) w -> r_imu s = MkRW n false false -> r_amu s = MkRW 0 false b ->
  shape ckn tk s (MkView (v_idx (view_of w)) (v_ali (view_of w)) n b).
Proof.
  intros [H1 H2 H3 H4 H5 H6 H7 _] E1 E2. split; simpl; [|done..]. simpl in *. split; try done.
  - intros n1 n2 p. rewrite H3. apply H6.
  - intros x p Hx. rewrite H3 in Hx. destruct (H5 _ _ Hx) as [[nm reqs] Ho]. destruct (H4 _ _ _ Ho) as [Hlt Hh].
    split; [done|]. exists nm, reqs. split; [done|]. rewrite lookup_omap, Hx. simpl. by rewrite Ho.
  - intros x Hx. rewrite H3 in Hx. by rewrite lookup_omap, Hx.
Qed.

Lemma shA_content x m : shA x m -> a_cont x <$> a_map x = m.
Proof.
  intros H. apply map_eq. intros a. rewrite lookup_fmap. destruct (a_map x !! a) as [sl|] eqn:E; simpl.
  - by destruct (shA_fwd _ _ H _ _ E) as [_ ->].
  - by rewrite (shA_none _ _ H _ E).
Qed.

(** The memory stores exactly one view, up to how it is read. *)
Lemma shape_stores ckn tk s v : shape ckn tk s v -> stores tk s v.
Proof.
  intros [HI HA E1 E2]. split; [|by apply shA_content|done|done].
  intros n. destruct (i_map (r_I s) !! n) as [p|] eqn:E.
  - destruct (shI_fwd _ _ _ _ HI _ _ E) as (_ & nm & reqs & ? & ?). eauto.
  - by apply (shI_none _ _ _ _ HI).
Qed.
Lemma stores_shape ckn tk s v v' : shape ckn tk s v -> stores tk s v' -> shape ckn tk s v'.
Proof.
  intros [HI HA E1 E2] [SI SA F1 F2]. split; [| |done|done].
  - destruct HI as [H1 H2 H3 H4 H5]. split; try done.
    + intros n p Hn. destruct (H4 _ _ Hn) as [Hlt _]. split; [done|]. specialize (SI n). rewrite Hn in SI.
      destruct SI as (nm & reqs & ? & ?). eauto.
    + intros n Hn. specialize (SI n). by rewrite Hn in SI.
  - by rewrite <- SA, (shA_content _ _ HA).
Qed.

(** What a phase does: it is a run of the machine of atomic sections. *)
Lemma phase_end ckn tk s v cs ts s' :
  shape ckn tk s v -> unblocked v -> separate cs ->
  rtc pstep (Pool (start cs) s) (Pool ts s') -> Forall finished ts ->
  exists w0 l w n b,
    view_of w0 = v /\ wfC w0 /\ rtc (cstep ckn tk) (APool (cstart cs) w0) (APool l w) /\ wfC w /\
    shape ckn tk s' (MkView (v_idx (view_of w)) (v_ali (view_of w)) n b) /\ (tidy cs -> n = 0 /\ b = false).
Proof.
  intros Hs Hu Hsep Hr Hf. destruct (separate_mode cs Hsep) as (md & Hmd & Hal & _).
  destruct (init_view false ckn tk s v Hs Hu ltac:(done)) as (w & Hw & Hv & E1 & E2).
  pose proof (simR_simulation md Hmd false ckn tk cs ltac:(done)) as HS.
  assert (HR : simR md false ckn tk cs (start cs) s (cstart cs) w) by by apply simR_start.
  destruct (simulation_reach _ _ _ _ _ _ _ _ _ HS HR Hr) as (l' & w' & (gh & Da & HR' & _) & Hm).
  assert (Hd : dat s' = Da) by (by eapply rinv_end). subst Da.
  destruct HR' as [Hpool _ Hsh _ _]. destruct (pool_end _ _ _ _ _ Hpool Hf) as (n & b & F1 & F2 & F3).
  exists w, l', w', n, b. split_and!; [done| |done| | |done].
  - split; apply Hw.
  - split; apply Hsh.
  - by eapply shC_shape.
Qed.

(** ** Histories *)
Lemma reach_from_shape ckn tk ok s0 v0 s v :
  shape ckn tk s0 v0 -> reach_from ckn tk ok s0 v0 s v -> shape ckn tk s v.
Proof.
  intros H0. induction 1 as [|s v c r s' v' Hr IH Hok Hc Hs|s v c s' v' Hr IH Hok Hc Hs
    |s v cs ts s' v' Hr IH Hok Hu Hsep Hp Hf Hst].
  - done.
  - destruct (call_refines ckn tk c s v _ IH Hc) as (o & Ho & Hm). destruct o; try done.
    destruct Hm as [<- Hsh]. by rewrite (spec_det_done _ _ _ _ _ _ _ _ Hs Ho).
  - destruct (call_refines ckn tk c s v _ IH Hc) as (o & Ho & Hm). destruct o; try done.
    simpl in Hm. by rewrite (spec_det_panic _ _ _ _ _ _ Hs Ho).
  - destruct (phase_end _ _ _ _ _ _ _ IH Hu Hsep Hp Hf) as (_ & _ & w & n & b & _ & _ & _ & _ & Hsh & _).
    by eapply stores_shape.
Qed.

Lemma reach_shape ckn tk ok s v : reach ckn tk ok s v -> shape ckn tk s v.
Proof. intros. eapply reach_from_shape; [apply shape_new|done]. Qed.

Lemma reach_trans ckn tk ok s v s' v' :
  reach ckn tk ok s v -> reach_from ckn tk ok s v s' v' -> reach ckn tk ok s' v'.
Proof. intros H. induction 1; [done|eapply R_done|eapply R_panic|eapply R_together]; eauto. Qed.

Lemma reach_weaken ckn tk (ok ok' : view -> call -> Prop) s0 v0 s v :
  (forall v c, ok v c -> ok' v c) -> reach_from ckn tk ok s0 v0 s v -> reach_from ckn tk ok' s0 v0 s v.
Proof.
  intros Hok. induction 1; [constructor|eapply R_done|eapply R_panic|eapply R_together]; eauto.
Qed.

(** What the views before and after a phase have to do with each other. *)
Definition phased ckn tk (cs : list call) (v v' : view) : Prop :=
  exists w0 l w,
    view_of w0 = v /\ wfC w0 /\ rtc (cstep ckn tk) (APool (cstart cs) w0) (APool l w) /\ wfC w /\
    v_ali v' = c_ali w /\ (forall n, is_Some (v_idx v' !! n) <-> is_Some (c_idx w !! n)) /\
    (tidy cs -> unblocked v').

Lemma phase_phased ckn tk s v cs ts s' v' :
  shape ckn tk s v -> unblocked v -> separate cs ->
  rtc pstep (Pool (start cs) s) (Pool ts s') -> Forall finished ts -> stores tk s' v' -> phased ckn tk cs v v'.
Proof.
  intros Hs Hu Hsep Hr Hf Hst.
  destruct (phase_end _ _ _ _ _ _ _ Hs Hu Hsep Hr Hf) as (w0 & l & w & n & b & Hv & Hw0 & Hm & Hw & Hsh & Ht).
  pose proof (stores_shape _ _ _ _ _ Hsh Hst) as Hsh'.
  destruct Hsh as [HI HA E1 E2], Hsh' as [HI' HA' E1' E2']. cbn in *.
  exists w0, l, w. split_and!; [done..| | |].
  - by rewrite <- (shA_content _ _ HA), <- (shA_content _ _ HA').
  - intros x. rewrite <- (view_idx_is_Some w x Hw). by rewrite <- (shI_is_Some _ _ _ _ _ HI), <- (shI_is_Some _ _ _ _ _ HI').
  - intros Htd. destruct (Ht Htd) as [-> ->]. rewrite E1 in E1'. rewrite E2 in E2'. injection E1' as E. injection E2' as F. by split.
Qed.

(** Unless an index is renamed to itself, no alias comes to list a missing index. *)
Lemma phased_listed ckn tk cs v v' :
  (forall n, CRename n n ∉ cs) -> phased ckn tk cs v v' ->
  (forall a l x, v_ali v !! a = Some l -> x ∈ l -> is_Some (v_idx v !! x)) ->
  forall a l x, v_ali v' !! a = Some l -> x ∈ l -> is_Some (v_idx v' !! x).
Proof.
  intros Hcs (w0 & l' & w & <- & Hw0 & Hm & Hw & Ea & Ei & _) Hv a l x. rewrite Ea, Ei.
  assert (Hl : listed w0).
  { intros a' l0 x' H1 H2. apply (view_idx_is_Some w0 x' Hw0). by eapply (Hv a'). }
  destruct (machine_inv ckn tk (dang_inv ckn tk cs) (cstart cs) w0 l' w) as (_ & H & _); [|by apply dang_start|done|by apply H].
  intros. by eapply dang_step.
Qed.

(** Unless an index is renamed, no alias comes to list an index twice. *)
Section nodup.
  Context (ckn : bool) (tk : Tokenizer).
  Definition unrenamed (x : stage) : Prop := forall old new, x <> Todo (CRename old new).
  Definition dup_inv (l : list cthr) (w : cview) : Prop :=
    (forall i t, l !! i = Some t -> forall x, ends t x -> unrenamed x) /\ forall a l, c_ali w !! a = Some l -> NoDup l.

  Lemma dup_section x w b w' :
    unrenamed x -> (forall a l, c_ali w !! a = Some l -> NoDup l) -> section ckn tk x w b w' ->
    (forall y, leave b y -> unrenamed y) /\ forall a l, c_ali w' !! a = Some l -> NoDup l.
  Proof.
    intros Hx Hd Hs. destruct x as [c|n d [ps|]|n|a i|]; cbn [section] in Hs.
    - destruct c; repeat case_decide;
        try (destruct Hs as (? & _ & -> & ->); split; [by intros ? ->|done]);
        try (destruct Hs as (-> & ->); split; [by intros ? ->|done]).
      + destruct Hs as (-> & ->). split; [by intros ? ->|]. intros a l. cbn [c_ali].
        rewrite lookup_insert_Some. intros [[<- <-]|[Hne Ha]]; [|by eauto].
        apply NoDup_app. split_and!; [|intros y Hy ->%elem_of_list_singleton; tauto|apply NoDup_singleton].
        destruct (c_ali w !! alias) as [l|] eqn:E; [by eauto|constructor].
      + destruct Hs as (-> & ->). split; [by intros ? ->|]. intros a l. cbn [c_ali].
        rewrite lookup_delete_Some. intros [_ Ha]. by eauto.
      + destruct Hs as (-> & Hs). split; [|done].
        assert (Hg : forall outs y, leave (Gather outs) y -> unrenamed y) by (by intros outs y (bl & bl' & _ & _ & ->)).
        repeat case_match; subst b; eauto; by intros ? ->.
      + by destruct (Hx old new).
    - destruct Hs as (_ & -> & ->). split; [by intros ? ->|done].
    - destruct Hs as (p & _ & -> & ->). split; [by intros ? ->|done].
    - destruct Hs as (-> & ->). split; [by intros ? ->|]. intros a l. cbn [c_ali]. rewrite lookup_omap.
      destruct (c_ali w !! a) as [l0|] eqn:Ea; [|done]. simpl. unfold drop_from. intros E.
      assert (Hn : NoDup (without n l0)) by (apply NoDup_filter; by eauto).
      destruct (without n l0); [done|]. by injection E as <-.
    - destruct (c_ali w !! a) as [l0|] eqn:Ea; destruct Hs as (-> & ->); (split; [by intros ? ->|]); [|done].
      intros a' l. cbn [c_ali]. rewrite lookup_insert_Some. intros [[<- <-]|[Hne Ha]]; [|by eauto].
      apply NoDup_filter. by eauto.
    - done.
  Qed.

  Lemma dup_step l w l' w' : dup_inv l w -> cstep ckn tk (APool l w) (APool l' w') -> dup_inv l' w'.
  Proof.
    intros (H1 & H2) Hs. inversion Hs as [? ? i x b ? Hi Heff|? ? i b x Hi Hfin| |]; simplify_eq.
    - destruct (dup_section x w b w') as [Hl' Hb]; [by apply (H1 _ _ Hi)|done|done|]. split; [|done].
      intros j t Hj. apply list_lookup_insert_Some in Hj as [(-> & <- & _)|[Hne Hj]]; [done|by eauto].
    - split; [|done]. intros j t Hj. apply list_lookup_insert_Some in Hj as [(-> & <- & _)|[Hne Hj]]; [|by eauto].
      intros y ->. by eapply H1.
  Qed.
End nodup.

Lemma phased_nodup ckn tk cs v v' :
  without_rename cs -> phased ckn tk cs v v' ->
  (forall a l, v_ali v !! a = Some l -> NoDup l) -> forall a l, v_ali v' !! a = Some l -> NoDup l.
Proof.
  intros Hcs (w0 & l' & w & <- & _ & Hm & _ & Ea & _ & _) Hv a l. rewrite Ea.
  destruct (machine_inv ckn tk dup_inv (cstart cs) w0 l' w) as (_ & H); [by apply dup_step| |done|by apply H].
  split; [|done]. intros i t Hi x Hx. unfold cstart in Hi. apply list_lookup_fmap_inv in Hi as (c & -> & Hi).
  cbn in Hx. subst x. intros old new [= ->]. apply (Hcs old new). by eapply elem_of_list_lookup_2.
Qed.

(** Invariants of the abstract machine carry over to every reachable state. *)
Lemma reach_inv ckn tk (ok : view -> call -> Prop) (J : view -> Prop) s0 v0 s v :
  shape ckn tk s0 v0 -> J v0 ->
  (forall v c b v', J v -> ok v c -> spec ckn tk c v (ODone b v') -> J v') ->
  (forall v c v', J v -> ok v c -> spec ckn tk c v (OPanic v') -> J v') ->
  (forall cs v v', (forall c, c ∈ cs -> forall v, ok v c) -> J v -> unblocked v -> phased ckn tk cs v v' -> J v') ->
  reach_from ckn tk ok s0 v0 s v -> J v.
Proof.
  intros Hs H0 H1 H2 H3. induction 1 as [| | |s v cs ts s' v' Hr IH Hok Hu Hsep Hp Hf Hst]; eauto.
  eapply H3; [exact Hok|exact IH|exact Hu|]. eapply phase_phased; eauto. by eapply reach_from_shape.
Qed.

(** How the code's outcome of a call is tied to the abstract machine. *)
Lemma reach_call ckn tk ok s v c res :
  reach ckn tk ok s v -> ok v c -> call_result c s res ->
  match res with
  | Done r s' => exists v', spec ckn tk c v (ODone (see s' r) v') /\ reach ckn tk ok s' v'
  | Panicked s' => exists v', spec ckn tk c v (OPanic v') /\ reach ckn tk ok s' v'
  | Crashed => spec ckn tk c v OCrash
  | Blocked => spec ckn tk c v OBlock
  end.
Proof.
  intros Hr Hok Hc. destruct (call_refines ckn tk c s v _ (reach_shape _ _ _ _ _ Hr) Hc) as (o & Ho & Hm).
  destruct res, o; simpl in Hm; try done.
  - destruct Hm as [E _]. subst. exists v0. split; [done|]. by eapply R_done.
  - exists v0. split; [done|]. by eapply R_panic.
Qed.

Lemma returns_intro ckn tk ok c s v v' (P : obs -> Prop) :
  reach ckn tk ok s v -> ok v c ->
  (forall o, spec ckn tk c v o -> exists b, o = ODone b v' /\ P b) ->
  returns ckn tk ok c s P v'.
Proof.
  intros Hr Hok H. split; [apply call_total|]. intros res Hres.
  pose proof (reach_call _ _ _ _ _ _ _ Hr Hok Hres) as Hx.
  destruct res as [r s'|s'| |].
  - destruct Hx as (v1 & Hx & Hr'). destruct (H _ Hx) as (b & E & HP). simplify_eq. eauto.
  - destruct Hx as (v1 & Hx & Hr'). by destruct (H _ Hx) as (b & E & HP).
  - by destruct (H _ Hx) as (b & E & HP).
  - by destruct (H _ Hx) as (b & E & HP).
Qed.

Lemma panics_intro ckn tk ok c s v v' :
  reach ckn tk ok s v -> ok v c ->
  (forall o, spec ckn tk c v o -> o = OPanic v') -> panics ckn tk ok c s v'.
Proof.
  intros Hr Hok H. split; [apply call_total|]. intros res Hres.
  pose proof (reach_call _ _ _ _ _ _ _ Hr Hok Hres) as Hx.
  destruct res as [r s'|s'| |]; try (by apply H in Hx).
  - destruct Hx as (v1 & Hx & Hr'). by apply H in Hx.
  - destruct Hx as (v1 & Hx & Hr'). apply H in Hx. simplify_eq. eauto.
Qed.

Lemma crashes_intro ckn tk ok c s v :
  reach ckn tk ok s v -> (forall o, spec ckn tk c v o -> o = OCrash) -> crashes c s.
Proof.
  intros Hr H. split; [apply call_total|]. intros res Hres.
  destruct (call_refines ckn tk c s v _ (reach_shape _ _ _ _ _ Hr) Hres) as (o & Ho & Hm).
  apply H in Ho as ->. by destruct res.
Qed.
Lemma blocks_intro ckn tk ok c s v :
  reach ckn tk ok s v -> (forall o, spec ckn tk c v o -> o = OBlock) -> blocks c s.
Proof.
  intros Hr H. split; [apply call_total|]. intros res Hres.
  destruct (call_refines ckn tk c s v _ (reach_shape _ _ _ _ _ Hr) Hres) as (o & Ho & Hm).
  apply H in Ho as ->. by destruct res.
Qed.

(** Building examples: following the abstract machine. *)
Lemma reach_next ckn tk ok s v c v' :
  reach ckn tk ok s v -> ok v c ->
  (forall o, spec ckn tk c v o -> exists b, o = ODone b v') ->
  exists s', reach ckn tk ok s' v'.
Proof.
  intros Hr Hok H. destruct (returns_intro ckn tk ok c s v v' (fun _ => True) Hr Hok) as [[res Hres] Ha].
  { intros o Ho. destruct (H o Ho) as [b ->]. eauto. }
  destruct (Ha _ Hres) as (r & s' & -> & _ & Hr'). eauto.
Qed.
