(** * Concurrent calls are simulated by the machine with atomic sections. *)
From Coq Require Import Lia.
From stdpp Require Import list gmap.
From Verif Require Import Entities Search SpecSearch Repo Sem RepoWp SpecRepo ProofRepo ProofTotal
  SpecConc Locks Race ProofRace Reduce ProofConc.
Open Scope nat_scope.

Global Instance mode_eq_dec : EqDecision mode.
Proof. solve_decision. Defined.

(** The abstract state of a repo between two calls. *)
Lemma init_view strict ckn tk s v :
  shape ckn tk s v -> unblocked v ->
  (strict = true -> forall a l, v_ali v !! a = Some l -> NoDup l /\ forall x, x ∈ l -> is_Some (v_idx v !! x)) ->
  exists w, shC strict ckn tk (dat s) w /\ view_of w = v /\ r_imu s = rw_free /\ r_amu s = rw_free.
Proof.
  intros [HI HA E1 E2] [L1 L2] Hs.
  set (f := fun x : string * nat => (x.2, (default ""%string (mi_name <$> i_heap (r_I s) !! x.2), default [] (v_idx v !! x.1)))).
  set (obj := list_to_map (M := gmap nat (string * list DocRequest)) (f <$> map_to_list (i_map (r_I s)))).
  assert (Hobj : forall n p, i_map (r_I s) !! n = Some p -> obj !! p = Some (f (n, p)).2).
  { intros n p Hn. unfold obj. apply elem_of_list_to_map_1.
    - rewrite <- list_fmap_compose. apply NoDup_fmap_2_strong; [|apply NoDup_map_to_list].
      intros [n1 p1] [n2 p2] H1 H2 E. simpl in E. subst p2. apply elem_of_map_to_list in H1, H2.
      f_equal. by eapply (shI_inj _ _ _ _ HI).
    - apply elem_of_list_fmap. exists (n, p). split; [done|]. by apply elem_of_map_to_list. }
  assert (Hinv : forall p x, obj !! p = Some x -> exists n, i_map (r_I s) !! n = Some p /\ x = (f (n, p)).2).
  { intros p x Hx. apply elem_of_list_to_map_2 in Hx. apply elem_of_list_fmap in Hx as ([n q] & E & Hin).
    apply elem_of_map_to_list in Hin. unfold f in E. simplify_eq/=. by exists n. }
  exists (MkC (i_map (r_I s)) obj (v_ali v)). split_and!.
  - split; simpl.
    + apply HI.
    + apply HI.
    + done.
    + intros p nm reqs Hp. apply Hinv in Hp as (n & Hn & E). unfold f in E. simpl in E. simplify_eq.
      destruct (shI_fwd _ _ _ _ HI _ _ Hn) as (Hlt & nm & reqs & Hh & Hm). split; [done|].
      rewrite Hh, Hm. simpl. f_equal. f_equal. clear. unfold index_after. rewrite <- (rev_involutive reqs).
      induction (rev reqs) as [|r rs IH]; [done|]. simpl. rewrite fold_left_app. simpl. exact IH.
    + intros n p Hn. rewrite (Hobj _ _ Hn). eauto.
    + intros n1 n2 p. apply HI.
    + apply HA.
    + intros Hst a l Hl. destruct (Hs Hst _ _ Hl) as [? Hex]. split; [done|]. intros x Hx.
      apply (shI_is_Some _ _ _ _ _ HI). by apply Hex.
  - unfold view_of. destruct v as [idx ali lI lA], L1, L2. simpl in *. subst. f_equal.
    apply map_eq. intros n. rewrite lookup_omap. destruct (i_map (r_I s) !! n) as [p|] eqn:En; simpl.
    + rewrite (Hobj _ _ En). simpl. destruct (shI_fwd _ _ _ _ HI _ _ En) as (_ & nm & reqs & _ & ->). done.
    + by rewrite (shI_none _ _ _ _ HI _ En).
  - rewrite E1. by rewrite L1.
  - rewrite E2. by rewrite L2.
Qed.

(** ** The rows a call returns *)

Lemma tstep_next s t t' s' : tstep s t (TNext t' s') -> a_next (r_A s) <= a_next (r_A s').
Proof.
  intros H. inversion H; subst; try done; try (by destruct m); simpl; try lia.
  unfold a_append. destruct (_ <? _)%nat; simpl; lia.
Qed.

(** A step that does not write the element leaves it as it is. *)
Lemma tstep_elem s t t' s' arr k :
  tstep s t (TNext t' s') -> arr < a_next (r_A s) -> (forall g, ~ access t g (LElem arr k) true) ->
  default [] (a_arr (r_A s') !! arr) !! k = default [] (a_arr (r_A s) !! arr) !! k.
Proof.
  assert (Hst : forall sl i v x, (sl_arr sl, i) <> (arr, k) ->
    default [] (a_arr (a_store sl i v x) !! arr) !! k = default [] (a_arr x !! arr) !! k).
  { intros sl i v x Hne. unfold a_store. simpl. destruct (decide (sl_arr sl = arr)) as [E|E].
    - subst arr. rewrite (lookup_alter (M:=gmap nat)). destruct (a_arr x !! sl_arr sl) as [l|]; [|done]. simpl.
      apply list_lookup_insert_ne. congruence.
    - by rewrite (lookup_alter_ne (M:=gmap nat)). }
  assert (Hal : forall l c x, arr < a_next x -> a_arr (a_alloc l c x).1 !! arr = a_arr x !! arr).
  { intros l c x Hlt. unfold a_alloc. simpl. apply lookup_insert_ne. lia. }
  intros H Hlt Hno. inversion H; subst; try done; try (by destruct m); cbn [r_A set_A].
  - apply Hst. intros [= <- <-]. by eapply Hno, A_StoreElem.
  - unfold a_append. destruct (_ <? _)%nat eqn:E; [|by rewrite Hal]. apply Nat.ltb_lt in E.
    apply Hst. intros [= <- <-]. by eapply Hno, A_Append_in_place.
  - f_equal. f_equal. exact (Hal l (length l) (r_A s) Hlt).
Qed.

(** The last step of a call that returns rows is to release aliasesMu. *)
Fixpoint rows_last (p : prog) : Prop :=
  match p with
  | Ret (RRows _) => False
  | Ret _ | Throw => True
  | RUnlock m k => (m = MA /\ exists rows, k = Ret (RRows rows)) \/ rows_last k
  | RLock _ k | Lock _ k | Unlock _ k | SetIndex _ _ k | DelIndex _ k | SetAlias _ _ k | DelAlias _ k
  | StoreElem _ _ _ k | IdxPut _ _ k | GoPut _ _ k => rows_last k
  | GetIndex _ k => forall o, rows_last (k o)
  | RangeIndices k | RangeAliases k => forall l, rows_last (k l)
  | GetAlias _ k => forall o, rows_last (k o)
  | LoadElem _ _ k => forall x, rows_last (k x)
  | Append _ _ k | MakeSlice _ k => forall x, rows_last (k x)
  | NewIndex _ k => forall x, rows_last (k x)
  | IdxSearch _ _ _ k kp => (forall r, rows_last (k r)) /\ rows_last kp
  | IdxRead _ k => forall o, rows_last (k o)
  | GoSearch _ _ _ k => forall r, rows_last (k r)
  end.
Definition rows_lastT (t : thr) : Prop :=
  match t with
  | TRun p => (exists rows, p = Ret (RRows rows)) \/ rows_last p
  | TPend _ k | TPut _ _ k => rows_last k
  | TSearch _ _ _ _ k => forall r, rows_last (k r)
  end.

Lemma rows_last_step s t t' s' :
  rows_lastT t -> tstep s t (TNext t' s') ->
  rows_lastT t' /\ forall rows, t' = TRun (Ret (RRows rows)) -> t = TRun (RUnlock MA (Ret (RRows rows))).
Proof.
  intros Hl Ht.
  assert (Hr : forall p, rows_last p -> rows_lastT (TRun p) /\ forall rows, TRun p = TRun (Ret (RRows rows)) -> t = TRun (RUnlock MA (Ret (RRows rows)))).
  { intros p Hp. split; [by right|]. intros rows [= ->]. done. }
  inversion Ht; subst; simpl in Hl; try (split; [done|intros rows [=]]; fail);
    try (destruct Hl as [[? [=]]|Hl]); try (apply Hr; by auto); try (split; [done|by intros]; fail).
  - destruct Hl as [[-> [rows ->]]|Hl]; [|by apply Hr]. split; [left; by exists rows|]. by intros rows' [= ->].
  - apply Hr. by apply Hl.
  - apply Hr. by apply Hl.
Qed.

Lemma rows_last_call c : rows_last (prog_of c).
Proof.
  assert (Hscan : forall sl x k, (forall b, rows_last (k b)) -> forall n i, rows_last (scan_loop sl i n x k)).
  { intros sl x k Hk n. induction n; intros i; simpl; [done|]. intros y. by destruct (decide _). }
  assert (Hfil : forall sl x k, (forall b, rows_last (k b)) -> forall n i acc, rows_last (filter_loop sl i n x acc k)).
  { intros sl x k Hk n. induction n; intros i acc; simpl; [done|]. intros y. destruct (decide _); simpl; intros; apply IHn. }
  assert (Hren : forall old new k, rows_last k -> forall n sl i, rows_last (rename_elems sl i n old new k)).
  { intros old new k Hk n. induction n; intros sl i; simpl; [done|]. intros y. destruct (decide _); simpl; auto. }
  assert (Hrl : forall old new k, rows_last k -> forall l, rows_last (rename_loop l old new k)).
  { intros old new k Hk l. induction l; simpl; [done|]. intros [sl|]; [|done]. by apply Hren. }
  assert (Hres : forall k, (forall b, rows_last (k b)) -> forall n sl i acc, rows_last (resolve_loop sl i n acc k)).
  { intros k Hk n. induction n; intros sl i acc; simpl; [done|]. intros. auto. }
  assert (Hdr : forall x k, rows_last k -> forall l, rows_last (drop_loop l x k)).
  { intros x k Hk l. induction l; simpl; [done|]. intros [sl|]; [|done]. apply Hfil. intros b.
    destruct (decide _); [done|]. destruct (decide _); done. }
  assert (Hro : forall k, (forall rows, rows_last (k rows)) -> forall l acc, rows_last (rows_loop l acc k)).
  { intros k Hk l. induction l; intros acc; simpl; [done|]. intros [sl|]; auto. }
  assert (Hst : forall show k, (forall x, rows_last (k x)) -> forall l acc, rows_last (string_loop show l acc k)).
  { intros show k Hk l. induction l; intros acc; simpl; [done|]. intros _ [mi|]; auto. }
  assert (Htail : forall ps q e, rows_last (search_tail ps q e)).
  { intros ps q e. destruct ps as [|p [|? ?]]; simpl; try (intros; by right); split; [intros|]; by right. }
  destruct c; simpl.
  - intros. by right.
  - intros names. apply Hro. intros rows. left. eauto.
  - intros. by right.
  - intros. by right.
  - intros [p|]; simpl; [|by right]. intros [sl|]; simpl; [apply Hscan; intros []; simpl; auto|]. intros. by right.
  - unfold UnAlias_prog. destruct (decide _); simpl; [done|]. intros [p|]; simpl; [|done]. right. intros [sl|]; simpl; [|done].
    apply Hfil. intros b. destruct (decide _); done.
  - assert (Hk : forall r, rows_last (Lock MI (match r with
      | None => NewIndex index (fun p => SetIndex index p (IdxPut p doc (Unlock MI (Ret RUnit))))
      | Some indices => GoPut indices doc (Unlock MI (Ret RUnit)) end))) by (by intros [r|]).
    intros [p|]; simpl; [by right|]. intros [sl|]; simpl; [|right; by right]. apply Hres. intros b. right. by right.
  - intros [p|]; [apply (Htail [Some p])|]. intros [sl|]; simpl; [|right; by right]. apply Hres. intros b. right. apply Htail.
  - intros [p|]; simpl; [|done]. intros l. by apply Hrl.
  - intros [p|]; simpl; [|by right]. right. intros l. by apply Hdr.
  - intros l. apply Hst. intros. by right.
Qed.

Section sim.
  Context (md : mode) (Hmd : md <> Any) (strict ckn : bool) (tk : Tokenizer) (cs : list call).
  Context (Hstrict : strict = true -> md = NoRename).

  Definition simR (ts : list thr) (s : repo) (l : list cthr) (w : cview) : Prop :=
    exists gh Da, rinv (section ckn tk) leave dies_before dies_inside md (leaks_of cs) strict
      (shC strict ckn tk) (GC md) (linkC md strict) (wrtC md) gh ts s l w Da /\ Forall rows_lastT ts /\
      a_next (d_A Da) <= a_next (r_A s) /\
      (md = NoRename -> forall i rows, ts !! i = Some (TRun (Ret (RRows rows))) -> rows_of (r_A s) rows = rows_of (d_A Da) rows).

  Lemma shows_I s D w : shC strict ckn tk D w -> d_I D = r_I s -> shows_indices tk s w.
  Proof.
    intros H E. split.
    - rewrite <- E. apply H.
    - intros n p Hn. destruct (sc_obj _ _ _ _ _ H _ _ Hn) as [[nm reqs] Ho]. exists nm, reqs. split; [done|].
      rewrite <- E. by eapply (sc_heap _ _ _ _ _ H).
  Qed.
  Lemma shows_A s D w : shC strict ckn tk D w -> d_A D = r_A s -> shows_aliases s w.
  Proof.
    intros H E. pose proof (sc_ali _ _ _ _ _ H) as HA. rewrite E in HA. unfold shows_aliases.
    apply map_eq. intros a. rewrite lookup_fmap. destruct (a_map (r_A s) !! a) as [sl|] eqn:Ea; simpl.
    - symmetry. by apply (shA_fwd _ _ HA).
    - by rewrite (shA_none _ _ HA _ Ea).
  Qed.

  Lemma answers_link x p D : finished (TRun p) -> linkC md strict x p D -> exists a, x = Answered a /\ answers p a.
  Proof.
    intros Hf Hl. destruct x as [c|n d t|n|a i|[o|]].
    - destruct Hl as [-> _]. exfalso. destruct c; simpl in Hf; try done. unfold UnAlias_prog in Hf. by destruct (decide _).
    - by destruct Hl as [-> _].
    - simpl in Hl. by subst.
    - simpl in Hl. by subst.
    - destruct Hl as (r & -> & Hr). exists (Returned o). split; [done|]. simpl. destruct r; try done. destruct o; try done. by destruct Hr.
    - simpl in Hl. subst. by exists Threw.
  Qed.

  Theorem simR_simulation : simulation ckn tk (bool_decide (md = NoRename)) simR.
  Proof.
    split.
    - intros ts s l w i t t' s' (gh & Da & HR & Hlast & Hnx & Hrows) Ht Hs.
      edestruct (sim_step (section ckn tk) leave dies_before dies_inside md Hmd (leaks_of cs) strict (shC strict ckn tk)
        (GC md) (linkC md strict) (wrtC md)) as (gh' & l' & w' & Da' & HR' & Hrtc & Hoff & Hnx' & HG & Hlook); [..|exact HR|exact Ht|exact Hs|].
      + apply GC_refl. + apply GC_trans. + apply linkC_G. + apply linkC_any.
      + intros. by apply all_sections.
      + exists l', w'. split_and!; [|done|done]. exists gh', Da'.
        destruct (rows_last_step _ _ _ _ (Forall_lookup_1 _ _ _ _ Hlast Ht) Hs) as [Hl1 Hl2].
        split_and!; [done|by apply Forall_insert|apply tstep_next in Hs; lia|].
        intros Hm j rows Hj. apply list_lookup_insert_Some in Hj as [(<- & E & _)|[Hne Hj]].
        * subst t'. rewrite (Hl2 _ eq_refl) in Ht.
          destruct (lookup_lt_is_Some_2 gh i) as [[g h] Hg].
          { rewrite (pi_len _ _ _ _ _ (ri_pool _ _ _ _ _ _ _ _ _ _ _ _ _ _ _ _ _ HR)). by eapply lookup_lt_Some. }
          destruct (pi_thr _ _ _ _ _ (ri_pool _ _ _ _ _ _ _ _ _ _ _ _ _ _ _ _ _ HR) _ _ _ _ Ht Hg) as [Hd _].
          destruct (Hlook I g h PR Hg) as (_ & _ & E).
          { simpl in Hd. destruct Hd as [Hd _]. rewrite Hm. simpl. destruct h as [h1 h2]. simpl in *. by subst. }
          unfold rows_of, a_cont. destruct (E I) as [E1 _]. cbn [dat d_A] in E1. by rewrite E1.
        * rewrite <- (Hrows Hm _ _ Hj) || idtac.
          edestruct (rinv_done (section ckn tk) leave dies_before dies_inside md (leaks_of cs) strict (shC strict ckn tk)
            (GC md) (linkC md strict) (wrtC md)) as (x & Hx & Hl); [exact HR|exact Hj|done|].
          destruct (answers_link _ (Ret (RRows rows)) _ I Hl) as (a & -> & Ha). destruct a as [o|]; [|done].
          destruct Hl as (r' & E & Hr). injection E as <-. destruct o; try done. destruct Hr as [_ Hr].
          destruct (Hr Hm) as [Hsn _]. specialize (HG Hm).
          transitivity (rows_of (r_A s) rows); [|rewrite (Hrows Hm _ _ Hj)].
          -- apply list_fmap_ext. intros k0 [b sl] Hin. simpl. f_equal. pose proof (Forall_lookup_1 _ _ _ _ Hsn Hin) as Hsl. simpl in Hsl.
             destruct Hsl as [->|Hsl]; [done|]. unfold a_cont. apply list_eq. intros k.
             destruct (decide (k < sl_len sl)) as [Hk|Hk]; [|by rewrite !lookup_take_ge by lia].
             rewrite !lookup_take by done. eapply tstep_elem; [done|lia|]. intros g Hacc.
             assert (wrtC md Da (sl_arr sl) k) as Hw.
             { eapply (sim_write (section ckn tk) leave dies_before dies_inside md (leaks_of cs) strict); [exact HR|exact Ht|exact Hacc]. }
             specialize (Hw Hm sl (or_intror Hsl) eq_refl). lia.
          -- apply list_fmap_ext. intros k0 [b sl] Hin. simpl. f_equal. symmetry.
             by apply HG, (Forall_lookup_1 _ _ _ _ Hsn Hin).
    - intros ts s l w i t (gh & Da & HR & _) Ht Hs. eapply sim_crash; try done.
    - intros ts s l w (gh & Da & HR & _ & _ & Hrows). pose proof HR as [Hpool Hlen Hsh Hthr Hquiet].
      assert (Hfin : Forall finished ts -> dat s = Da) by (by eapply rinv_end).
      assert (HqI : rw_writer (r_imu s) = false -> quiet md gh ts PI).
      { intros Hw i t h Hi Hg Hf. destruct (pool_inv_held _ _ _ _ _ _ _ _ _ Hpool Hi Hg) as [_ K2].
        specialize (K2 MI). simpl in K2. rewrite Hw in K2. destruct md; [done|..]; simpl; destruct (wr h.1); try done; by discriminate K2. }
      split.
      + done.
      + intros i p Hi Hf. edestruct (rinv_done (section ckn tk) leave dies_before dies_inside md (leaks_of cs) strict (shC strict ckn tk)
          (GC md) (linkC md strict) (wrtC md)) as (x & Hx & Hl); [exact HR|exact Hi|done|].
        destruct (answers_link _ _ _ Hf Hl) as (a & -> & Ha). by exists a.
      + intros [Hw|Hf].
        * apply shows_I with Da; [done|]. apply HqI in Hw. destruct (Hquiet _ Hw) as (E & _). symmetry. by apply E.
        * apply shows_I with Da; [done|]. by rewrite <- Hfin.
      + intros [[Hw1 Hw2]|Hf].
        * assert (Hq : forall x, quiet md gh ts x).
          { intros x i t h Hi Hg Hf. destruct (pool_inv_held _ _ _ _ _ _ _ _ _ Hpool Hi Hg) as [_ K2].
            pose proof (K2 MI) as K1. specialize (K2 MA). simpl in K1, K2. rewrite Hw1 in K1. rewrite Hw2 in K2.
            destruct (wr h.1) eqn:E1; [by discriminate K1|]. destruct (wr h.2) eqn:E2; [by discriminate K2|].
            destruct md; [done|..]; destruct x; simpl; rewrite ?E1, ?E2; try done; by destruct (rd h.1). }
          assert (dat s = Da) as E by (apply agree_all, agree_single; auto).
          apply shows_A with Da; [done|]. by rewrite <- E.
        * apply shows_A with Da; [done|]. by rewrite <- Hfin.
      + intros Hm i r Hi. apply bool_decide_eq_true in Hm.
        edestruct (rinv_done (section ckn tk) leave dies_before dies_inside md (leaks_of cs) strict (shC strict ckn tk)
          (GC md) (linkC md strict) (wrtC md)) as (x & Hx & Hl); [exact HR|exact Hi|done|].
        destruct (answers_link _ (Ret r) _ I Hl) as (a & -> & Ha). rewrite Hx. f_equal. f_equal. f_equal.
        destruct a as [o|]; [|done]. f_equal. destruct Hl as (r' & E & Hr). injection E as <-.
        destruct r; try (symmetry; by apply Hr). destruct o; try done. destruct Hr as [_ Hr].
        destruct (Hr Hm) as [_ <-]. by rewrite <- (Hrows Hm _ _ Hi).
  Qed.

  Theorem simR_start s w :
    shC strict ckn tk (dat s) w -> r_imu s = rw_free -> r_amu s = rw_free -> Forall (allowed md) cs ->
    simR (start cs) s (cstart cs) w.
  Proof.
    intros Hs E1 E2 Hc. exists (replicate (length cs) (true, none_held)), (dat s). split; [|split; [apply Forall_fmap, Forall_forall; intros c _; right; apply rows_last_call|split; [reflexivity|]]].
    2: { intros _ i rows Hi. unfold start in Hi. rewrite list_lookup_fmap in Hi. destruct (cs !! i) as [c|]; [|done].
      injection Hi as Hi. pose proof (rows_last_call c) as Hl. by rewrite Hi in Hl. }
    unfold cstart.
    replace ((fun c => Between (Todo c)) <$> cs : list cthr) with (Between <$> (Todo <$> cs) : list cthr) by (by rewrite <- list_fmap_compose).
    eapply rinv_start; try done.
    - apply linkC_any. - intros. by apply all_sections.
    - apply Forall2_fmap_r. clear -Hc. induction Hc; constructor; done.
  Qed.

  Theorem simR_put ts s l w i pcs d k :
    strict = true -> simR ts s l w -> ts !! i = Some (TPut pcs d k) -> NoDup (omap id pcs).
  Proof. intros Hs (gh & Da & HR & _) Hi. by eapply sim_put. Qed.
End sim.

(** Every reachable state of the code has a counterpart. *)
Theorem simulation_reach ckn tk rows R ts s l w p :
  simulation ckn tk rows R -> R ts s l w -> rtc pstep (Pool ts s) p ->
  match p with
  | Pool ts' s' => exists l' w', R ts' s' l' w' /\ rtc (cstep ckn tk) (APool l w) (APool l' w')
  | PCrashed => rtc (cstep ckn tk) (APool l w) ACrashed
  end.
Proof.
  intros HS HR Hp.
  refine (rtc_ind_r (R := pstep) (fun p => match p with
  | Pool ts' s' => exists l' w', R ts' s' l' w' /\ rtc (cstep ckn tk) (APool l w) (APool l' w')
  | PCrashed => rtc (cstep ckn tk) (APool l w) ACrashed
  end) _ _ _ p Hp).
  - exists l, w. split; [done|apply rtc_refl].
  - intros y z _ Hs IH. inversion Hs; simplify_eq.
    + destruct IH as (l' & w' & HR' & Hr). eapply (sim_next _ _ _ _ HS) in HR' as (l2 & w2 & HR2 & Hr2 & _); [|done..].
      exists l2, w2. split; [done|]. by etrans.
    + destruct IH as (l' & w' & HR' & Hr). eapply rtc_r; [done|].
      edestruct (sim_dies _ _ _ _ HS) as ([x|b] & Hl & Hd); [done..| |].
      * by eapply as_crash_x.
      * by eapply as_crash_b.
Qed.
