(** * Property C90: concurrent calls whose tokenizer or builder panics. *)
From Coq Require Import Lia.
From stdpp Require Import gmap list.
From Verif Require Import Entities Search SpecSearch Properties_Search Repo Sem RepoWp SpecRepo
  ProofRepo ProofTotal ProofReach Properties_Repo SpecConc Locks Race ProofRace Reduce ProofConc ProofSim Run
  Properties_Conc SpecLin ProofMachine ProofLin Properties_Lin Serial Properties_Clash SpecHelp ProofHelp Properties_Help
  Fault SpecFault ProofFault Properties_Fault ProofStall.
Open Scope nat_scope.
Open Scope string_scope.
Open Scope list_scope.

Lemma fstart_reach f cs s ts s' :
  rtc pstep (Pool (fstart f cs) s) (Pool ts s') ->
  exists ts0, rtc pstep (Pool (start (tamed f <$> cs)) s) (Pool ts0 s') /\ Forall2 (stalledT f) ts0 ts /\ length ts0 = length cs.
Proof.
  intros Hr. destruct (stalled_reach f _ _ _ _ _ (stalled_start f cs) Hr) as (ts0 & H1 & H2).
  exists ts0. split_and!; [done|done|].
  assert (Hl : match Pool ts0 s' with Pool ts1 _ => length ts1 = length cs | PCrashed => True end).
  { refine (rtc_ind_r (R := pstep) (fun p => match p with Pool ts1 _ => length ts1 = length cs | PCrashed => True end) _ _ _ _ H1).
    - unfold start. by rewrite !fmap_length.
    - intros y z _ Hs IH. inversion Hs; simplify_eq; [|done]. by rewrite insert_length. }
  exact Hl.
Qed.

(** What the calls do to the repo, however they interleave, the same calls do with a
    tokenizer and a builder that never panic: a Put that panics is one that stops
    half way, for ever.  The calls that have finished have finished the same way. *)
Theorem C90_stalls :
  forall f cs s ts s',
    rtc pstep (Pool (fstart f cs) s) (Pool ts s') ->
    exists ts0,
      rtc pstep (Pool (start (tamed f <$> cs)) s) (Pool ts0 s') /\ length ts0 = length ts /\
      forall i t t0, ts !! i = Some t -> ts0 !! i = Some t0 ->
        (finished t0 -> t = t0) /\
        (finished t -> t = t0 \/ exists n d, struck cs ts i n d /\ ~ finished t0 /\
           (f_build f n = true \/ f_text f (req_statement d) = true)).
Proof.
  intros f cs s ts s' Hr. destruct (fstart_reach _ _ _ _ _ Hr) as (ts0 & H1 & H2 & Hl). exists ts0. split_and!.
  - done.
  - by eapply Forall2_length.
  - intros i t t0 Hi Hi0. eapply stalled_finished; [exact H1|done|exact Hi0|exact Hi|]. by eapply Forall2_lookup_lr.
Qed.
Print Assumptions C90_stalls.

(** If they kill the process, so may the same calls without faults, or there is a Put
    of a text on which the tokenizer panics. *)
Theorem C90_death :
  forall f cs s,
    rtc pstep (Pool (fstart f cs) s) PCrashed ->
    rtc pstep (Pool (start (tamed f <$> cs)) s) PCrashed \/
    exists i n d, cs !! i = Some (CPut n d) /\ f_text f (req_statement d) = true.
Proof.
  intros f cs s Hr. apply rtc_inv_r in Hr as [?|(p & Hr & Hs)]; [done|].
  inversion Hs as [|ts s' i t Hi Ht]; simplify_eq. destruct (fstart_reach _ _ _ _ _ Hr) as (ts0 & H1 & H2 & Hl).
  destruct (Forall2_lookup_r _ _ _ _ _ H2 Hi) as (t0 & Hi0 & Hst).
  destruct (stalled_crash _ _ _ _ Hst Ht) as [Hc|(pcs & d & k & -> & Hb)].
  - left. eapply rtc_r; [exact H1|]. by eapply P_crash.
  - right. destruct (lookup_lt_is_Some_2 cs i) as [c Hc]; [rewrite <- Hl; by eapply lookup_lt_Some|].
    assert (Hc' : (tamed f <$> cs) !! i = Some (tamed f c)) by (by rewrite list_lookup_fmap, Hc).
    assert (Hn : (exists n d, c = CPut n d) \/ forall n d, tamed f c <> CPut n d) by (destruct c; simpl; eauto).
    destruct Hn as [(n & d' & ->)|Hn].
    + destruct (okput_reach _ _ _ _ _ _ _ _ H1 Hc' Hi0) as [-> _]. eauto.
    + by pose proof (noput_reach _ _ _ _ _ _ _ H1 Hc' Hn Hi0).
Qed.
Print Assumptions C90_death.

(** So what C83 says of calls at once holds with faults: those that have finished,
    but for the struck Puts, are explained by one order of the calls. *)
Theorem C90_linearizable :
  forall ckn tk f s v cs ts s',
    tracks ckn tk s v -> unblocked v -> gentle v (tamed f <$> cs) ->
    rtc pstep (Pool (fstart f cs) s) (Pool ts s') ->
    exists ts0 log,
      linearized ckn tk v (tamed f <$> cs) ts0 s' log /\
      forall i t, ts !! i = Some t -> finished t -> (forall n d, ~ struck cs ts i n d) -> ts0 !! i = Some t.
Proof.
  intros ckn tk f s v cs ts s' Ht Hu Hg Hr. destruct (C90_stalls _ _ _ _ _ Hr) as (ts0 & H1 & H2 & H3).
  destruct (within_reach _ _ _ _ _ _ _ _ (C83_linearizable _ _ _ _ _ Ht Hu Hg) H1) as [log Hlog].
  exists ts0, log. split; [done|]. intros i t Hi Hf Hns.
  destruct (lookup_lt_is_Some_2 ts0 i) as [t0 Hi0]; [rewrite H2; by eapply lookup_lt_Some|].
  destruct (H3 _ _ _ Hi Hi0) as [_ H4]. destruct (H4 Hf) as [->|(n & d & Hs & _)]; [done|]. by destruct (Hns n d).
Qed.
Print Assumptions C90_linearizable.

(** They race no more than the calls without faults. *)
Theorem C90_no_race :
  forall f cs s ts s',
    r_imu s = rw_free -> r_amu s = rw_free -> without_rename cs \/ without_unalias cs ->
    rtc pstep (Pool (fstart f cs) s) (Pool ts s') -> ~ race_between ts.
Proof.
  intros f cs s ts s' E1 E2 Hc Hr (i & j & ti & tj & gi & gj & l & wi & wj & Hi & Hj & Hne & Hl & Ai & Aj & Hw).
  destruct (fstart_reach _ _ _ _ _ Hr) as (ts0 & H1 & H2 & _).
  destruct (Forall2_lookup_r _ _ _ _ _ H2 Hi) as (ti0 & Hi0 & Si), (Forall2_lookup_r _ _ _ _ _ H2 Hj) as (tj0 & Hj0 & Sj).
  assert (Hc' : without_rename (tamed f <$> cs) \/ without_unalias (tamed f <$> cs)).
  { destruct Hc as [Hc|Hc]; [left; intros a b Hin|right; intros a b Hin]; apply elem_of_list_fmap in Hin as (c & E & Hin);
      destruct c; try done; simpl in E; simplify_eq; by eapply Hc. }
  apply (C49_no_race_between_calls _ _ _ _ E1 E2 Hc' H1).
  exists i, j, ti0, tj0, gi, gj, l, wi, wj. split_and!; try done; by eapply stalled_access.
Qed.
Print Assumptions C90_no_race.

Lemma struck_state f cs s ts s' i n d :
  r_imu s = rw_free -> r_amu s = rw_free ->
  rtc pstep (Pool (fstart f cs) s) (Pool ts s') -> struck cs ts i n d ->
  exists ts0 gh g, rtc pstep (Pool (start (tamed f <$> cs)) s) (Pool ts0 s') /\ Forall2 (stalledT f) ts0 ts /\
    pool_inv Any (leaks_of (tamed f <$> cs)) gh ts0 s' /\ gh !! i = Some (g, (HW, HN)) /\
    r_imu s' = MkRW 0 false true.
Proof.
  intros E1 E2 Hr [Hc Hi]. destruct (fstart_reach _ _ _ _ _ Hr) as (ts0 & H1 & H2 & Hl).
  destruct (pool_reach Any _ s _ E1 E2 (any_allowed _) H1) as [gh Hp].
  destruct (Forall2_lookup_r _ _ _ _ _ H2 Hi) as (t0 & Hi0 & Hst).
  destruct (lookup_lt_is_Some_2 gh i) as [[g h] Hg]; [rewrite (pi_len _ _ _ _ _ Hp); by eapply lookup_lt_Some|].
  assert (Hc' : (tamed f <$> cs) !! i = Some (CPut n d)) by (by rewrite list_lookup_fmap, Hc).
  assert (h = (HW, HN)) as ->.
  { eapply struck_holds; [exact Hst|exact (okput_reach _ _ _ _ _ _ _ _ H1 Hc' Hi0)|apply (pi_thr _ _ _ _ _ Hp _ _ _ _ Hi0 Hg)|].
    intros (c & Hc'' & Hm). rewrite Hc' in Hc''. by simplify_eq. }
  exists ts0, gh, g. split_and!; try done.
  destruct (pi_lock _ _ _ _ _ Hp MI) as [K1 K2 K3 K4 K5]. simpl in *.
  assert (0 < cnt HW ((fun x : bool * held => x.2.1) <$> gh)) by (eapply cnt_pos; by rewrite list_lookup_fmap, Hg).
  destruct (r_imu s') as [r p w]. simpl in *. destruct p, w; simpl in *; try lia. rewrite K1, K5 by lia. done.
Qed.

(** Once a Put has panicked the table of indices is locked for ever: whatever runs,
    it keeps its contents, the Put does not go on, and the calls that ask for the
    lock, and those that have not begun and will ask for it, stay where they are. *)
Theorem C90_locked_for_ever :
  forall f cs s ts s' i n d,
    r_imu s = rw_free -> r_amu s = rw_free ->
    rtc pstep (Pool (fstart f cs) s) (Pool ts s') -> struck cs ts i n d ->
    r_imu s' = MkRW 0 false true /\
    forall ts2 s2, rtc pstep (Pool ts s') (Pool ts2 s2) ->
      struck cs ts2 i n d /\ r_I s2 = r_I s' /\ r_imu s2 = r_imu s' /\
      (forall j t, ts !! j = Some t -> waits_for MI t -> ts2 !! j = Some t) /\
      (forall j c, cs !! j = Some c -> ~ alias_only c ->
         ts !! j = Some (TRun (faulty f (prog_of c))) -> ts2 !! j = Some (TRun (faulty f (prog_of c)))).
Proof.
  intros f cs s ts s' i n d E1 E2 Hr Hs.
  assert (Em : r_imu s' = MkRW 0 false true) by (by destruct (struck_state _ _ _ _ _ _ _ _ E1 E2 Hr Hs) as (? & ? & ? & _ & _ & _ & _ & ?)).
  split; [done|]. intros ts2 s2 Hr2.
  assert (H : rtc pstep (Pool (fstart f cs) s) (Pool ts2 s2) /\ struck cs ts2 i n d /\ r_I s2 = r_I s' /\ r_imu s2 = r_imu s' /\
    forall j t, ts !! j = Some t -> waits_for MI t -> ts2 !! j = Some t).
  { refine (rtc_ind_r (R := pstep) (fun p => match p with Pool ts2 s2 =>
      rtc pstep (Pool (fstart f cs) s) (Pool ts2 s2) /\ struck cs ts2 i n d /\ r_I s2 = r_I s' /\ r_imu s2 = r_imu s' /\
      forall j t, ts !! j = Some t -> waits_for MI t -> ts2 !! j = Some t | PCrashed => True end) _ _ _ (Pool ts2 s2) Hr2).
    - by split_and!.
    - intros y z _ Hst IH. inversion Hst as [ts3 s3 j t t' s4 Hj Ht|]; simplify_eq; [|done].
      destruct IH as (Hr3 & Hs3 & EI & Emu & Hw).
      destruct (struck_state _ _ _ _ _ _ _ _ E1 E2 Hr3 Hs3) as (ts0 & gh & g & H1 & H2 & Hp & Hg & _).
      assert (Hne : j <> i). { intros ->. destruct Hs3 as [_ Hi]. rewrite Hi in Hj. simplify_eq. inversion Ht. }
      destruct (Forall2_lookup_r _ _ _ _ _ H2 Hj) as (t0 & Hj0 & Hstl).
      destruct (stalled_step _ _ _ _ _ _ Hstl Ht) as (t0' & Ht0 & _).
      destruct (lookup_lt_is_Some_2 gh j) as [[gj hj] Hgj]; [rewrite (pi_len _ _ _ _ _ Hp); by eapply lookup_lt_Some|].
      destruct (pi_thr _ _ _ _ _ Hp _ _ _ _ Hj0 Hgj) as [Hd _].
      assert (Hh : hj.1 = HN).
      { destruct (pool_inv_compat _ _ _ _ _ _ _ _ _ _ _ Hp Hg Hgj (not_eq_sym Hne)) as [[C _] _]. simpl in C. specialize (C I).
        destruct (pi_lock _ _ _ _ _ Hp MI) as [_ _ _ K4 _]. simpl in K4.
        assert (0 < cnt HW ((fun x : bool * held => x.2.1) <$> gh)) by (eapply cnt_pos; by rewrite list_lookup_fmap, Hg).
        destruct (hj.1) eqn:E; try done.
        assert (0 < cnt HP ((fun x : bool * held => x.2.1) <$> gh)) by (eapply (cnt_pos _ _ j); rewrite list_lookup_fmap, Hgj; simpl; by rewrite E).
        lia. }
      destruct (frozen_step _ _ _ _ _ _ _ Hd Hh ltac:(rewrite Emu, Em; done) Ht0) as [F1 F2].
      split_and!.
      + by eapply rtc_r.
      + destruct Hs3 as [? Hi]. split; [done|]. by rewrite list_lookup_insert_ne.
      + congruence.
      + congruence.
      + intros j' t1 Hj' Hwt. destruct (decide (j = j')) as [<-|]; [|rewrite list_lookup_insert_ne by done; by apply Hw].
        exfalso. rewrite (Hw _ _ Hj' Hwt) in Hj. simplify_eq.
        destruct Hwt as [k [->| ->]]; inversion Ht; simplify_eq; simpl in *; rewrite Emu, Em in *; done. }
  destruct H as (_ & H1 & H2 & H3 & H4). split_and!; try done.
  intros j c Hc Ha Hj. apply H4; [done|]. destruct (locked_start c Ha) as [k [E|E]]; rewrite E; eexists; [by left|by right].
Qed.
Print Assumptions C90_locked_for_ever.

(** Nothing else gets stuck: unless an UnAlias returned with a lock, some call can take
    a step, or every call has finished or asks for the table that a Put has locked. *)
Theorem C90_no_deadlock :
  forall f cs s ts s',
    r_imu s = rw_free -> r_amu s = rw_free ->
    rtc pstep (Pool (fstart f cs) s) (Pool ts s') -> ~ left_behind cs ts ->
    (exists p, pstep (Pool ts s') p) \/
    forall i t, ts !! i = Some t -> finished t \/ (waits_for MI t /\ exists j n d, struck cs ts j n d).
Proof.
  intros f cs s ts s' E1 E2 Hr Hlb.
  destruct (step_or_all_stuck ts s') as [(i & t & [t' s1|] & Hi & Hx)|Hall].
  { left. eexists. by eapply P_step. }
  { left. eexists. by eapply P_crash. }
  right.
  assert (Hdec : (exists j n d, struck cs ts j n d) \/ forall j n d, ~ struck cs ts j n d).
  { clear. revert cs. induction ts as [|t ts IH]; intros cs; [right; by intros j n d [_ ?]|].
    destruct cs as [|c cs]; [right; by intros j n d [? _]|].
    destruct (IH cs) as [(j & n & d & H)|H]; [left; by exists (S j), n, d|].
    assert (Hh : (exists n d, c = CPut n d /\ t = TRun Throw) \/ forall n d, ~ (c = CPut n d /\ t = TRun Throw)).
    { destruct c; try (right; by intros ? ? [? _]). destruct t as [[]| | |]; try (right; by intros ? ? [_ ?]). left. eauto. }
    destruct Hh as [(n & d & -> & ->)|Hh]; [left; by exists 0, n, d|].
    right. intros [|j] n d [Hc Ht]; simplify_eq/=; [by apply (Hh n d)|]. by apply (H j n d). }
  assert (Hlb0 : forall ts0, Forall2 (stalledT f) ts0 ts -> ~ left_behind (tamed f <$> cs) ts0).
  { intros ts0 H2 (i & a & x & Hc & Hx & Hi). apply Hlb. exists i, a, x. split_and!; [|done|].
    - rewrite list_lookup_fmap in Hc. destruct (cs !! i) as [c|]; [|done]. destruct c; simplify_eq/=; done.
    - destruct (Forall2_lookup_l _ _ _ _ _ H2 Hi) as (t & Ht & Hst). inversion Hst as [? ? Hp| | | |]; simplify_eq. by inversion Hp; simplify_eq. }
  destruct Hdec as [(j & n & d & Hs)|Hns].
  - destruct (struck_state _ _ _ _ _ _ _ _ E1 E2 Hr Hs) as (ts0 & gh & g & H1 & H2 & Hp & Hg & Em).
    specialize (Hlb0 _ H2).
    destruct (Hp) as [P1 P2 P3].
    assert (Hthr : forall i g h, gh !! i = Some (g, h) -> i = j \/
      exists t t0, ts !! i = Some t /\ ts0 !! i = Some t0 /\ ((finished t /\ h = none_held) \/ stuck s' t0)).
    { intros i g1 h1 Hg1. destruct (decide (i = j)) as [|Hne]; [by left|right].
      destruct (lookup_lt_is_Some_2 ts0 i) as [t0 Hi0]; [rewrite <- P1; by eapply lookup_lt_Some|].
      destruct (Forall2_lookup_l _ _ _ _ _ H2 Hi0) as (t & Hi & Hst). exists t, t0. split_and!; [done..|].
      destruct (Hall _ _ Hi) as [Hf|Hstk]; [|right; by eapply stalled_stuck].
      assert (Hl : length ts0 = length cs) by (destruct (fstart_reach _ _ _ _ _ Hr) as (ts1 & _ & H3 & <-);
        rewrite (Forall2_length _ _ _ H2); symmetry; by eapply Forall2_length).
      destruct (stalled_finished f cs s ts0 ts s' i t0 t H1 Hl Hi0 Hi Hst) as [_ HF].
      left. split; [done|]. destruct (HF Hf) as [->|(n' & d' & Hs' & _)].
      - by eapply finished_free.
      - exfalso. destruct (struck_state _ _ _ _ _ _ _ _ E1 E2 Hr Hs') as (_ & _ & _ & _ & _ & _ & _ & _).
        destruct (P2 _ _ _ _ Hi0 Hg1) as [Hd _].
        destruct Hs' as [Hc' Ht']. rewrite Hi in Ht'. simplify_eq.
        assert (Hc'' : (tamed f <$> cs) !! i = Some (CPut n' d')) by (by rewrite list_lookup_fmap, Hc').
        assert (h1 = (HW, HN)) as ->.
        { eapply struck_holds; [exact Hst|exact (okput_reach _ _ _ _ _ _ _ _ H1 Hc'' Hi0)|exact Hd|].
          intros (c & Hc3 & Hm). rewrite Hc'' in Hc3. by simplify_eq. }
        destruct (pool_inv_compat _ _ _ _ _ _ _ _ _ _ _ Hp Hg1 Hg Hne) as [[C _] _]. by specialize (C I). }
    assert (HA : forall i g h, gh !! i = Some (g, h) -> h.2 <> HN -> exists k, ts0 !! i = Some (TPend MA k) /\ h.2 = HP /\ rw_readers (r_amu s') <> 0).
    { intros i g1 h1 Hg1 Hh. destruct (Hthr _ _ _ Hg1) as [->|(t & t0 & Hi & Hi0 & [[_ ->]|Hstk])]; [|done|].
      - rewrite Hg in Hg1. by simplify_eq.
      - destruct (P2 _ _ _ _ Hi0 Hg1) as [Hd _].
        destruct (stuck_cases _ _ Hstk) as (m & k & [[[->| ->] _]|[-> Hw]]); simpl in Hd.
        + by destruct Hd as (_ & _ & ? & _).
        + by destruct Hd as (_ & _ & ? & _).
        + destruct Hd as (_ & E & E' & _). destruct m; [by rewrite E' in Hh|]. by exists k. }
    assert (Hex : forall x, 0 < cnt x ((fun y : bool * held => get_h MA y.2) <$> gh) -> exists i g h, gh !! i = Some (g, h) /\ h.2 = x).
    { intros x Hc. apply cnt_ex in Hc as [i Hi]. apply list_lookup_fmap_inv in Hi as ([g1 h1] & -> & Hi). by exists i, g1, h1. }
    pose proof (P3 MA) as [K1 K2 K3 _ _]. simpl in *.
    assert (EA1 : rw_readers (r_amu s') = 0).
    { destruct (rw_readers (r_amu s')) eqn:E; [done|]. exfalso. destruct (Hex HR) as (i & g1 & h1 & Hg1 & Eh); [lia|].
      destruct (HA _ _ _ Hg1) as (k & _ & ? & _); [by rewrite Eh|]. congruence. }
    assert (EA2 : rw_writer (r_amu s') = false).
    { destruct (rw_writer (r_amu s')) eqn:E; [|done]. exfalso. destruct (Hex HW) as (i & g1 & h1 & Hg1 & Eh); [simpl in *; lia|].
      destruct (HA _ _ _ Hg1) as (k & _ & ? & _); [by rewrite Eh|]. congruence. }
    assert (EA3 : rw_pending (r_amu s') = false).
    { destruct (rw_pending (r_amu s')) eqn:E; [|done]. exfalso. destruct (Hex HP) as (i & g1 & h1 & Hg1 & Eh); [simpl in *; lia|].
      destruct (HA _ _ _ Hg1) as (k & _ & _ & Hw); [by rewrite Eh|]. done. }
    intros i t Hi. destruct (Hall _ _ Hi) as [|Hstk]; [by left|]. right. split; [|eauto].
    destruct (stuck_cases _ _ Hstk) as (m & k & [[Et Hw]|[-> Hw]]); destruct m; simpl in *.
    + exists k. naive_solver.
    + destruct Hw; congruence.
    + rewrite Em in Hw. done.
    + done.
  - destruct (fstart_reach _ _ _ _ _ Hr) as (ts0 & H1 & H2 & Hl). specialize (Hlb0 _ H2).
    intros i t Hi. left. destruct (Hall _ _ Hi) as [|Hstk]; [done|]. exfalso.
    destruct (Forall2_lookup_r _ _ _ _ _ H2 Hi) as (t0 & Hi0 & Hst).
    pose proof (stalled_stuck _ _ _ _ Hst Hstk) as [Hnf _].
    destruct (C48_no_deadlock _ _ _ _ E1 E2 H1 Hlb0) as [Hf|[p Hpst]].
    + apply Hnf. by eapply Forall_lookup_1 in Hf.
    + assert (Hone : exists j tj x, ts0 !! j = Some tj /\ tstep s' tj x) by (inversion Hpst; simplify_eq; eauto).
      destruct Hone as (j & tj & x & Hj0 & Hx). destruct (Forall2_lookup_l _ _ _ _ _ H2 Hj0) as (t1 & Hj & Hst1).
      destruct (Hall _ _ Hj) as [Hf|Hstk1].
      * destruct (stalled_finished f cs s ts0 ts s' j tj t1 H1 Hl Hj0 Hj Hst1) as [_ HF].
        destruct (HF Hf) as [->|(n & d & Hs & _)]; [|by apply (Hns j n d)].
        destruct tj as [pp| | |]; try done. destruct pp; try done; inversion Hx.
      * pose proof (stalled_stuck _ _ _ _ Hst1 Hstk1) as [_ Hno]. by apply (Hno x).
Qed.
Print Assumptions C90_no_deadlock.

(** The tokenizer panics on a quote.  A Put to "p" has returned; a Put of "it's" to
    "n" has panicked, an empty index "n" has appeared, a List waits for ever; HasAlias
    can go on. *)
Example C90_example :
  exists cs ts s' k,
    tracks true letters Properties_Conc.fresh new_view /\ unblocked new_view /\ gentle new_view (tamed quote_fault <$> cs) /\
    rtc pstep (Pool (fstart quote_fault cs) Properties_Conc.fresh) (Pool ts s') /\ struck cs ts 1 "n" dQ /\
    ts = [TRun (Ret RUnit); TRun Throw; TRun (RLock MI k); TRun (prog_of (CHasAlias "x"))] /\
    i_map (r_I s') !! "n" = Some 1 /\ ~ left_behind cs ts /\ exists p, pstep (Pool ts s') p.
Proof.
  set (cs := [CPut "p" dA; CPut "n" dQ; CList; CHasAlias "x"]).
  set (l := steps 0 12 ++ steps 1 12).
  pose proof (run_sound l (fstart quote_fault cs) Properties_Conc.fresh) as Hr.
  assert (exists k, (run l (fstart quote_fault cs) Properties_Conc.fresh).1 =
    [TRun (Ret RUnit); TRun Throw; TRun (RLock MI k); TRun (prog_of (CHasAlias "x"))]) as [k Ek] by (eexists; calc).
  assert (i_map (r_I (run l (fstart quote_fault cs) Properties_Conc.fresh).2) !! "n" = Some 1) as E2 by calc.
  assert (r_amu (run l (fstart quote_fault cs) Properties_Conc.fresh).2 = rw_free) as E3 by calc.
  generalize dependent (run l (fstart quote_fault cs) Properties_Conc.fresh). intros [ts s'] Hr Ek E2 E3. cbn [fst snd] in *.
  exists cs, ts, s', k. split_and!; try done.
  - apply tracks_new.
  - intros i j c c' Hne Hi Hj. destruct i as [|[|[|[|i]]]]; try done; injection Hi as <-;
      destruct j as [|[|[|[|j]]]]; try done; injection Hj as <-; try done; vm_compute; by intros ?.
  - by rewrite Ek.
  - intros (i & a & x & Hi & _). by destruct i as [|[|[|[|i]]]].
  - eexists. eapply (P_step _ _ 3); [by rewrite Ek|]. eapply S_RLock; [exact E3|done..].
Qed.
