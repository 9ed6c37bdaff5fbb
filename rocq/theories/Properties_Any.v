(** * Property C91: the repository with any implementation of Index. *)
From Coq Require Import Lia.
From stdpp Require Import gmap list.
From Verif Require Import Entities Search SpecSearch Properties_Search Repo Sem RepoWp SpecRepo
  ProofRepo ProofTotal ProofReach Properties_Repo SpecConc Locks Race ProofRace Reduce ProofConc ProofSim Run
  Properties_Conc SpecLin ProofMachine ProofLin Properties_Lin AnyIndex SpecAny ProofAny ProofAnySpec.
Open Scope nat_scope.
Open Scope string_scope.
Open Scope list_scope.

(** ** One call alone *)
Lemma single_pool t s p :
  rtc pstep (Pool [t] s) p ->
  match p with
  | Pool ts s' => exists t', ts = [t'] /\ rtc sstep (t, s) (t', s')
  | PCrashed => exists t' s', rtc sstep (t, s) (t', s') /\ tstep s' t' TCrash
  end.
Proof.
  intros Hr.
  refine (rtc_ind_r (R := pstep) (fun p => match p with
  | Pool ts s' => exists t', ts = [t'] /\ rtc sstep (t, s) (t', s')
  | PCrashed => exists t' s', rtc sstep (t, s) (t', s') /\ tstep s' t' TCrash
  end) _ _ _ _ Hr).
  - exists t. by split; [|apply rtc_refl].
  - intros y z _ Hs IH. inversion Hs as [ts s1 i t1 t2 s2 Hi Ht|ts s1 i t1 Hi Ht]; simplify_eq;
      destruct IH as (t' & -> & IH); destruct i as [|i]; simplify_eq/=.
    + exists t2. split; [done|]. by eapply rtc_r; [done|constructor].
    + by eauto.
Qed.
Lemma single_lift t s t' s' : rtc sstep (t, s) (t', s') -> rtc pstep (Pool [t] s) (Pool [t'] s').
Proof.
  intros H. remember (t, s) as a eqn:Ea. remember (t', s') as b eqn:Eb. revert t s Ea.
  induction H as [a|a b' c Hab Hbc IH]; intros t s ->; simplify_eq; [apply rtc_refl|].
  inversion Hab as [? ? t1 s1 Ht]; simplify_eq. eapply rtc_l; [|by apply IH].
  by apply (P_step [t] s 0 t t1 s1).
Qed.

Section Any.
Context (im : implementation).
Notation rel := (rel im). Notation encc := (encc im).

Definition rmatch (gr : gresult im) (r : result) : Prop :=
  match gr, r with
  | GDone _ x gs, Done x' s => likeR x x' /\ rel gs s /\ tab [] s
  | GPanicked _ gs, Panicked s => rel gs s /\ tab [] s
  | GKilled _, Crashed => True
  | GBlocked _, Blocked => True
  | _, _ => False
  end.

Lemma like_ret m x p : like im m (Ret x) p -> exists x', p = Ret x' /\ likeR x x'.
Proof. intros H. inversion H; simplify_eq. eauto. Qed.
Lemma like_ret_r m x p : like im m p (Ret x) -> exists x', p = Ret x' /\ likeR x' x.
Proof. intros H. inversion H; simplify_eq. eauto. Qed.
Lemma tab_done t s : tab [t] s -> finished t -> tab [] s.
Proof.
  intros Ht Hf n p Hp. destruct (Ht n p Hp) as [?|([|j] & d & k & Hj)]; [by left| |done]. by simplify_eq/=.
Qed.
Lemma alone_excl t s ts1 s1 : rtc pstep (Pool [t] s) (Pool ts1 s1) -> excl ts1.
Proof. intros Hr. destruct (single_pool _ _ _ Hr) as (t' & -> & _). apply excl_one. Qed.

Lemma psim_single cs t gs ts s : psim im cs [t] gs ts s -> exists t' c, ts = [t'] /\ cs !! 0 = Some c /\ likeT im (nm c) t t'.
Proof.
  intros [_ _ HL HS]. destruct ts as [|t' [|]]; try done. destruct (HS 0 t t' eq_refl eq_refl) as (c & Hc & Hl & _).
  by exists t', c.
Qed.

Lemma call_fwd c gs s gr :
  rel gs s -> tab [] s -> gcall_result im c gs gr -> exists r, call_result (encc c) s r /\ rmatch gr r.
Proof.
  intros HR HT Hc. pose proof (start_psim im [c] gs s HR HT) as HP.
  assert (Hx : forall ts1 s1, rtc pstep (Pool (start (encc <$> [c])) s) (Pool ts1 s1) -> excl ts1).
  { intros ts1 s1. apply alone_excl. }
  destruct Hc as [x gs' Hr|gs' Hr|Hr|t gs' Hr Hf Hb]; destruct (psim_rtc_fwd im [c] _ gs _ s _ HP Hx Hr) as (p & Hp & Hm);
    destruct p as [ts s'|]; simpl in Hm; try done.
  - destruct (psim_single _ _ _ _ _ Hm) as (t' & c' & -> & _ & Hl). inversion Hl as [? p' Hlp| | |]; simplify_eq.
    destruct (like_ret _ _ _ Hlp) as (x' & -> & Hx').
    destruct (single_pool _ _ _ Hp) as (? & ? & Hs); simplify_eq.
    exists (Done x' s'). split; [by constructor|]. split_and!; [done|apply Hm|]. by eapply tab_done; [apply Hm|].
  - destruct (psim_single _ _ _ _ _ Hm) as (t' & c' & -> & _ & Hl). inversion Hl as [? p' Hlp| | |]; simplify_eq.
    inversion Hlp; simplify_eq.
    destruct (single_pool _ _ _ Hp) as (? & ? & Hs); simplify_eq.
    exists (Panicked s'). split; [by constructor|]. split_and!; [apply Hm|]. by eapply tab_done; [apply Hm|].
  - destruct (single_pool _ _ _ Hp) as (t' & s' & Hs & Hcr). exists Crashed. split; [by econstructor|done].
  - destruct (psim_single _ _ _ _ _ Hm) as (t' & c' & -> & _ & Hl).
    destruct (single_pool _ _ _ Hp) as (? & ? & Hs); simplify_eq.
    exists Blocked. split; [|done]. econstructor; [done|..].
    + intros Hf'. apply Hf. inversion Hl as [? ? Hlp| | |]; simplify_eq; try done. inversion Hlp; simplify_eq; done.
    + intros y Hy. destruct y as [t2 s2|].
      * destruct (psim_bwd im _ _ _ _ _ (Pool [t2] s2) Hm (excl_one _)) as (gp & Hgp & _);
          [by apply (P_step [x] s' 0 x t2 s2 eq_refl Hy)|by apply (Hb gp)].
      * destruct (psim_bwd im _ _ _ _ _ PCrashed Hm (excl_one _)) as (gp & Hgp & _);
          [by apply (P_crash [x] s' 0 x eq_refl Hy)|by apply (Hb gp)].
Qed.

Lemma call_bwd c gs s r :
  rel gs s -> tab [] s -> call_result (encc c) s r -> exists gr, gcall_result im c gs gr /\ rmatch gr r.
Proof.
  intros HR HT Hc. pose proof (start_psim im [c] gs s HR HT) as HP.
  assert (Hx : forall ts1 s1, rtc pstep (Pool (start (encc <$> [c])) s) (Pool ts1 s1) -> excl ts1).
  { intros ts1 s1. apply alone_excl. }
  destruct Hc as [x s' Hr|s' Hr|t s' Hr Ht|t s' Hr Hf Hb]; apply single_lift in Hr.
  - destruct (psim_rtc_bwd im [c] _ gs _ s _ HP Hx Hr) as ([gts gs'|] & Hp & Hm); simpl in Hm; [|done].
    destruct gts as [|t [|]]; try (by destruct Hm). destruct (psim_single _ _ _ _ _ Hm) as (t' & c' & ? & _ & Hl); simplify_eq.
    inversion Hl as [p ? Hlp| | |]; simplify_eq. destruct (like_ret_r _ _ _ Hlp) as (x0 & -> & Hx').
    exists (GDone im x0 gs'). split; [by constructor|]. split_and!; [done|apply Hm|]. by eapply tab_done; [apply Hm|].
  - destruct (psim_rtc_bwd im [c] _ gs _ s _ HP Hx Hr) as ([gts gs'|] & Hp & Hm); simpl in Hm; [|done].
    destruct gts as [|t [|]]; try (by destruct Hm). destruct (psim_single _ _ _ _ _ Hm) as (t' & c' & ? & _ & Hl); simplify_eq.
    inversion Hl as [p ? Hlp| | |]; simplify_eq. inversion Hlp; simplify_eq.
    exists (GPanicked im gs'). split; [by constructor|]. split_and!; [apply Hm|]. by eapply tab_done; [apply Hm|].
  - assert (Hr' : rtc pstep (Pool (start (encc <$> [c])) s) PCrashed).
    { eapply rtc_r; [exact Hr|]. by apply (P_crash [t] s' 0 t eq_refl Ht). }
    destruct (psim_rtc_bwd im [c] _ gs _ s _ HP Hx Hr') as ([gts gs'|] & Hp & Hm); simpl in Hm; [done|].
    exists (GKilled im). split; [by constructor|done].
  - destruct (psim_rtc_bwd im [c] _ gs _ s _ HP Hx Hr) as ([gts gs'|] & Hp & Hm); simpl in Hm; [|done].
    destruct gts as [|gt [|]]; try (by destruct Hm). destruct (psim_single _ _ _ _ _ Hm) as (t' & c' & ? & _ & Hl); simplify_eq.
    exists (GBlocked im). split; [|done]. econstructor; [done|..].
    + intros Hf'. apply Hf. inversion Hl as [? ? Hlp| | |]; simplify_eq; try done. inversion Hlp; simplify_eq; done.
    + intros y Hy. destruct (psim_fwd im _ _ _ _ _ _ Hm (excl_one _) Hy) as (p & Hp' & _).
      inversion Hp' as [? ? i ? ? ? Hi Hi'|? ? i ? Hi Hi']; destruct i; simplify_eq/=; by eapply Hb.
Qed.

(** ** Histories *)
Definition tied (gs : grepo im) (gv : gview) : Prop :=
  exists s v, tracks true tk0 s v /\ rel gs s /\ tab [] s /\ solid v /\ veq im (gof v) gv.

Lemma see_like gs s x x' : rel gs s -> likeR x x' ->
  gsee im gs x = see s x' \/ exists t t', gsee im gs x = OText t /\ see s x' = OText t'.
Proof.
  intros HR [->|(t & t' & -> & ->)]; [left|right; by eauto]. destruct x'; try done. simpl. by rewrite (rel_A _ _ _ HR).
Qed.
Lemma gspec_see c gv gs s x x' v' : rel gs s -> likeR x x' ->
  gspec im c gv (GODone (see s x') v') -> gspec im c gv (GODone (gsee im gs x) v').
Proof. intros HR Hx. destruct (see_like _ _ _ _ HR Hx) as [->|(t & t' & -> & ->)]; [done|]. by apply gspec_text. Qed.

Lemma tied_step c gs gv gr :
  tied gs gv -> gcall_result im c gs gr ->
  match gr with
  | GDone _ x gs' => exists gv', gspec im c gv (GODone (gsee im gs' x) gv') /\ tied gs' gv'
  | GPanicked _ gs' => exists gv', gspec im c gv (GOPanic gv') /\ tied gs' gv'
  | GKilled _ => gspec im c gv GOCrash
  | GBlocked _ => gspec im c gv GOBlock
  end.
Proof.
  intros (s & v & Ht & HR & HT & Hs & Hv) Hc. destruct (call_fwd _ _ _ _ HR HT Hc) as (r & Hr & Hm).
  destruct (C29_calls_refine true tk0 s v (encc c) Ht) as [_ H]. specialize (H r Hr).
  destruct gr as [x gs'|gs'| |], r as [x' s'|s'| |]; simpl in Hm; try done.
  - destruct H as (v' & Hs1 & Ht'), Hm as (Hx & HR' & HT'). destruct (spec_fwd im _ _ _ Hs Hs1) as [H1 H2].
    destruct (gspec_cong im _ _ _ _ Hv H1) as ([b v2|v2| |] & H3 & H4); try done. destruct H4 as [<- H4].
    exists v2. split; [by eapply gspec_see|]. by exists s', v'.
  - destruct H as (v' & Hs1 & Ht'), Hm as (HR' & HT'). destruct (spec_fwd im _ _ _ Hs Hs1) as [H1 H2].
    destruct (gspec_cong im _ _ _ _ Hv H1) as ([b v2|v2| |] & H3 & H4); try done.
    exists v2. split; [done|]. by exists s', v'.
  - destruct (spec_fwd im _ _ _ Hs H) as [H1 _]. by destruct (gspec_cong im _ _ _ _ Hv H1) as ([b v2|v2| |] & H3 & H4).
  - destruct (spec_fwd im _ _ _ Hs H) as [H1 _]. by destruct (gspec_cong im _ _ _ _ Hv H1) as ([b v2|v2| |] & H3 & H4).
Qed.

Lemma tied_free gs gv : tied gs gv -> gunblocked gv ->
  exists s v, tracks true tk0 s v /\ rel gs s /\ tab [] s /\ solid v /\ veq im (gof v) gv /\ unblocked v /\
    r_imu s = rw_free /\ r_amu s = rw_free.
Proof.
  intros (s & v & Ht & HR & HT & Hs & Hv) Hu. exists s, v.
  assert (unblocked v) by (destruct Hv as [_ _ V3 V4], Hu; split; simpl in *; congruence).
  destruct (init_view false true tk0 s v (reach_shape _ _ _ _ _ Ht) ltac:(done) ltac:(done)) as (w & _ & _ & E1 & E2).
  done.
Qed.
Lemma free_excl cs s :
  r_imu s = rw_free -> r_amu s = rw_free ->
  forall ts1 s1, rtc pstep (Pool (start cs) s) (Pool ts1 s1) -> excl ts1.
Proof.
  intros E1 E2 ts1 s1 Hr. destruct (pool_reach Any cs s _ E1 E2 (any_allowed _) Hr) as [gh Hp].
  by eapply pool_inv_excl.
Qed.

Lemma pool_fwd cs gs gv gp :
  tied gs gv -> gunblocked gv -> rtc (gpstep im) (GPool im (start cs) gs) gp ->
  exists s v p, tracks true tk0 s v /\ solid v /\ veq im (gof v) gv /\ unblocked v /\ r_imu s = rw_free /\ r_amu s = rw_free /\
    rtc pstep (Pool (start (encc <$> cs)) s) p /\ pmatch im cs gp p.
Proof.
  intros Hg Hu Hr. destruct (tied_free _ _ Hg Hu) as (s & v & Ht & HR & HT & Hs & Hv & Hu' & E1 & E2).
  destruct (psim_rtc_fwd im cs _ gs _ s gp (start_psim im cs gs s HR HT) (free_excl _ _ E1 E2) Hr) as (p & Hp & Hm).
  by exists s, v, p.
Qed.

Lemma likeT_finished m t t' : likeT im m t t' -> finished t <-> finished t'.
Proof. intros [p p' []| | |]; simpl; tauto. Qed.
Lemma psim_finished cs gts gs ts s : psim im cs gts gs ts s -> Forall finished gts <-> Forall finished ts.
Proof.
  intros [_ _ HL HS]. rewrite !Forall_lookup. split; intros H i t Hi.
  - destruct (lookup_lt_is_Some_2 gts i) as [t' Hi']; [rewrite HL; by eapply lookup_lt_Some|].
    destruct (HS _ _ _ Hi' Hi) as (c & _ & Hl & _). apply (likeT_finished _ _ _ Hl). by eapply H.
  - destruct (lookup_lt_is_Some_2 ts i) as [t' Hi']; [rewrite <- HL; by eapply lookup_lt_Some|].
    destruct (HS _ _ _ Hi Hi') as (c & _ & Hl & _). apply (likeT_finished _ _ _ Hl). by eapply H.
Qed.
Lemma encc_free cs : (without_rename cs -> without_rename (encc <$> cs)) /\ (without_unalias cs -> without_unalias (encc <$> cs)).
Proof.
  split; intros H a b Hin; apply elem_of_list_fmap in Hin as (c & E & Hin); destruct c; simpl in E; simplify_eq; by eapply H.
Qed.

Lemma stores_fwd gs s v : rel gs s -> solid v -> stores tk0 s v -> gshows im gs (gof v).
Proof.
  intros [[E1 E2 E3 E4 E5 E6] EA _ _] Hs [SI SA _ _].
  assert (forall n, match i_map (r_I s) !! n with
    | Some p => exists x reqs, gi_heap im (g_I im gs) !! p = Some x /\ v_idx v !! n = Some reqs /\ x = object im (dco reqs)
    | None => v_idx v !! n = None end) as K.
  { intros n. specialize (SI n). destruct (i_map (r_I s) !! n) as [p|]; [|done]. destruct SI as (nm & reqs & Hq & Hh).
    specialize (E6 p). rewrite Hh in E6. destruct (gi_heap im _ !! p) as [x|] eqn:Hx; [|done].
    exists x, reqs. split_and!; [done..|]. eapply orel_read; [done|]. by eapply Hs. }
  split; [| |by rewrite EA].
  - intros n. rewrite E1. simpl. rewrite lookup_fmap. specialize (K n). destruct (i_map (r_I s) !! n) as [p|]; simpl.
    + destruct K as (x & reqs & -> & -> & ->). done.
    + by rewrite K.
  - intros n. rewrite E1. simpl. rewrite lookup_fmap. specialize (K n). destruct (i_map (r_I s) !! n) as [p|]; simpl.
    + destruct K as (x & reqs & _ & -> & _). by split; eauto.
    + rewrite K. by split; intros [].
Qed.

Lemma tied_phase gs gv cs gts gs' :
  tied gs gv -> gunblocked gv -> separate cs ->
  rtc (gpstep im) (GPool im (start cs) gs) (GPool im gts gs') -> Forall finished gts ->
  exists s v, tracks true tk0 s v /\ rel gs' s /\ tab [] s /\ solid v /\ gshows im gs' (gof v) /\
    g_imu im gs' = MkRW (v_leakI v) false false /\ g_amu im gs' = MkRW 0 false (v_leakA v).
Proof.
  intros IH Hu Hsep Hr Hf.
  destruct (pool_fwd _ _ _ _ IH Hu Hr) as (s & v & [ts s'|] & Ht & Hs & Hv & Hu' & E1 & E2 & Hr' & Hm); [|done].
  simpl in Hm. pose proof (proj1 (psim_finished _ _ _ _ _ Hm) Hf) as Hf'.
  assert (Hsep' : separate (encc <$> cs)) by (destruct Hsep; [left|right]; by apply encc_free).
  destruct (phase_end _ _ _ _ _ _ _ (reach_shape _ _ _ _ _ Ht) Hu' Hsep' Hr' Hf') as (_ & _ & w & n & b & _ & _ & _ & _ & Hsh' & _).
  apply shape_stores in Hsh'. set (v1 := MkView _ _ n b) in *.
  assert (HT' : tab [] s').
  { intros m p Hp. destruct (ps_tab _ _ _ _ _ _ Hm m p Hp) as [?|(j & d & k & Hj)]; [by left|].
    by pose proof (Forall_lookup_1 _ _ _ _ Hf' Hj). }
  assert (Hs' : solid v1).
  { intros m ds Hm'. pose proof (st_idx _ _ _ Hsh' m) as Hd. destruct (i_map (r_I s') !! m) as [p|] eqn:Hp; [|congruence].
    destruct Hd as (nm & reqs & Hq & Hh). destruct (HT' m p Hp) as [(mi & Hh' & Hd)|(? & ? & ? & ?)]; [|done].
    rewrite Hh in Hh'. simplify_eq. rewrite docs_index_after in Hd. by intros ->. }
  exists s', v1. assert (g_imu im gs' = r_imu s' /\ g_amu im gs' = r_amu s') as [M1 M2] by (destruct Hm as [[] _ _ _]; done).
  split_and!; [by eapply R_together|apply Hm|done|done|eapply stores_fwd; [apply Hm|done|done]| |].
  - by rewrite M1, (st_imu _ _ _ Hsh').
  - by rewrite M2, (st_amu _ _ _ Hsh').
Qed.
Lemma greach_tied gs gv : greach im gs gv -> tied gs gv.
Proof.
  induction 1 as [|gs gv c x gs' gv' _ IH Hc Hg|gs gv c gs' gv' _ IH Hc Hg|gs gv cs gts gs' gv' _ IH Hu Hsep Hr Hf [Hsh Hi Ha]].
  - exists (NewIndexRepo true (NewMemoryIndexBuilder tk0)), new_view. split_and!.
    + apply tracks_new.
    + split; [|done..]. by split.
    + by intros n p Hp.
    + by intros n ds Hn.
    + by unfold gof, new_view, new_gview; simpl; rewrite fmap_empty.
  - destruct (tied_step _ _ _ _ IH Hc) as (gv1 & H1 & H2). by rewrite (gspec_det _ _ _ _ _ _ Hg H1).
  - destruct (tied_step _ _ _ _ IH Hc) as (gv1 & H1 & H2). by rewrite (gspec_det_panic _ _ _ _ _ Hg H1).
  - destruct (tied_phase _ _ _ _ _ IH Hu Hsep Hr Hf) as (s' & v1 & Ht & HR & HT & Hs & Hst & M1 & M2).
    exists s', v1. split_and!; [done..|]. rewrite M1 in Hi. rewrite M2 in Ha. simplify_eq.
    by eapply gshows_veq.
Qed.
End Any.

(** Whatever implements Index: every call comes to an end as the machine of SpecAny.v
    says, in which an index is a new object to which the documents have been put. *)
Theorem C91_refines :
  forall im s v c,
    greach im s v ->
    (exists res, gcall_result im c s res) /\
    forall res, gcall_result im c s res -> exists o, gspec im c v o /\ gmatch im res o.
Proof.
  intros im s v c Hg. pose proof (greach_tied im s v Hg) as Ht. split.
  - destruct Ht as (s0 & v0 & Ht & HR & HT & _). destruct (C29_calls_refine true tk0 s0 v0 (encc im c) Ht) as [[r Hr] _].
    destruct (call_bwd im _ _ _ _ HR HT Hr) as (gr & ? & _). by exists gr.
  - intros res Hres. pose proof (tied_step im _ _ _ _ Ht Hres) as H. destruct res as [x s'|s'| |].
    + destruct H as (v' & H1 & _). exists (GODone (gsee im s' x) v'). split; [done|]. split; [done|]. by eapply GR_done.
    + destruct H as (v' & H1 & _). exists (GOPanic v'). split; [done|]. by eapply GR_panic.
    + by exists GOCrash.
    + by exists GOBlock.
Qed.
Print Assumptions C91_refines.

(** Nothing the machine allows is impossible for the code (String aside, which prints
    the objects). *)
Theorem C91_exact :
  forall im s v c o,
    greach im s v -> (forall show, c <> CString show) -> gspec im c v o ->
    exists res, gcall_result im c s res /\ gmatch im res o.
Proof.
  intros im s v c o Hg Hc Ho. destruct (greach_tied im s v Hg) as (s0 & v0 & Ht & HR & HT & Hs & Hv).
  destruct (gspec_cong im c _ _ o (veq_sym _ _ _ Hv) Ho) as (o1 & Ho' & Hoo).
  apply (spec_iff im c v0 o1 Hs) in Ho' as (o0 & H0 & <-).
  assert (Hc' : forall show, encc im c <> CString show) by (by destruct c).
  pose proof (C29_machine_is_exact true tk0 s0 v0 (encc im c) o0 Ht Hc' H0) as Hx.
  destruct o0 as [b v'|v'| |]; simpl in Hx, Hoo; destruct o as [b1 v1|v1| |]; try done.
  - destruct Hoo as [-> _]. destruct Hx as (r & s' & Hr & <- & _). destruct (call_bwd im _ _ _ _ HR HT Hr) as ([x gs'| | |] & Hg' & Hm); try done.
    exists (GDone im x gs'). destruct Hm as (Hx & HR' & _). split; [done|].
    destruct (see_like im _ _ _ _ HR' Hx) as [E|(t & t' & _ & E)].
    + split; [by rewrite E|]. eapply GR_done; [done..|]. by rewrite E.
    + rewrite E in Ho. exfalso. clear -Ho Hc.
      destruct c as [| |n|a|a i|a i|n d|n q e|old new|n|show]; simpl in Ho; unfold gsearch_many in Ho;
        repeat case_match; naive_solver.
  - destruct Hx as (s' & Hr & _). destruct (call_bwd im _ _ _ _ HR HT Hr) as ([|gs'| |] & Hg' & Hm); try done.
    exists (GPanicked im gs'). split; [done|]. by eapply GR_panic.
  - destruct (call_bwd im _ _ _ _ HR HT Hx) as ([| | |] & Hg' & Hm); try done. by eexists.
  - destruct (call_bwd im _ _ _ _ HR HT Hx) as ([| | |] & Hg' & Hm); try done. by eexists.
Qed.
Print Assumptions C91_exact.

(** ** Calls issued at once *)
Section AtOnce.
Context (im : implementation).

Lemma likeT_access m t t' g l w : likeT im m t t' -> access t g l w -> access t' g l w.
Proof.
  intros Hl Ha. destruct Hl as [p p' Hp| | |]; [destruct Hp|..]; inversion Ha; simplify_eq; by econstructor.
Qed.
Lemma psim_access cs gts gs ts s i t g l w :
  psim im cs gts gs ts s -> gts !! i = Some t -> access t g l w -> exists t', ts !! i = Some t' /\ access t' g l w.
Proof.
  intros [_ _ HL HS] Hi Ha. destruct (lookup_lt_is_Some_2 ts i) as [t' Hi']; [rewrite <- HL; by eapply lookup_lt_Some|].
  exists t'. split; [done|]. destruct (HS _ _ _ Hi Hi') as (c & _ & Hl & _). by eapply likeT_access.
Qed.
Lemma same_entry (log : list (nat * view * view)) i vb va vb' va' :
  NoDup log.*1.*1 -> (i, vb, va) ∈ log -> (i, vb', va') ∈ log -> (i, vb, va) = (i, vb', va').
Proof.
  intros Hnd Hin Hin'. apply elem_of_list_lookup in Hin as [k Hk], Hin' as [k' Hk'].
  assert (k = k') as ->; [|congruence]. eapply (NoDup_lookup log.*1.*1 k k' i Hnd); by rewrite !list_lookup_fmap, ?Hk, ?Hk'.
Qed.
(** The log of views, read back. *)
Definition glog (log : list (nat * view * view)) : list (nat * gview * gview) :=
  (fun x => (x.1.1, gof x.1.2, gof x.2)) <$> log.
Lemma chain_fwd v log v' : chain v log v' -> gchain (gof v) (glog log) (gof v').
Proof. induction 1; simpl; by constructor. Qed.
Lemma chain_solid v log v' :
  chain v log v' -> solid v -> (forall i vb va, (i, vb, va) ∈ log -> solid vb -> solid va) ->
  solid v' /\ forall i vb va, (i, vb, va) ∈ log -> solid vb.
Proof.
  induction 1 as [v|i v v1 log v2 Hc IH]; intros Hs Hst.
  - split; [done|]. by intros ? ? ? Hin%elem_of_nil.
  - destruct IH as [H1 H2].
    + eapply (Hst i v); [left|done].
    + intros j vb va Hin. apply (Hst j). by right.
    + split; [done|]. intros j vb va [?|Hin]%elem_of_cons; simplify_eq; [done|by eapply H2].
Qed.
End AtOnce.

(** Whatever implements Index: calls that tolerate each other end, and leave the
    repo, as if they had been issued one after the other. *)
Theorem C91_serializable :
  forall im s v cs ts s',
    greach im s v -> gunblocked v -> calm (plain v) cs ->
    rtc (gpstep im) (GPool im (start cs) s) (GPool im ts s') -> Forall finished ts -> gserializable im v cs ts s'.
Proof.
  intros im gs gv cs gts gs' Hg Hu Hcalm Hr Hf.
  destruct (pool_fwd im _ _ _ _ (greach_tied _ _ _ Hg) Hu Hr) as (s & v & [ts s'|] & Ht & Hs & Hv & Hu' & E1 & E2 & Hr' & Hm); [|done].
  simpl in Hm. pose proof (proj1 (psim_finished im _ _ _ _ _ Hm) Hf) as Hf'.
  destruct (C58_serializable true tk0 s v _ ts s' Ht Hu' (calm_fwd im _ _ (veq_calm _ _ _ _ (veq_sym _ _ _ Hv) Hcalm)) Hr' Hf') as (log & v' & Hp & Hch & Hsh & Hthr).
  rewrite fmap_length in Hp.
  assert (Hnd : NoDup log.*1.*1) by (rewrite Hp; apply NoDup_seq).
  assert (Hlen : length ts = length cs).
  { refine (rtc_ind_r (R := pstep) (fun p => match p with Pool ts1 s1 => length ts1 = length cs | PCrashed => True end) _ _ _ _ Hr').
    - unfold start. by rewrite !fmap_length.
    - intros y z _ Hst IH. inversion Hst; simplify_eq; [|done]. by rewrite insert_length. }
  destruct (chain_solid v log v' Hch Hs) as [Hs' Hall].
  { intros i vb va Hin Hvb. assert (Hi : i ∈ log.*1.*1).
    { rewrite !elem_of_list_fmap. exists (i, vb). split; [done|]. rewrite elem_of_list_fmap. by exists (i, vb, va). }
    rewrite Hp, elem_of_seq in Hi. destruct (lookup_lt_is_Some_2 ts i) as [t Hti]; [lia|].
    pose proof (Forall_lookup_1 _ _ _ _ Hf' Hti) as Hfi. destruct t as [p| | |]; try done.
    destruct (Hthr _ _ Hti) as (c & a & vb' & va' & Hc & Hin' & He & _).
    assert ((i, vb, va) = (i, vb', va')) as E by (by eapply same_entry).
    simplify_eq. rewrite list_lookup_fmap in Hc. apply fmap_Some in Hc as (c0 & _ & ->). by eapply explained_fwd. }
  set (P := fun i c a => exists p, cs !! i = Some c /\ gts !! i = Some (TRun p) /\
    match p with Ret r => a = Returned (gsee im gs' r) | _ => p = Throw /\ a = Threw end).
  assert (HP : forall i vb va, (i, vb, va) ∈ glog log -> exists c a, P i c a /\ gexplained im c a vb va).
  { intros i0 gvb gva Hin. apply elem_of_list_fmap in Hin as ([[i vb] va] & E & Hin). simpl in E. injection E as -> -> ->.
    assert (Hi : i ∈ log.*1.*1).
    { rewrite !elem_of_list_fmap. exists (i, vb). split; [done|]. rewrite elem_of_list_fmap. by exists (i, vb, va). }
    rewrite Hp, elem_of_seq in Hi. destruct (lookup_lt_is_Some_2 ts i) as [t' Hi']; [lia|].
    pose proof Hm as [HR _ HL HS]. destruct (lookup_lt_is_Some_2 gts i) as [t Hti]; [lia|].
    destruct (HS _ _ _ Hti Hi') as (c & Hc & Hl & _).
    pose proof (Forall_lookup_1 _ _ _ _ Hf Hti) as Hfi. inversion Hl as [p p' Hlp| | |]; simplify_eq; try done.
    destruct (Hthr _ _ Hi') as (c1 & a & vb' & va' & Hc1 & Hin' & He & Ha).
    assert ((i, vb, va) = (i, vb', va')) as E by (by eapply same_entry).
    simplify_eq. rewrite list_lookup_fmap, Hc in Hc1. simplify_eq/=.
    destruct (explained_fwd im _ _ _ _ (Hall _ _ _ Hin) He) as [He' _].
    destruct p; try done.
    + destruct (like_ret im _ _ _ Hlp) as (x' & -> & Hx). subst a.
      exists c, (Returned (gsee im gs' r)). split; [by exists (Ret r)|].
      destruct He' as (v1 & H1 & ->). exists v1. split; [|done]. by eapply gspec_see.
    + inversion Hlp; simplify_eq. destruct Ha as [_ ->]. exists c, Threw. split; [by exists Throw|done]. }
  destruct (gchain_cong im P _ _ _ (chain_fwd _ _ _ Hch) _ Hv HP) as (log' & w' & J1 & J2 & J3 & J4).
  assert (Hp' : log'.*1.*1 ≡ₚ seq 0 (length cs)).
  { rewrite J3. unfold glog. rewrite <- !list_fmap_compose. rewrite <- list_fmap_compose in Hp. exact Hp. }
  exists log', w'. split_and!; [done|done| |].
  - eapply gshows_cong; [exact J2|]. eapply shows_fwd; [apply Hm|done|done].
  - intros i p Hi. assert (Hin : i ∈ log'.*1.*1).
    { rewrite Hp', elem_of_seq. apply lookup_lt_Some in Hi. rewrite (ps_len _ _ _ _ _ _ Hm) in Hi. lia. }
    apply elem_of_list_fmap in Hin as ([i1 vb] & -> & Hin). apply elem_of_list_fmap in Hin as ([[i2 vb2] va] & E & Hin).
    simplify_eq/=. destruct (J4 _ _ _ Hin) as (c & a & (p1 & Hc & Hi1 & Ha) & He). rewrite Hi in Hi1. simplify_eq.
    by exists c, a, vb2, va.
Qed.
Print Assumptions C91_serializable.

(** Whatever the calls (Rename and UnAlias not both among them), once they have all
    finished the machine can go on: the memory stores some state of it. *)
Theorem C91_phases :
  forall im s v cs ts s',
    greach im s v -> gunblocked v -> separate cs ->
    rtc (gpstep im) (GPool im (start cs) s) (GPool im ts s') -> Forall finished ts ->
    exists v', gstores im s' v' /\ greach im s' v'.
Proof.
  intros im s v cs ts s' Hg Hu Hsep Hr Hf.
  destruct (tied_phase im _ _ _ _ _ (greach_tied _ _ _ Hg) Hu Hsep Hr Hf) as (s0 & v0 & _ & _ & _ & _ & Hsh & M1 & M2).
  assert (gstores im s' (gof v0)) by done. exists (gof v0). split; [done|]. by eapply GR_together.
Qed.
Print Assumptions C91_phases.

(** They never wait for each other, unless an UnAlias left a lock behind... *)
Theorem C91_no_deadlock :
  forall im s v cs ts s',
    greach im s v -> gunblocked v ->
    rtc (gpstep im) (GPool im (start cs) s) (GPool im ts s') -> ~ left_behind cs ts ->
    Forall finished ts \/ exists p, gpstep im (GPool im ts s') p.
Proof.
  intros im gs gv cs gts gs' Hg Hu Hr Hl.
  destruct (pool_fwd im _ _ _ _ (greach_tied _ _ _ Hg) Hu Hr) as (s & v & [ts s'|] & Ht & Hs & Hv & Hu' & E1 & E2 & Hr' & Hm); [|done].
  simpl in Hm. destruct (C48_no_deadlock _ s ts s' E1 E2 Hr') as [Hf|[p Hp]].
  - intros (i & a & x & Hc & Hx & Hi). apply Hl. rewrite list_lookup_fmap in Hc. apply fmap_Some in Hc as (c & Hc & E).
    destruct c; simpl in E; simplify_eq. eexists i, _, _. split_and!; [done..|]. pose proof Hm as [_ _ HL HS].
    destruct (lookup_lt_is_Some_2 gts i) as [t Hti]; [rewrite HL; by eapply lookup_lt_Some|].
    destruct (HS _ _ _ Hti Hi) as (c & _ & Hlt & _). inversion Hlt as [p ? Hlp| | |]; simplify_eq.
    destruct (like_ret_r im _ _ _ Hlp) as (x0 & -> & [->|(? & ? & _ & ?)]); done.
  - left. by apply (psim_finished im _ _ _ _ _ Hm).
  - right. destruct (psim_bwd im _ _ _ _ _ _ Hm (free_excl _ _ E1 E2 _ _ Hr') Hp) as (gp & ? & _). by exists gp.
Qed.
Print Assumptions C91_no_deadlock.

(** ... and no run of them is infinite. *)
Theorem C91_no_infinite_run :
  forall im s v cs (f : nat -> gpool im),
    greach im s v -> gunblocked v -> f 0 = GPool im (start cs) s -> ~ forall n, gpstep im (f n) (f (S n)).
Proof.
  intros im gs gv cs f Hg Hu H0 Hf.
  destruct (tied_free im _ _ (greach_tied _ _ _ Hg) Hu) as (s & v & Ht & HR & HT & Hs & Hv & Hu' & E1 & E2).
  assert (forall p n, rtc pstep (Pool (start (encc im <$> cs)) s) p -> pmatch im cs (f n) p -> False) as H.
  { intros p. induction (pool_terminates p) as [p _ IH]. intros n Hr Hm. pose proof (Hf n) as Hn.
    destruct (f n) as [gts gs1|]; [|by inversion Hn]. destruct p as [ts s1|]; [|done].
    destruct (psim_fwd im _ _ _ _ _ _ Hm (free_excl _ _ E1 E2 _ _ Hr) Hn) as (p & Hp & Hm').
    eapply (IH p); [done| |exact Hm']. by eapply rtc_r. }
  eapply (H _ 0); [apply rtc_refl|]. rewrite H0. simpl. by apply start_psim.
Qed.
Print Assumptions C91_no_infinite_run.

(** Nor do they race, but for Rename with UnAlias on the aliases. *)
Theorem C91_no_race :
  forall im s v cs ts s',
    greach im s v -> gunblocked v -> rtc (gpstep im) (GPool im (start cs) s) (GPool im ts s') ->
    (separate cs -> ~ race_between ts) /\
    (forall l, race_on l ts -> l = LAliases \/ exists a i, l = LElem a i).
Proof.
  intros im gs gv cs gts gs' Hg Hu Hr.
  destruct (pool_fwd im _ _ _ _ (greach_tied _ _ _ Hg) Hu Hr) as (s & v & [ts s'|] & Ht & Hs & Hv & Hu' & E1 & E2 & Hr' & Hm); [|done].
  simpl in Hm. split.
  - intros Hsep (i & j & ti & tj & gi & gj & l & wi & wj & Hi & Hj & Hne & Hl & Ai & Aj & Hw).
    assert (Hc : without_rename (encc im <$> cs) \/ without_unalias (encc im <$> cs)).
    { destruct Hsep; [left|right]; by apply encc_free. }
    apply (C49_no_race_between_calls _ s ts s' E1 E2 Hc Hr').
    destruct (psim_access im _ _ _ _ _ _ _ _ _ _ Hm Hi Ai) as (ti' & ? & ?).
    destruct (psim_access im _ _ _ _ _ _ _ _ _ _ Hm Hj Aj) as (tj' & ? & ?).
    by exists i, j, ti', tj', gi, gj, l, wi, wj.
  - intros l (i & j & ti & tj & gi & gj & wi & wj & Hi & Hj & Hne & Hl & Ai & Aj & Hw).
    apply (C49_no_race_on_indices _ s ts s' l E1 E2 Hr').
    destruct (psim_access im _ _ _ _ _ _ _ _ _ _ Hm Hi Ai) as (ti' & ? & ?).
    destruct (psim_access im _ _ _ _ _ _ _ _ _ _ Hm Hj Aj) as (tj' & ? & ?).
    by exists i, j, ti', tj', gi, gj, wi, wj.
Qed.
Print Assumptions C91_no_race.

(** ** MemoryIndex again *)
Definition plain_out (o : gout) : out :=
  match o with
  | GODone b v => ODone b (plain v)
  | GOPanic v => OPanic (plain v)
  | GOCrash => OCrash
  | GOBlock => OBlock
  end.

Section Memory.
Context (ckn : bool) (tk : Tokenizer).
Notation im := (memory ckn (fun _ => tk)).

Lemma object_memory x : object im x = index_after x.1 tk x.2.
Proof. done. Qed.
Lemma search_memory x q e : im_search im (object im x) q e = search_docs ckn tk x.2 q e.
Proof. rewrite object_memory. apply search_any_name. Qed.
Lemma name_memory (idx : gmap string (string * list DocRequest)) q e n :
  search_name ckn tk (snd <$> idx) q e n = gsearch_name im idx q e n.
Proof.
  unfold search_name, gsearch_name. rewrite lookup_fmap. destruct (idx !! n) as [x|]; [|done]. simpl.
  by rewrite <- search_memory.
Qed.
Lemma put_memory d l (idx : gmap string (string * list DocRequest)) :
  snd <$> gput_each d l idx = put_each d l (snd <$> idx).
Proof.
  unfold gput_each, put_each. induction l as [|x l IH]; simpl; [done|]. rewrite <- IH.
  apply map_eq. intros n. rewrite lookup_fmap. destruct (decide (x = n)) as [->|Hne].
  - rewrite !lookup_alter, lookup_fmap. by destruct (foldr _ idx l !! n).
  - rewrite !lookup_alter_ne by done. by rewrite lookup_fmap.
Qed.
End Memory.

(** For MemoryIndex with one tokenizer this machine is the one of SpecRepo.v, in which
    creation names do not matter. *)
Theorem C91_memory :
  forall ckn tk v c o,
    spec ckn tk c (plain v) o <-> exists o', gspec (memory ckn (fun _ => tk)) c v o' /\ plain_out o' = o.
Proof.
  intros ckn tk [idx ali li la] c o. set (im := memory ckn (fun _ => tk)).
  assert (T : forall o1 : gout, (o = plain_out o1) <-> exists o', o' = o1 /\ plain_out o' = o) by (intros; naive_solver).
  destruct c as [| |n|a|a i|a i|n d|n q e|old new|n|show]; simpl; rewrite ?lookup_fmap.
  - assert (E : (map_to_list (snd <$> idx)).*1 ≡ₚ (map_to_list idx).*1).
    { rewrite (map_to_list_fmap snd idx), <- list_fmap_compose. apply reflexive_eq. by apply list_fmap_ext. }
    split.
    + intros (l & Hl & ->). exists (GODone (ONames l) (MkGView idx ali li la)). split; [|done]. exists l. by rewrite <- E.
    + intros (o' & (l & Hl & ->) & <-). exists l. by rewrite E.
  - destruct la; [by apply (T GOBlock)|]. split.
    + intros (l & Hl & ->). exists (GODone (ORows l) (MkGView idx ali li false)). split; [|done]. by exists l.
    + intros (o' & (l & Hl & ->) & <-). by exists l.
  - rewrite <- T. by rewrite (bool_decide_ext _ _ (fmap_is_Some snd (idx !! n))).
  - by destruct la; rewrite <- T.
  - destruct (idx !! i) as [ds|]; cbn [fmap option_fmap option_map].
    + destruct (decide (Some (snd ds) = None)) as [?|_]; [done|]. destruct (decide (Some ds = None)) as [?|_]; [done|].
      by destruct la; [|destruct (decide _)]; rewrite <- T.
    + destruct (decide (@None (string * list DocRequest) = None)) as [_|?]; [|done].
      destruct (decide (@None (list DocRequest) = None)) as [_|?]; [|done]. by rewrite <- T.
  - destruct (decide (i = _)); [by destruct la; rewrite <- T|].
    destruct (idx !! i) as [ds|]; cbn [fmap option_fmap option_map].
    + destruct (decide (Some (snd ds) = None)) as [?|_]; [done|]. destruct (decide (Some ds = None)) as [?|_]; [done|].
      destruct la; [by rewrite <- T|]. by destruct (ali !! a); rewrite <- T.
    + destruct (decide (@None (string * list DocRequest) = None)) as [_|?]; [|done].
      destruct (decide (@None (list DocRequest) = None)) as [_|?]; [|done]. by rewrite <- T.
  - destruct (idx !! n) as [ds|] eqn:En; simpl.
    + destruct (decide _); rewrite <- T; [done|]. unfold plain_out, plain. simpl.
      pose proof (put_memory d [n] idx) as E0. simpl in E0. by rewrite E0.
    + destruct la; [by rewrite <- T|]. destruct (decide _); [by rewrite <- T|].
      destruct (ali !! n) as [l|].
      * assert (Exists (fun x => (snd <$> idx) !! x = None) l <-> Exists (fun x => idx !! x = None) l) as E.
        { rewrite !Exists_exists. split; intros (x & Hx & H); exists x; (split; [done|]); rewrite lookup_fmap in *;
            by destruct (idx !! x). }
        destruct (decide (Exists (fun x => (snd <$> idx) !! x = None) l)) as [H1|H1];
          destruct (decide (Exists (fun x => idx !! x = None) l)) as [H2|H2]; try tauto; rewrite <- T; [done|].
        unfold plain_out, plain. simpl. pose proof (put_memory d l idx) as E0. simpl in E0. by rewrite E0.
      * rewrite <- T. unfold plain_out, plain. simpl. by rewrite fmap_insert.
  - destruct (idx !! n) as [x|] eqn:En; cbn [fmap option_fmap option_map].
    + assert (E : mi_Search ckn (object im x) q e = search_docs ckn tk (snd x) q e) by apply search_memory.
      rewrite E. by destruct (search_docs ckn tk (snd x) q e); rewrite <- T.
    + destruct la; [by rewrite <- T|]. destruct (ali !! n) as [l|]; [|by rewrite <- T].
      set (v := MkGView idx ali li false).
      assert (search_many ckn tk (snd <$> idx) q e l o (plain v) <->
        exists o', gsearch_many im idx q e l o' v /\ plain_out o' = o) as Hm.
      { unfold search_many, gsearch_many.
        assert (search_name ckn tk (snd <$> idx) q e <$> l = gsearch_name im idx q e <$> l) as ->.
        { apply list_fmap_ext. intros i m _. apply name_memory. }
        split.
        - intros [(bs & bs' & H1 & H2 & ->)|[H1 ->]].
          + exists (GODone (OResults (concat bs')) v). split; [left; by exists bs, bs'|done].
          + exists GOCrash. split; [by right|done].
        - intros (o' & [(bs & bs' & H1 & H2 & ->)|[H1 ->]] & <-); [left; by exists bs, bs'|by right]. }
      destruct l as [|x [|y l]]; [done| |done].
      rewrite name_memory. unfold im. by destruct (gsearch_name _ idx q e x); rewrite <- T.
  - destruct (decide _); [by rewrite <- T|]. destruct (idx !! old) as [ds|]; simpl; rewrite <- T; [|done].
    unfold plain_out, plain. simpl. by rewrite fmap_delete, fmap_insert.
  - destruct (idx !! n) as [ds|]; cbn [fmap option_fmap option_map].
    + destruct (decide (Some (snd ds) = None)) as [?|_]; [done|]. destruct (decide (Some ds = None)) as [?|_]; [done|].
      destruct (decide _); [by rewrite <- T|]. destruct la; rewrite <- T; [done|].
      unfold plain_out, plain. simpl. by rewrite fmap_delete.
    + destruct (decide (@None (string * list DocRequest) = None)) as [_|?]; [|done].
      destruct (decide (@None (list DocRequest) = None)) as [_|?]; [|done]. by rewrite <- T.
  - split.
    + intros (t & ->). exists (GODone (OText t) (MkGView idx ali li la)). split; [by exists t|done].
    + intros (o' & (t & ->) & <-). by exists t.
Qed.
Print Assumptions C91_memory.

(** With a tokenizer chosen by name, a search is one with the tokenizer of the name the
    index was created with; a Rename keeps that name. *)
Theorem C91_chosen_tokenizer :
  forall ckn tk s v x made ds q e,
    greach (memory ckn tk) s v -> gv_idx v !! x = Some (made, ds) ->
    (forall res, gcall_result (memory ckn tk) (CSearch x q e) s res ->
       match search_docs ckn (tk made) ds q e with
       | Ok sr => exists s', res = GDone (memory ckn tk) (RResults sr) s'
       | Panic => exists s', res = GPanicked (memory ckn tk) s'
       end) /\
    (forall y s', gcall_result (memory ckn tk) (CRename x y) s (GDone (memory ckn tk) (RBool true) s') -> x <> y ->
       exists v', greach (memory ckn tk) s' v' /\ gv_idx v' !! y = Some (made, ds)).
Proof.
  intros ckn tk s v x made ds q e Hg Hx. split.
  - intros res Hres. destruct (C91_refines _ s v (CSearch x q e) Hg) as [_ H]. destruct (H res Hres) as (o & Ho & Hm).
    unfold gspec in Ho. rewrite Hx in Ho. change (object (memory ckn tk) (made, ds)) with (index_after made (tk made) ds) in Ho.
    cbn [memory im_search] in Ho. rewrite (search_any_name ckn made "" (tk made) ds q e) in Ho. fold (search_docs ckn (tk made) ds q e) in Ho.
    destruct (search_docs ckn (tk made) ds q e) as [sr|]; subst o; destruct res as [r s'|s'| |]; try done.
    + destruct Hm as [Hm _]. destruct r; simplify_eq/=. by exists s'.
    + by exists s'.
  - intros y s' Hres Hne. destruct (C91_refines _ s v (CRename x y) Hg) as [_ H]. destruct (H _ Hres) as (o & Ho & Hm).
    unfold gspec in Ho. rewrite Hx in Ho. case_decide; [by subst o|]. subst o. destruct Hm as [_ Hm].
    eexists. split; [exact Hm|]. cbn. by rewrite lookup_delete_ne, lookup_insert.
Qed.
Print Assumptions C91_chosen_tokenizer.

(** ** Concrete cases *)
Lemma greach_next im s v c ob v' :
  greach im s v -> (forall show, c <> CString show) -> gspec im c v (GODone ob v') -> exists s', greach im s' v'.
Proof.
  intros Hg Hc Ho. destruct (C91_exact im s v c _ Hg Hc Ho) as ([x s'| | |] & _ & Hm); try done.
  exists s'. apply Hm.
Qed.

(** A builder that gives the index "whole" a tokenizer of its own: a text is one token. *)
Definition whole : Tokenizer := fun s => [s].
Definition chosen : implementation := memory true (fun n => if decide (n = "whole") then whole else letters).
Definition chosen_view : gview :=
  MkGView {["moved" := ("whole", [dA]); "parts" := ("parts", [dA])]} {["both" := ["moved"; "parts"]]} 0 false.

#[local] Instance request_eq : EqDecision DocRequest.
Proof. solve_decision. Defined.

Lemma chosen_reached : exists s, greach chosen s chosen_view.
Proof.
  destruct (greach_next chosen (gnew chosen) new_gview (CPut "whole" dA) OUnit
    (MkGView {["whole" := ("whole", [dA])]} ∅ 0 false) (GR_new _) ltac:(done)) as [s1 H1]; [done|].
  destruct (greach_next chosen _ _ (CPut "parts" dA) OUnit
    (MkGView {["parts" := ("parts", [dA]); "whole" := ("whole", [dA])]} ∅ 0 false) H1 ltac:(done)) as [s2 H2]; [done|].
  destruct (greach_next chosen _ _ (CAlias "both" "whole") (OBool true)
    (MkGView {["parts" := ("parts", [dA]); "whole" := ("whole", [dA])]} {["both" := ["whole"]]} 0 false) H2 ltac:(done)) as [s3 H3].
  { vm_compute. done. }
  destruct (greach_next chosen _ _ (CAlias "both" "parts") (OBool true)
    (MkGView {["parts" := ("parts", [dA]); "whole" := ("whole", [dA])]} {["both" := ["whole"; "parts"]]} 0 false) H3 ltac:(done)) as [s4 H4].
  { unfold gspec. cbn [gv_idx gv_ali gv_leakA gv_leakI]. rewrite decide_False by (vm_compute; done).
    rewrite decide_False by (vm_compute; set_solver). do 2 f_equal. apply (bool_decide_unpack _). vm_compute. exact I. }
  destruct (greach_next chosen _ _ (CRename "whole" "moved") (OBool true) chosen_view H4 ltac:(done)) as [s5 H5].
  { unfold chosen_view. unfold gspec. cbn [gv_idx gv_ali gv_leakA gv_leakI]. rewrite decide_False by lia.
    match goal with |- match ?l with _ => _ end => replace l with (Some ("whole", [dA])) by (vm_compute; done) end.
    do 2 f_equal; apply (bool_decide_unpack _); vm_compute; exact I. }
  by exists s5.
Qed.

(** Renamed, the index keeps the tokenizer it was made with: a search for "a" through
    the alias finds the document in one index only, for "a b" in both. *)
Example C91_example :
  exists s, greach chosen s chosen_view /\ gunblocked chosen_view /\
    (forall res, gcall_result chosen (CSearch "both" "a" LinearSearch) s res ->
       exists s', res = GDone chosen (RResults [MkSR (doc_of dA) 1]) s') /\
    gsearch_name chosen (gv_idx chosen_view) "a b" LinearSearch "moved" <> Ok [] /\
    calm (plain chosen_view) [CPut "both" dB; CSearch "moved" "b c" LinearSearch; CRename "x" "y"].
Proof.
  destruct chosen_reached as [s Hs]. exists s. split_and!; [done|done| |by vm_compute|].
  - intros res Hres. destruct (C91_refines chosen s _ (CSearch "both" "a" LinearSearch) Hs) as [_ H].
    destruct (H res Hres) as (o & Ho & Hm).
    assert (E : gsearch_name chosen (gv_idx chosen_view) "a" LinearSearch <$> ["moved"; "parts"] =
      [Ok []; Ok [MkSR (doc_of dA) 1]]) by (vm_compute; done).
    assert (Ho' : gsearch_many chosen (gv_idx chosen_view) "a" LinearSearch ["moved"; "parts"] o chosen_view) by exact Ho.
    unfold gsearch_many in Ho'. rewrite E in Ho'. destruct Ho' as [(bs & bs' & H1 & H2 & ->)|[H1 ->]].
    + destruct bs as [|b1 [|b2 [|]]]; simplify_eq/=.
      destruct res as [x s'| | |]; try done. destruct Hm as [Hm _]. exists s'.
      assert (concat bs' = [MkSR (doc_of dA) 1]) as Ec.
      { apply Permutation_singleton_r. transitivity (concat [[]; [MkSR (doc_of dA) 1]]); [|done]. by rewrite H2. }
      rewrite Ec in Hm. destruct x; simplify_eq/=. done.
    + by apply elem_of_cons in H1 as [?|H1]; [|apply elem_of_list_singleton in H1].
  - intros i j c c' Hne Hi Hj.
    destruct i as [|[|[|i]]], j as [|[|[|j]]]; simplify_eq/=; try done.
    vm_compute. split_and!; set_solver.
Qed.
