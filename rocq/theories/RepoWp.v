(** * Proof device for single calls: a predicate transformer for repo programs,
    proved sound for the small-step semantics. *)
From stdpp Require Import list gmap.
From Verif Require Import Repo Sem.
Open Scope nat_scope.

(** ** Inversion of outcomes *)
Lemma outcome_inv t s res :
  outcome_of t s res ->
  (exists r, t = TRun (Ret r) /\ res = Done r s) \/
  (t = TRun Throw /\ res = Panicked s) \/
  (tstep s t TCrash /\ res = Crashed) \/
  (~ finished t /\ (forall x, ~ tstep s t x) /\ res = Blocked) \/
  (exists t' s', tstep s t (TNext t' s') /\ outcome_of t' s' res).
Proof.
  assert (forall x y, rtc sstep x y -> x = y \/ exists t' s', tstep x.2 x.1 (TNext t' s') /\ rtc sstep (t', s') y) as Hr.
  { intros x y []; [left; done|right]. destruct H; eauto. }
  destruct 1 as [r s' H|s' H|t1 s1 H Hc|t1 s1 H Hf Hb]; apply Hr in H as [H|(t' & s2 & H1 & H2)];
    simplify_eq/=.
  - left; eauto.
  - do 4 right. eauto using CR_done.
  - eauto.
  - do 4 right. eauto using CR_panic.
  - eauto 6.
  - do 4 right. eauto using CR_crash.
  - do 3 right. left. eauto.
  - do 4 right. eauto using CR_block.
Qed.

Lemma outcome_step t s t' s' res :
  tstep s t (TNext t' s') -> outcome_of t' s' res -> outcome_of t s res.
Proof.
  intros Hs Ho. assert (sstep (t, s) (t', s')) by (constructor; done).
  destruct Ho; [eapply CR_done|eapply CR_panic|eapply CR_crash|eapply CR_block]; eauto using rtc_l.
Qed.

(** ** Goroutines of Put *)
Fixpoint puts (ps : list (option ptr)) (d : DocRequest) (i : Ipart) : option Ipart :=
  match ps with
  | [] => Some i
  | None :: _ => None
  | Some p :: ps' => puts ps' d (i_put p d i)
  end.

Lemma omap_id_insert {A} (cs : list (option A)) i x :
  cs !! i = Some (Some x) -> omap id cs ≡ₚ x :: omap id (<[i := None]> cs).
Proof.
  revert i. induction cs as [|c cs IH]; intros [|i] H; simplify_eq/=; [done|].
  apply IH in H. destruct c as [c|]; simpl; [|done]. rewrite H. constructor.
Qed.

Lemma omap_id_None {A} (cs : list (option A)) : omap id cs = [] -> Forall (fun c => c = None) cs.
Proof. induction cs as [|[c|] cs IH]; intros; simplify_eq/=; constructor; auto. Qed.
Lemma omap_id_Some {A} (l : list A) : omap id (map Some l) = l.
Proof. induction l as [|a l IH]; [done|]. simpl. f_equal. exact IH. Qed.

Lemma set_I_set_I i j s : set_I i (set_I j s) = set_I i s.
Proof. done. Qed.
Lemma set_I_id s : set_I (r_I s) s = s.
Proof. by destruct s. Qed.
Lemma set_A_id s : set_A (r_A s) s = s.
Proof. by destruct s. Qed.

Lemma TPut_inv n cs d k s res :
  length (omap id cs) = n ->
  outcome_of (TPut cs d k) s res ->
  (exists ps i', ps ≡ₚ omap id cs /\ puts ps d (r_I s) = Some i' /\
     outcome_of (TRun k) (set_I i' s) res) \/
  (None ∈ omap id cs /\ res = Crashed).
Proof.
  revert cs s. induction n as [|n IH]; intros cs s Hn Ho;
    apply outcome_inv in Ho as [(r & ? & ?)|[(? & ?)|[(Hc & ->)|[(Hf & Hb & ->)|(t' & s' & Hs & Ho)]]]];
    try done.
  - inversion Hc; simplify_eq. rename select (_ !! _ = _) into Hi. apply omap_id_insert in Hi. rewrite Hi in Hn. done.
  - exfalso. eapply Hb. apply S_PutWait, omap_id_None. by destruct (omap id cs).
  - inversion Hs; simplify_eq.
    + rename select (_ !! _ = _) into Hi. apply omap_id_insert in Hi. rewrite Hi in Hn. done.
    + left. exists [], (r_I s'). destruct (omap id cs); [|done]. by rewrite set_I_id.
  - inversion Hc; simplify_eq. rename select (_ !! _ = _) into Hi. right. split; [|done]. apply omap_id_insert in Hi. rewrite Hi. left.
  - exfalso. destruct (omap id cs) as [|x l] eqn:E; [done|].
    assert (x ∈ omap id cs) as Hx by (rewrite E; left).
    apply elem_of_list_omap in Hx as ([y|] & Hy & Hz); [|done]. simpl in Hz. simplify_eq.
    apply elem_of_list_lookup in Hy as [i Hi].
    destruct x as [p|]; eapply Hb; [eapply S_PutChild|eapply S_PutChild_nil]; done.
  - inversion Hs; simplify_eq.
    + rename select (_ !! _ = _) into Hp. apply omap_id_insert in Hp.
      apply IH in Ho; [|rewrite Hp in Hn; simpl in *; lia].
      destruct Ho as [(ps & i' & E & Hi & Ho)|[Hin ->]].
      * left. exists (Some p :: ps), i'. split; [by rewrite E, Hp|]. split; [done|].
        by rewrite set_I_set_I in Ho.
      * right. rewrite Hp. split; [by right|done].
    + assert (omap id cs = []) as E; [|rewrite E in Hn; done].
      rename select (Forall _ _) into H. clear -H. induction H; [done|]. subst. done.
Qed.

(** ** Goroutines of Search *)
Definition search_all (ps : list (option ptr)) q e i : list (outcome (list SearchResult)) :=
  (fun p => i_search p q e i) <$> ps.

Definition spend q e i (c : schild) : option (outcome (list SearchResult)) :=
  match c with
  | SStart p => Some (i_search p q e i)
  | SGot sr | SHold sr | SRead sr _ => Some (Ok sr)
  | SRel | SDone => None
  end.

(** rl is exclusive, and what its holder read is still current. *)
Definition rl_inv (cs : list schild) (r : list SearchResult) : Prop :=
  (forall i j c c', cs !! i = Some c -> cs !! j = Some c' -> holds_rl c -> holds_rl c' -> i = j) /\
  (forall i sr old, cs !! i = Some (SRead sr old) -> old = r).

Definition sweight (c : schild) : nat :=
  match c with SStart _ => 5 | SGot _ => 4 | SHold _ => 3 | SRead _ _ => 2 | SRel => 1 | SDone => 0 end.

Lemma sum_insert cs i c c' :
  cs !! i = Some c -> sweight c' < sweight c ->
  sum_list (sweight <$> <[i := c']> cs) < sum_list (sweight <$> cs).
Proof.
  revert i. induction cs as [|x cs IH]; intros [|i] Hi Hw; simplify_eq/=; [lia|].
  apply IH in Hi; [lia|done].
Qed.

Lemma spend_insert_some q e I (cs : list schild) i c c' x :
  cs !! i = Some c -> spend q e I c = Some x -> spend q e I c' = Some x ->
  omap (spend q e I) (<[i := c']> cs) = omap (spend q e I) cs.
Proof.
  revert i. induction cs as [|y cs IH]; intros [|i] Hi Hc Hc'; simplify_eq/=.
  - by rewrite Hc, Hc'.
  - by rewrite (IH _ Hi Hc Hc').
Qed.
Lemma spend_insert_none q e I (cs : list schild) i c c' :
  cs !! i = Some c -> spend q e I c = None -> spend q e I c' = None ->
  omap (spend q e I) (<[i := c']> cs) = omap (spend q e I) cs.
Proof.
  revert i. induction cs as [|y cs IH]; intros [|i] Hi Hc Hc'; simplify_eq/=.
  - by rewrite Hc, Hc'.
  - by rewrite (IH _ Hi Hc Hc').
Qed.
Lemma spend_insert_del q e I (cs : list schild) i c c' x :
  cs !! i = Some c -> spend q e I c = Some x -> spend q e I c' = None ->
  omap (spend q e I) cs ≡ₚ x :: omap (spend q e I) (<[i := c']> cs).
Proof.
  revert i. induction cs as [|y cs IH]; intros [|i] Hi Hc Hc'; simplify_eq/=.
  - by rewrite Hc, Hc'.
  - destruct (spend q e I y); rewrite (IH _ Hi Hc Hc'); [constructor|done].
Qed.

Lemma rl_inv_insert cs r i c c' r' :
  rl_inv cs r -> cs !! i = Some c ->
  (holds_rl c' -> holds_rl c \/ Forall (fun c => holds_rl c = false) cs) ->
  (forall sr old, c' = SRead sr old -> old = r') ->
  (r' = r \/ holds_rl c) ->
  rl_inv (<[i := c']> cs) r'.
Proof.
  intros [H1 H2] Hi Hh Hr Hrr. split.
  - intros j1 j2 c1 c2 Hj1 Hj2 Hh1 Hh2.
    apply list_lookup_insert_Some in Hj1 as [(-> & <- & _)|[Hne1 Hj1]];
    apply list_lookup_insert_Some in Hj2 as [(-> & <- & _)|[Hne2 Hj2]]; try done.
    + destruct (Hh Hh1) as [?|Hf]; [by eapply H1|].
      eapply Forall_lookup in Hf; [|exact Hj2]. by rewrite Hf in Hh2.
    + destruct (Hh Hh2) as [?|Hf]; [by eapply H1|].
      eapply Forall_lookup in Hf; [|exact Hj1]. by rewrite Hf in Hh1.
    + by eapply H1.
  - intros j sr old Hj. apply list_lookup_insert_Some in Hj as [(-> & -> & _)|[Hne Hj]]; [by eapply Hr|].
    destruct Hrr as [->|Hh']; [by eapply H2|]. exfalso. apply Hne. eapply (H1 i j); eauto.
Qed.

Lemma TSearch_progress cs q e r k s :
  exists x, tstep s (TSearch cs q e r k) x.
Proof.
  destruct (decide (Forall (fun c => holds_rl c = false) cs)) as [Hf|Hf].
  - assert (Forall (fun c => c = SDone) cs \/ exists i c, cs !! i = Some c /\ c <> SDone) as [H|(i & c & Hi & Hc)].
    { clear Hf. induction cs as [|c cs IH]; [left; constructor|].
      destruct c; try (right; eexists 0, _; by split).
      destruct IH as [?|(i & c & ? & ?)]; [left; by constructor|right; by exists (S i), c]. }
    + eexists. by apply S_SearchWait.
    + pose proof (Forall_lookup_1 _ _ _ _ Hf Hi) as Hh.
      destruct c; simplify_eq/=.
      * destruct (i_search p q e (r_I s)) eqn:E; eexists; [eapply S_Child_search|eapply S_Child_panic]; eauto.
      * eexists. by eapply S_Child_lock.
  - apply not_Forall_Exists in Hf; [|intros c; destruct (holds_rl c); [right|left]; done].
    apply Exists_exists in Hf as (c & Hc & Hh). apply elem_of_list_lookup in Hc as [i Hi].
    destruct c; simplify_eq/=; eexists;
      [by eapply S_Child_read|by eapply S_Child_write|by eapply S_Child_unlock].
Qed.

Lemma TSearch_inv_ok n cs q e r k s res bl :
  sum_list (sweight <$> cs) = n -> rl_inv cs r ->
  omap (spend q e (r_I s)) cs ≡ₚ (Ok <$> bl) ->
  outcome_of (TSearch cs q e r k) s res ->
  exists bl', bl' ≡ₚ bl /\ outcome_of (TRun (k (r ++ concat bl'))) s res.
Proof.
  revert cs r bl. induction (lt_wf n) as [n _ IH]. intros cs r bl Hn Hinv Hbl Ho.
  apply outcome_inv in Ho as [(? & ? & ?)|[(? & ?)|[(Hc & ->)|[(Hf & Hb & ->)|(t' & s' & Hs & Ho)]]]];
    try done.
  { exfalso. inversion Hc; simplify_eq.
    assert (Panic ∈ omap (spend q e (r_I s)) cs) as Hin.
    { apply elem_of_list_omap. exists (SStart p). split; [by eapply elem_of_list_lookup_2|simpl; congruence]. }
    rewrite Hbl in Hin. apply elem_of_list_fmap in Hin as (? & ? & ?). done. }
  { exfalso. destruct (TSearch_progress cs q e r k s) as [x Hx]. by eapply Hb. }
  inversion Hs; simplify_eq.
  - (* search *)
    eapply IH; [|reflexivity|..|exact Ho].
    + eapply sum_insert; [done|simpl; lia].
    + eapply rl_inv_insert; [done|done|try by auto|try by (intros; simplify_eq)|try by auto].
    + rename select (_ !! _ = _) into Hi. rewrite (spend_insert_some q e _ cs i _ _ _ Hi eq_refl); [done|simpl; by f_equal].
  - eapply IH; [|reflexivity|..|exact Ho].
    + eapply sum_insert; [done|simpl; lia].
    + eapply rl_inv_insert; [done|done|try by auto|try by (intros; simplify_eq)|try by auto].
    + rename select (_ !! _ = _) into Hi. by rewrite (spend_insert_some q e _ cs i _ _ _ Hi eq_refl).
  - eapply IH; [|reflexivity|..|exact Ho].
    + eapply sum_insert; [done|simpl; lia].
    + eapply rl_inv_insert; [done|done|try by auto|try by (intros; simplify_eq)|try by auto].
    + rename select (_ !! _ = _) into Hi. by rewrite (spend_insert_some q e _ cs i _ _ _ Hi eq_refl).
  - (* write *)
    rename select (_ !! _ = _) into Hi. assert (old = r) as -> by (by eapply Hinv).
    pose proof (spend_insert_del q e (r_I s') cs i _ SRel _ Hi eq_refl eq_refl) as Hd.
    rewrite Hbl in Hd.
    assert (sr ∈ bl) as Hin.
    { assert (Ok sr ∈ Ok <$> bl) as Hx by (rewrite Hd; left).
      apply elem_of_list_fmap in Hx as (? & ? & ?). by simplify_eq. }
    apply elem_of_Permutation in Hin as [bl1 Hp].
    edestruct IH as (bl' & Hbl' & Ho'); [|reflexivity| | |exact Ho|].
    + eapply sum_insert; [done|simpl; lia].
    + eapply rl_inv_insert; [done|done|try by auto|try by (intros; simplify_eq)|try by auto].
    + rewrite Hp, fmap_cons in Hd. apply Permutation_cons_inv in Hd. symmetry. exact Hd.
    + exists (sr :: bl'). split; [by rewrite Hbl', Hp|]. simpl. by rewrite app_assoc.
  - eapply IH; [|reflexivity|..|exact Ho].
    + eapply sum_insert; [done|simpl; lia].
    + eapply rl_inv_insert; [done|done|try by auto|try by (intros; simplify_eq)|try by auto].
    + rename select (_ !! _ = _) into Hi. by rewrite (spend_insert_none q e _ cs i _ _ Hi eq_refl).
  - assert (omap (spend q e (r_I s')) cs = []) as E.
    { rename select (Forall _ _) into H. clear -H. induction H; [done|]. by subst. }
    rewrite E in Hbl. destruct bl; [|by apply Permutation_nil in Hbl].
    exists []. split; [done|]. simpl. by rewrite app_nil_r.
Qed.

Lemma TSearch_inv_panic n cs q e r k s res :
  sum_list (sweight <$> cs) = n ->
  Panic ∈ omap (spend q e (r_I s)) cs ->
  outcome_of (TSearch cs q e r k) s res -> res = Crashed.
Proof.
  revert cs r. induction (lt_wf n) as [n _ IH]. intros cs r Hn Hp Ho.
  apply outcome_inv in Ho as [(? & ? & ?)|[(? & ?)|[(Hc & ->)|[(Hf & Hb & ->)|(t' & s' & Hs & Ho)]]]];
    try done.
  { exfalso. destruct (TSearch_progress cs q e r k s) as [x Hx]. by eapply Hb. }
  inversion Hs; simplify_eq; try rename select (_ !! _ = _) into Hi;
    try (eapply IH; [|reflexivity| |exact Ho];
         [eapply sum_insert; [done|simpl; lia]|];
         first [ rewrite (spend_insert_some q e _ cs i _ _ _ Hi eq_refl); [done|simpl; congruence]
               | by rewrite (spend_insert_none q e _ cs i _ _ Hi eq_refl)]).
  - eapply IH; [|reflexivity| |exact Ho]; [eapply sum_insert; [done|simpl; lia]|].
    rewrite (spend_insert_del q e (r_I s') cs i _ SRel _ Hi eq_refl eq_refl) in Hp.
    apply elem_of_cons in Hp as [?|?]; done.
  - assert (omap (spend q e (r_I s')) cs = []) as E.
    { rename select (Forall _ _) into H. clear -H. induction H; [done|]. by subst. }
    rewrite E in Hp. by apply elem_of_nil in Hp.
Qed.

Lemma outcomes_split {A} (l : list (outcome A)) : (exists bl, l = Ok <$> bl) \/ Panic ∈ l.
Proof.
  induction l as [|[x|] l IH].
  - left. by exists [].
  - destruct IH as [[bl ->]|?]; [left; by exists (x :: bl)|right; by right].
  - right. left.
Qed.

Lemma spend_start q e i ps : omap (spend q e i) (map SStart ps) = search_all ps q e i.
Proof. unfold search_all. induction ps as [|p ps IH]; [done|]. simpl. f_equal. exact IH. Qed.

Lemma rl_inv_start ps r : rl_inv (map SStart ps) r.
Proof.
  split.
  - intros i j c c' H _ Hh. apply (elem_of_list_lookup_2 _ _) in H.
    apply elem_of_list_In, in_map_iff in H as (? & <- & _). done.
  - intros i sr old H. apply elem_of_list_lookup_2, elem_of_list_In, in_map_iff in H as (? & ? & _). done.
Qed.

(** ** The transformer *)
Fixpoint wp (p : prog) (s : repo) (Q : result -> Prop) : Prop :=
  match p with
  | Ret r => Q (Done r s)
  | Throw => Q (Panicked s)
  | RLock m k =>
      let w := get_mu m s in
      if rw_pending w || rw_writer w then Q Blocked
      else wp k (set_mu m (MkRW (S (rw_readers w)) false false) s) Q
  | RUnlock m k =>
      let w := get_mu m s in
      match rw_readers w with
      | O => Q Crashed
      | S n => wp k (set_mu m (MkRW n (rw_pending w) (rw_writer w)) s) Q
      end
  | Lock m k =>
      let w := get_mu m s in
      if rw_pending w || rw_writer w then Q Blocked
      else match rw_readers w with
           | O => wp k (set_mu m (MkRW 0 false true) s) Q
           | S _ => Q Blocked
           end
  | Unlock m k =>
      let w := get_mu m s in
      if rw_writer w then wp k (set_mu m (MkRW (rw_readers w) (rw_pending w) false) s) Q
      else Q Crashed
  | GetIndex n k => wp (k (i_map (r_I s) !! n)) s Q
  | SetIndex n p k => wp k (set_I (i_set n p (r_I s)) s) Q
  | DelIndex n k => wp k (set_I (i_del n (r_I s)) s) Q
  | RangeIndices k => forall names, names ≡ₚ (map_to_list (i_map (r_I s))).*1 -> wp (k names) s Q
  | GetAlias a k => wp (k (a_map (r_A s) !! a)) s Q
  | SetAlias a sl k => wp k (set_A (a_set a sl (r_A s)) s) Q
  | DelAlias a k => wp k (set_A (a_del a (r_A s)) s) Q
  | RangeAliases k => forall names, names ≡ₚ (map_to_list (a_map (r_A s))).*1 -> wp (k names) s Q
  | LoadElem sl i k => wp (k (a_load sl i (r_A s))) s Q
  | StoreElem sl i v k => wp k (set_A (a_store sl i v (r_A s)) s) Q
  | Append sl v k => forall cap, sl_len sl < cap ->
      wp (k (a_append sl v cap (r_A s)).2) (set_A (a_append sl v cap (r_A s)).1 s) Q
  | MakeSlice l k =>
      wp (k (a_alloc l (length l) (r_A s)).2) (set_A (a_alloc l (length l) (r_A s)).1 s) Q
  | NewIndex n k => wp (k (i_next (r_I s))) (set_I (i_new n (r_I s)) s) Q
  | IdxPut p d k => wp k (set_I (i_put p d (r_I s)) s) Q
  | IdxSearch p q e k kp =>
      match i_search p q e (r_I s) with Ok sr => wp (k sr) s Q | Panic => wp kp s Q end
  | IdxRead p k => wp (k (p ≫= fun p => i_heap (r_I s) !! p)) s Q
  | GoPut ps d k =>
      (None ∈ ps -> Q Crashed) /\
      (forall ps' i', ps' ≡ₚ ps -> puts ps' d (r_I s) = Some i' -> wp k (set_I i' s) Q)
  | GoSearch ps q e k =>
      (Panic ∈ search_all ps q e (r_I s) -> Q Crashed) /\
      (forall bl bl', search_all ps q e (r_I s) = Ok <$> bl -> bl' ≡ₚ bl -> wp (k (concat bl')) s Q)
  end.

Ltac lk Hw :=
  repeat match goal with
  | H : rw_pending _ = _ |- _ => rewrite H in Hw; clear H
  | H : rw_writer _ = _ |- _ => rewrite H in Hw; clear H
  | H : rw_readers _ = _ |- _ => rewrite H in Hw; clear H
  | H : i_search _ _ _ _ = _ |- _ => rewrite H in Hw; clear H
  end; simpl in Hw.

Theorem wp_sound p st Q res : wp p st Q -> outcome_of (TRun p) st res -> Q res.
Proof.
  revert st. induction p; intros st Hw Ho; simpl in Hw;
    apply outcome_inv in Ho as
      [(? & ? & ->)|[(? & ->)|[(Hc & ->)|[(Hf & Hb & ->)|(t' & s' & Hs & Ho)]]]];
    simplify_eq; try done; try (by exfalso; apply Hf);
    try (by inversion Hc; simplify_eq);
    try (by exfalso; eapply Hb; econstructor);
    try (by inversion Hs; simplify_eq; eauto).
  - (* RLock blocked *)
    destruct (rw_pending (get_mu m st)) eqn:E1; [done|]. destruct (rw_writer (get_mu m st)) eqn:E2; [done|].
    exfalso. eapply Hb. by econstructor.
  - inversion Hs; simplify_eq. lk Hw. eauto.
  - inversion Hc; simplify_eq. by lk Hw.
  - exfalso. destruct (rw_readers (get_mu m st)) eqn:E.
    + eapply Hb. by apply S_RUnlock_bad.
    + eapply Hb. by eapply S_RUnlock.
  - inversion Hs; simplify_eq. lk Hw. eauto.
  - destruct (rw_pending (get_mu m st)) eqn:E1; [done|]. destruct (rw_writer (get_mu m st)) eqn:E2; [done|].
    exfalso. eapply Hb. by econstructor.
  - (* Lock announced *)
    inversion Hs; simplify_eq. lk Hw.
    apply outcome_inv in Ho as
      [(? & ? & ->)|[(? & ->)|[(Hc & ->)|[(Hf & Hb & ->)|(t' & s' & Hs' & Ho)]]]]; try done.
    + inversion Hc.
    + destruct (rw_readers (get_mu m st)) eqn:E; [|done].
      exfalso. eapply Hb. apply S_Acquire. by destruct m.
    + inversion Hs'; simplify_eq.
      assert (rw_readers (get_mu m st) = 0) as E by (by destruct m).
      rewrite E in Hw. apply IHp in Hw; [done|]. revert Ho. by destruct m, st.
  - inversion Hc; simplify_eq. by lk Hw.
  - exfalso. destruct (rw_writer (get_mu m st)) eqn:E.
    + eapply Hb. by eapply S_Unlock.
    + eapply Hb. by apply S_Unlock_bad.
  - inversion Hs; simplify_eq. lk Hw. eauto.
  - exfalso. eapply Hb. apply (S_Append _ _ _ _ (S (sl_len s))). lia.
  - exfalso. destruct (i_search p q e (r_I st)) eqn:E; eapply Hb;
      [by eapply S_IdxSearch|by eapply S_IdxSearch_panic].
  - inversion Hs; simplify_eq.
    + lk Hw. eauto.
    + lk Hw. eauto.
  - (* GoPut *)
    inversion Hs; simplify_eq.
    eapply TPut_inv in Ho as [(ps' & i' & Hp & Hi & Ho)|[Hin ->]]; [| |reflexivity].
    + rewrite omap_id_Some in Hp. destruct Hw as [_ Hw]. eapply IHp; [|exact Ho]. eauto.
    + rewrite omap_id_Some in Hin. by apply Hw.
  - (* GoSearch *)
    inversion Hs; simplify_eq.
    destruct (outcomes_split (search_all ps q e (r_I s'))) as [[bl Hbl]|Hp].
    + eapply TSearch_inv_ok in Ho as (bl' & Hbl' & Ho); [|reflexivity|apply rl_inv_start|
        rewrite spend_start, Hbl; reflexivity].
      destruct Hw as [_ Hw]. eapply H; [|exact Ho]. simpl. eauto.
    + eapply TSearch_inv_panic in Ho; [|reflexivity|by rewrite spend_start].
      subst. by apply Hw.
Qed.

Lemma wp_mono p st (Q Q' : result -> Prop) : wp p st Q -> (forall res, Q res -> Q' res) -> wp p st Q'.
Proof.
  intros Hw HQ. revert st Hw. induction p; intros st Hw; simpl in *; eauto;
    try (by repeat case_match; eauto).
  - destruct Hw as [H1 H2]. split; [by eauto|]. intros. eapply IHp, H2; eauto.
  - destruct Hw as [H1 H2]. split; [by eauto|]. intros. eapply H, H2; eauto.
Qed.
