(** * The abstract machine is exact: every behaviour it allows is an execution
    of the code.  Also: the reading calls leave the whole state unchanged. *)
From Coq Require Import Lia.
From stdpp Require Import gmap list.
From Verif Require Import Entities Search SpecSearch Repo Sem RepoWp SpecRepo ProofRepo ProofTotal.
Open Scope nat_scope.

(** ** Reading calls *)
Definition same (s : repo) (res : result) : Prop :=
  match res with Done _ s' | Panicked s' => s' = s | _ => True end.

Lemma wp_resolve_any sl n i acc k s Q :
  (forall ps, wp (k ps) s Q) -> wp (resolve_loop sl i n acc k) s Q.
Proof. intros Hk. revert i acc. induction n as [|n IH]; intros i acc; simpl; [done|]. apply IH. Qed.

Lemma wp_rows_any keys acc k s Q :
  (forall rows, wp (k rows) s Q) -> wp (rows_loop keys acc k) s Q.
Proof.
  intros Hk. revert acc. induction keys as [|a keys IH]; intros acc; simpl; [done|].
  destruct (_ !! _); apply IH.
Qed.

Lemma rw_restore w : rw_pending w = false -> rw_writer w = false -> MkRW (rw_readers w) false false = w.
Proof. by destruct w; simpl; intros -> ->. Qed.

Lemma search_tail_same ps q e s w :
  rw_readers (r_imu s) = S (rw_readers w) -> rw_pending (r_imu s) = rw_pending w ->
  rw_writer (r_imu s) = rw_writer w ->
  wp (search_tail ps q e) s (same (MkRepo (r_I s) (r_A s) w (r_amu s))).
Proof.
  intros H1 H2 H3.
  assert (E : set_mu MI (MkRW (rw_readers w) (rw_pending (r_imu s)) (rw_writer (r_imu s))) s =
              MkRepo (r_I s) (r_A s) w (r_amu s)) by (rewrite H2, H3; by destruct s, w).
  unfold search_tail. destruct ps as [|p [|p' ps]]; simpl.
  - split; [done|]. intros. by rewrite H1.
  - destruct (i_search _ _ _ _); simpl; by rewrite H1.
  - split; [done|]. intros. by rewrite H1.
Qed.

Lemma search_same n q e s : wp (Search_prog n q e) s (same s).
Proof.
  destruct s as [I A [ri pi wi] [ra pa wa]]. unfold Search_prog. cbn [wp get_mu set_mu r_imu r_amu r_I r_A rw_pending rw_writer rw_readers].
  destruct pi; [done|]. destruct wi; [done|]. cbn [orb].
  destruct (i_map I !! n) as [p|].
  - apply (search_tail_same [Some p] q e (MkRepo I A (MkRW (S ri) false false) (MkRW ra pa wa)) (MkRW ri false false)); done.
  - cbn [wp get_mu set_mu r_imu r_amu r_I r_A rw_pending rw_writer rw_readers].
    destruct pa; [done|]. destruct wa; [done|]. cbn [orb].
    destruct (a_map A !! n).
    + apply wp_resolve_any. intros ps. cbn [wp get_mu set_mu r_imu r_amu r_I r_A rw_pending rw_writer rw_readers].
      apply (search_tail_same ps q e (MkRepo I A (MkRW (S ri) false false) (MkRW ra false false)) (MkRW ri false false)); done.
    + done.
Qed.

Definition reading (c : call) : Prop :=
  match c with
  | CList | CListAliases | CHas _ | CHasAlias _ | CSearch _ _ _ | CString _ => True
  | _ => False
  end.

Lemma reading_same c s : reading c -> wp (prog_of c) s (same s).
Proof.
  destruct c; try done; intros _; simpl.
  - destruct (rw_pending (r_imu s)) eqn:E1; [done|]. destruct (rw_writer (r_imu s)) eqn:E2; [done|]. simpl.
    intros. unfold set_mu; simpl. rewrite (rw_restore _ E1 E2). by destruct s.
  - destruct (rw_pending (r_amu s)) eqn:E1; [done|]. destruct (rw_writer (r_amu s)) eqn:E2; [done|]. simpl.
    intros. apply wp_rows_any. intros. simpl. unfold set_mu; simpl. rewrite (rw_restore _ E1 E2). by destruct s.
  - destruct (rw_pending (r_imu s)) eqn:E1; [done|]. destruct (rw_writer (r_imu s)) eqn:E2; [done|]. simpl.
    intros. unfold set_mu; simpl. rewrite (rw_restore _ E1 E2). by destruct s.
  - destruct (rw_pending (r_amu s)) eqn:E1; [done|]. destruct (rw_writer (r_amu s)) eqn:E2; [done|]. simpl.
    intros. unfold set_mu; simpl. rewrite (rw_restore _ E1 E2). by destruct s.
  - apply search_same.
  - destruct (rw_pending (r_imu s)) eqn:E1; [done|]. destruct (rw_writer (r_imu s)) eqn:E2; [done|]. simpl.
    intros names _. apply wp_string. intros. simpl. unfold set_mu; simpl. rewrite (rw_restore _ E1 E2). by destruct s.
Qed.

Lemma reading_keeps c s r s' : reading c -> call_result c s (Done r s') -> s' = s.
Proof. intros Hr Hc. exact (wp_sound _ _ (same s) _ (reading_same c s Hr) Hc). Qed.
Lemma reading_keeps_panic c s s' : reading c -> call_result c s (Panicked s') -> s' = s.
Proof. intros Hr Hc. exact (wp_sound _ _ (same s) _ (reading_same c s Hr) Hc). Qed.

(** ** Executions with chosen orders *)
Definition waiting (c : schild) : option (list SearchResult) :=
  match c with SGot sr => Some sr | _ => None end.

Lemma rtc_children_search c1 ps bl q e r k s :
  search_all ps q e (r_I s) = Ok <$> bl ->
  rtc sstep (TSearch (c1 ++ map SStart ps) q e r k, s) (TSearch (c1 ++ map SGot bl) q e r k, s).
Proof.
  revert c1 bl. induction ps as [|p ps IH]; intros c1 [|b bl] Hb; try done. simpl in Hb.
  injection Hb as Hp Hb. eapply rtc_l.
  - constructor. eapply (S_Child_search _ _ _ _ _ _ (length c1)); [|exact Hp].
    simpl. by rewrite list_lookup_middle.
  - simpl. replace (<[length c1:=SGot b]> (c1 ++ SStart p :: map SStart ps))
      with ((c1 ++ [SGot b]) ++ map SStart ps).
    + replace (c1 ++ SGot b :: map SGot bl) with ((c1 ++ [SGot b]) ++ map SGot bl) by (by rewrite <- app_assoc).
      by apply IH.
    + rewrite <- (Nat.add_0_r (length c1)), insert_app_r. simpl. by rewrite <- app_assoc.
Qed.

Lemma rtc_children_append bl cs q e r k s :
  Forall (fun c => c = SDone \/ is_Some (waiting c)) cs ->
  bl ≡ₚ omap waiting cs ->
  exists cs', Forall (fun c => c = SDone) cs' /\
    rtc sstep (TSearch cs q e r k, s) (TSearch cs' q e (r ++ concat bl) k, s).
Proof.
  revert cs r. induction bl as [|b bl IH]; intros cs r Hcs Hp.
  - exists cs. split.
    + apply Permutation_nil_l in Hp. clear -Hcs Hp. induction cs as [|c cs IH]; [done|].
      inversion Hcs as [|?? H1 H2]; subst. destruct H1 as [->|[x Hx]]; simpl in Hp.
      * constructor; [done|by apply IH].
      * destruct c; simplify_eq/=.
    + simpl. by rewrite app_nil_r.
  - assert (Hin : b ∈ omap waiting cs) by (rewrite <- Hp; left).
    apply elem_of_list_omap in Hin as (c & Hin & Hc). destruct c; try done. simpl in Hc. simplify_eq.
    apply elem_of_list_split in Hin as (c1 & c2 & ->).
    assert (HI : forall x y, <[length c1 := y]> (c1 ++ x :: c2) = c1 ++ y :: c2).
    { intros x y. rewrite <- (Nat.add_0_r (length c1)), insert_app_r. done. }
    assert (HL : forall x : schild, (c1 ++ x :: c2) !! length c1 = Some x).
    { intros x. by rewrite list_lookup_middle. }
    apply Forall_app in Hcs as [F1 F2]. inversion F2 as [|?? _ F3]; subst.
    destruct (IH (c1 ++ SDone :: c2) (r ++ b)) as (cs' & Hd & Hs).
    + apply Forall_app. split; [done|]. constructor; [by left|done].
    + rewrite omap_app in Hp |- *. cbn in Hp |- *. rewrite <- Permutation_middle in Hp.
      by apply Permutation_cons_inv in Hp.
    + exists cs'. split; [done|]. rewrite <- app_assoc in Hs.
      eapply rtc_l; [constructor; eapply (S_Child_lock _ _ _ _ _ _ (length c1)); [by rewrite HL|]|rewrite HI].
      { apply Forall_app. split; [|constructor; [done|]]; eapply Forall_impl; try done;
          intros c [->|[? Hc]]; try done; by destruct c. }
      eapply rtc_l; [constructor; eapply (S_Child_read _ _ _ _ _ _ (length c1)); by rewrite HL|rewrite HI].
      eapply rtc_l; [constructor; eapply (S_Child_write _ _ _ _ _ _ (length c1)); by rewrite HL|rewrite HI].
      eapply rtc_l; [constructor; eapply (S_Child_unlock _ _ _ _ _ _ (length c1)); by rewrite HL|rewrite HI].
      exact Hs.
Qed.

Lemma outcome_steps t s t' s' res :
  rtc sstep (t, s) (t', s') -> outcome_of t' s' res -> outcome_of t s res.
Proof.
  intros Hs Ho.
  destruct Ho as [r s2 H|s2 H|t2 s2 H H1|t2 s2 H H1 H2].
  - apply CR_done. by eapply rtc_transitive.
  - apply CR_panic. by eapply rtc_transitive.
  - eapply CR_crash; [by eapply rtc_transitive|done].
  - eapply CR_block; [by eapply rtc_transitive|done|done].
Qed.

(** Some execution of [p] from [s] ends in [res]. *)
Fixpoint mp (p : prog) (s : repo) (res : result) : Prop :=
  match p with
  | Ret r => res = Done r s
  | RLock m k =>
      let w := get_mu m s in
      if rw_pending w || rw_writer w then False
      else mp k (set_mu m (MkRW (S (rw_readers w)) false false) s) res
  | RUnlock m k =>
      let w := get_mu m s in
      match rw_readers w with
      | O => False
      | S n => mp k (set_mu m (MkRW n (rw_pending w) (rw_writer w)) s) res
      end
  | GetIndex n k => mp (k (i_map (r_I s) !! n)) s res
  | RangeIndices k => exists names, names ≡ₚ (map_to_list (i_map (r_I s))).*1 /\ mp (k names) s res
  | GetAlias a k => mp (k (a_map (r_A s) !! a)) s res
  | RangeAliases k => exists names, names ≡ₚ (map_to_list (a_map (r_A s))).*1 /\ mp (k names) s res
  | LoadElem sl i k => mp (k (a_load sl i (r_A s))) s res
  | GoSearch ps q e k =>
      exists bl bl', search_all ps q e (r_I s) = Ok <$> bl /\ bl' ≡ₚ bl /\ mp (k (concat bl')) s res
  | _ => False
  end.

Lemma mp_sound p st res : mp p st res -> outcome_of (TRun p) st res.
Proof.
  revert st. induction p; intros st Hm; simpl in Hm; try done.
  - subst. by constructor.
  - destruct (rw_pending (get_mu m st)) eqn:E1; [done|]. destruct (rw_writer (get_mu m st)) eqn:E2; [done|].
    eapply outcome_step; [by econstructor|]. eauto.
  - destruct (rw_readers (get_mu m st)) eqn:E; [done|].
    eapply outcome_step; [by econstructor|]. eauto.
  - eapply outcome_step; [by econstructor|]. eauto.
  - destruct Hm as (names & Hp & Hm). eapply outcome_step; [by econstructor|]. eauto.
  - eapply outcome_step; [by econstructor|]. eauto.
  - destruct Hm as (names & Hp & Hm). eapply outcome_step; [by econstructor|]. eauto.
  - eapply outcome_step; [by econstructor|]. eauto.
  - destruct Hm as (bl & bl' & Hs & Hp & Hm).
    destruct (rtc_children_append bl' (map SGot bl) q e [] k st) as (cs' & Hd & Hr).
    + apply Forall_forall. intros c (sr & -> & _)%elem_of_list_fmap. right. simpl. eauto.
    + rewrite Hp. clear. induction bl as [|b bl IH]; [done|]. simpl. by constructor.
    + simpl in Hr. eapply outcome_steps; [|apply H; exact Hm].
      eapply rtc_l; [constructor; by constructor|].
      eapply rtc_transitive; [apply (rtc_children_search [] ps bl); done|].
      eapply rtc_transitive; [exact Hr|]. eapply rtc_l; [constructor; by constructor|]. done.
Qed.

(** ** Every behaviour of the abstract machine happens *)
Lemma mp_resolve sl n i acc k s res :
  wf_slice (r_A s) sl -> i + n = sl_len sl ->
  mp (k (acc ++ ((fun x => i_map (r_I s) !! x) <$> drop i (a_cont (r_A s) sl)))) s res ->
  mp (resolve_loop sl i n acc k) s res.
Proof.
  intros Hw. revert i acc. induction n as [|n IH]; intros i acc Hi H; simpl.
  - rewrite drop_ge in H by (rewrite cont_length by done; lia). simpl in H. by rewrite app_nil_r in H.
  - apply IH; [lia|]. rewrite wf_drop in H by (done || lia).
    rewrite <- app_assoc. done.
Qed.

Lemma mp_rows keys acc k s res :
  mp (k (acc ++ omap (fun a => pair a <$> a_map (r_A s) !! a) keys)) s res ->
  mp (rows_loop keys acc k) s res.
Proof.
  revert acc. induction keys as [|a keys IH]; intros acc Hk; simpl.
  - cbn in Hk. by rewrite app_nil_r in Hk.
  - cbn in Hk. destruct (a_map (r_A s) !! a) as [sl|]; apply IH; simpl in Hk; [|done].
    by rewrite <- app_assoc.
Qed.

Definition exact_out ckn tk (c : call) (s : repo) (o : out) : Prop :=
  match o with
  | ODone b v' => exists r s', call_result c s (Done r s') /\ see s' r = b /\ shape ckn tk s' v'
  | OPanic v' => exists s', call_result c s (Panicked s') /\ shape ckn tk s' v'
  | OCrash => call_result c s Crashed
  | OBlock => call_result c s Blocked
  end.

Lemma exact_det ckn tk c s v o :
  shape ckn tk s v -> spec ckn tk c v o -> (forall o', spec ckn tk c v o' -> o' = o) ->
  exact_out ckn tk c s o.
Proof.
  intros Hs Ho Hdet. destruct (call_total c s) as [res Hres].
  destruct (call_refines ckn tk c s v _ Hs Hres) as (o' & Ho' & Hm).
  apply Hdet in Ho' as ->. destruct o, res; simpl in *; try done.
  - destruct Hm. eauto.
  - eauto.
Qed.

Ltac mgo := cbn [mp get_mu set_mu r_I r_A r_imu r_amu rw_readers rw_pending rw_writer orb].

Theorem spec_exact ckn tk c s v o :
  (forall show, c <> CString show) -> shape ckn tk s v -> spec ckn tk c v o -> exact_out ckn tk c s o.
Proof.
  intros Hstr Hsh Ho. pose proof Ho as Ho'.
  destruct c; simpl in Ho'.
  - (* List *)
    destruct Ho' as (l & Hl & ->). simpl. exists (RNames l), s. split; [|done].
    destruct s as [I A im am], v as [idx ali lI lA], Hsh as [HI HA E1 E2]. simpl in *. subst.
    apply mp_sound. unfold List_prog. simpl. exists l. split; [|done].
    rewrite Hl. symmetry. by eapply shI_keys.
  - (* ListAliases *)
    destruct (v_leakA v) eqn:El.
    { subst. apply exact_det with v; [done|done|]. intros o Hx. simpl in Hx. by rewrite El in Hx. }
    destruct Ho' as (l & Hl & ->). simpl.
    destruct s as [I A im am], v as [idx ali lI lA]; pose proof Hsh as [HI HA E1 E2]. simpl in *. subst.
    set (rows := omap (fun a => pair a <$> a_map A !! a) l.*1).
    assert (Hrows : (fun row : string * slice => (row.1, a_cont A row.2)) <$> rows = l).
    { assert (Hall : forall x, x ∈ l -> ali !! x.1 = Some x.2).
      { intros [a la] Hx. rewrite Hl in Hx. by apply elem_of_map_to_list in Hx. }
      clear Hl Ho. subst rows. induction l as [|[a la] l IH]; [done|]. cbn.
      pose proof (Hall (a, la) ltac:(left)) as Ha. simpl in Ha.
      destruct (a_map A !! a) as [sl|] eqn:E.
      - destruct (shA_fwd _ _ HA _ _ E) as [_ Hc]. cbn. f_equal; [congruence|].
        apply IH. intros x Hx. apply Hall. by right.
      - apply (shA_none _ _ HA) in E. congruence. }
    exists (RRows rows), (MkRepo I A (MkRW lI false false) (MkRW 0 false false)).
    split; [|split; [|done]].
    + apply mp_sound. change (prog_of CListAliases) with ListAliases_prog. unfold ListAliases_prog. mgo. exists l.*1. split.
      * rewrite (shA_keys _ _ HA). by rewrite Hl.
      * apply mp_rows. done.
    + simpl. f_equal. exact Hrows.
  - subst. by apply exact_det with v.
  - destruct (v_leakA v) eqn:El; subst; apply exact_det with v; try done;
      intros o Hx; simpl in Hx; by rewrite El in Hx.
  - apply exact_det with v; [done|done|]. intros o' Hx. simpl in Hx.
    repeat case_decide; repeat case_match; congruence.
  - apply exact_det with v; [done|done|]. intros o' Hx. simpl in Hx.
    repeat case_decide; repeat case_match; congruence.
  - apply exact_det with v; [done|done|]. intros o' Hx. simpl in Hx.
    destruct (v_idx v !! index).
    + case_decide; congruence.
    + destruct (v_leakA v); [congruence|]. case_decide; [congruence|].
      destruct (v_ali v !! index); [case_decide|]; congruence.
  - (* Search *)
    destruct (v_idx v !! index) as [reqs|] eqn:Ei.
    { apply exact_det with v; [done|done|]. intros o' Hx. simpl in Hx. rewrite Ei in Hx.
      case_match; congruence. }
    destruct (v_leakA v) eqn:El.
    { apply exact_det with v; [done|done|]. intros o' Hx. simpl in Hx. rewrite Ei, El in Hx. congruence. }
    destruct (v_ali v !! index) as [l|] eqn:Ea.
    2:{ apply exact_det with v; [done|done|]. intros o' Hx. simpl in Hx. rewrite Ei, El, Ea in Hx. congruence. }
    assert (Hcase : (exists x, l = [x]) \/
      (forall x, l <> [x]) /\ search_many ckn tk (v_idx v) terms engine l o v).
    { destruct l as [|x [|y l]]; eauto; right; split; try done; intros ?; congruence. }
    destruct Hcase as [[x ->]|[Hne Hm]].
    { apply exact_det with v; [done|done|]. intros o' Hx. simpl in Hx. rewrite Ei, El, Ea in Hx.
      case_match; congruence. }
    destruct Hm as [(bl & bl' & Hbl & Hp & ->)|[Hin ->]].
    + simpl. exists (RResults (concat bl')), s. split; [|done].
      destruct s as [I A im am], v as [idx ali lI lA]; pose proof Hsh as [HI HA E1 E2]. simpl in *. subst.
      apply mp_sound. change (prog_of (CSearch index terms engine)) with (Search_prog index terms engine). unfold Search_prog. mgo.
      apply (shI_None _ _ _ _ _ HI) in Ei. rewrite Ei. mgo.
      destruct (a_map A !! index) as [sl|] eqn:E; [|apply (shA_none _ _ HA) in E; congruence].
      destruct (shA_fwd _ _ HA _ _ E) as [Hw Hc].
      apply mp_resolve; [done|done|]. rewrite drop_0. mgo. simpl app.
      assert (Hsa : search_all ((fun x => i_map I !! x) <$> a_cont A sl) terms engine I = Ok <$> bl).
      { rewrite <- Hbl. rewrite Hc in Ea. injection Ea as <-. unfold search_all. rewrite <- list_fmap_compose.
        apply list_fmap_ext. intros _ x _. by eapply i_search_name. }
      rewrite Hc in Ea. injection Ea as <-.
      assert (Ht : forall ps, (forall x, ps <> [x]) -> search_tail ps terms engine =
        GoSearch ps terms engine (fun result => RUnlock MI (Ret (RResults result)))).
      { intros [|? [|??]] Hx; try done. by destruct (Hx o). }
      rewrite Ht.
      * mgo. exists bl, bl'. split; [exact Hsa|]. done.
      * intros x Hx. destruct (a_cont A sl) as [|y [|z l]]; try done. by destruct (Hne y).
    + apply exact_det with v; [done|done|]. intros o' Hx. simpl in Hx. rewrite Ei, El, Ea in Hx.
      destruct l as [|x [|y l]]; [..|destruct Hx as [(bl & bl' & Hbl & _ & _)|[_ ->]]; [|done]];
        [by inversion Hin|by destruct (Hne x)|].
      rewrite Hbl in Hin. apply elem_of_list_fmap in Hin as (? & ? & _). done.
  - apply exact_det with v; [done|done|]. intros o' Hx. simpl in Hx.
    repeat case_decide; repeat case_match; congruence.
  - apply exact_det with v; [done|done|]. intros o' Hx. simpl in Hx.
    repeat case_decide; repeat case_match; congruence.
  - by destruct (Hstr show).
Qed.
