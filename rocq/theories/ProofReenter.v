(** * Proofs about code that calls the repository back. *)
From Coq Require Import Lia.
From stdpp Require Import gmap list.
From Verif Require Import Entities Search SpecSearch Repo Sem RepoWp SpecRepo ProofRepo ProofTotal Fault SpecFault ProofFault
  Reenter SpecReenter.
Open Scope nat_scope.

(** ** Sequencing *)
Lemma wp_bindp p k kp s (Q1 Q : result -> Prop) :
  wp p s Q1 ->
  (forall r s', Q1 (Done r s') -> wp (k r) s' Q) ->
  (forall s', Q1 (Panicked s') -> wp kp s' Q) ->
  (Q1 Crashed -> Q Crashed) -> (Q1 Blocked -> Q Blocked) ->
  wp (bindp p k kp) s Q.
Proof.
  intros Hw H1 H2 H3 H4. revert s Hw.
  induction p; intros st Hw; cbn [bindp wp] in *; eauto; try (by repeat case_match; eauto).
  - destruct Hw as [Ha Hb]. split; [auto|]. intros; eauto.
  - destruct Hw as [Ha Hb]. split; [auto|]. intros; eauto.
Qed.

Lemma wp_and p s (Q1 Q2 : result -> Prop) : wp p s Q1 -> wp p s Q2 -> wp p s (fun res => Q1 res /\ Q2 res).
Proof.
  revert s. induction p; intros st Hw1 Hw2; cbn [wp] in *; eauto; try (by repeat case_match; eauto).
  - destruct Hw1 as [Ha Hb], Hw2 as [Hc Hd]. split; [auto|]. intros; eauto.
  - destruct Hw1 as [Ha Hb], Hw2 as [Hc Hd]. split; [auto|]. intros; eauto.
Qed.

(** ** While the index table is held for reading nothing changes it *)
(** [p] holds it [m] times itself. *)
Fixpoint calm (m : nat) (p : prog) : Prop :=
  match p with
  | Ret _ | Throw => True
  | RLock MI k => calm (S m) k
  | RUnlock MI k => match m with O => False | S m' => calm m' k end
  | Lock MI _ => True
  | Unlock MI _ => False
  | RLock MA k | RUnlock MA k | Lock MA k | Unlock MA k => calm m k
  | SetIndex _ _ _ | DelIndex _ _ | NewIndex _ _ | IdxPut _ _ _ | GoPut _ _ _ => False
  | GetIndex _ k => forall x, calm m (k x)
  | RangeIndices k => forall x, calm m (k x)
  | GetAlias _ k => forall x, calm m (k x)
  | SetAlias _ _ k | DelAlias _ k | StoreElem _ _ _ k => calm m k
  | RangeAliases k => forall x, calm m (k x)
  | LoadElem _ _ k => forall x, calm m (k x)
  | Append _ _ k => forall x, calm m (k x)
  | MakeSlice _ k => forall x, calm m (k x)
  | IdxSearch _ _ _ k kp => (forall x, calm m (k x)) /\ calm m kp
  | IdxRead _ k => forall x, calm m (k x)
  | GoSearch _ _ _ k => forall x, calm m (k x)
  end.

Definition keeps (I : Ipart) (res : result) : Prop :=
  match res with Done _ s | Panicked s => r_I s = I | _ => True end.

Lemma wp_calm p m s : calm m p -> m < rw_readers (r_imu s) -> wp p s (keeps (r_I s)).
Proof.
  revert m s. induction p; intros m' st Hc Hm; cbn [wp calm keeps] in *; eauto; try done.
  - (* RLock *) destruct m; cbn [get_mu]; case_match; try done.
    + by apply (IHp (S m') (set_mu MI _ st)); [|simpl; lia].
    + by apply (IHp m' (set_mu MA _ st)).
  - destruct m; cbn [get_mu].
    + destruct m' as [|m']; [done|]. destruct (rw_readers (r_imu st)) as [|n] eqn:E; [done|].
      apply (IHp m' (set_mu MI _ st)); [done|]. simpl. lia.
    + destruct (rw_readers (r_amu st)); [done|]. by apply (IHp m' (set_mu MA _ st)).
  - destruct m; cbn [get_mu].
    + case_match; [done|]. destruct (rw_readers (r_imu st)); [lia|done].
    + case_match; [done|]. destruct (rw_readers (r_amu st)); [|done]. by apply (IHp m' (set_mu MA _ st)).
  - destruct m; [done|]. cbn [get_mu]; case_match; [|done]. by apply (IHp m' (set_mu MA _ st)).
  - by apply (IHp m' (set_A _ st)).
  - by apply (IHp m' (set_A _ st)).
  - by apply (IHp m' (set_A _ st)).
  - intros cap Hcap. by apply (H _ m' (set_A _ st)).
  - by apply (H _ m' (set_A _ st)).
  - destruct Hc as [H1 H2]. case_match; eauto.
Qed.

Lemma calm_scan m s n i x k : (forall b, calm m (k b)) -> calm m (scan_loop s i n x k).
Proof. intros Hk. revert i. induction n; intros; simpl; [done|]. intros y. case_decide; auto. Qed.
Lemma calm_filter m s n i x acc k : (forall b, calm m (k b)) -> calm m (filter_loop s i n x acc k).
Proof. intros Hk. revert i acc. induction n; intros; simpl; [done|]. intros y. case_decide; [auto|]. simpl. auto. Qed.
Lemma calm_resolve m s n i acc k : (forall b, calm m (k b)) -> calm m (resolve_loop s i n acc k).
Proof. intros Hk. revert i acc. induction n; intros; simpl; [done|]. auto. Qed.
Lemma calm_rows m l acc k : (forall b, calm m (k b)) -> calm m (rows_loop l acc k).
Proof. intros Hk. revert acc. induction l; intros; simpl; [done|]. intros []; auto. Qed.
Lemma calm_string m show l acc k : (forall b, calm m (k b)) -> calm m (string_loop show l acc k).
Proof. intros Hk. revert acc. induction l; intros; simpl; [done|]. intros ? []; auto. Qed.
Lemma calm_search m l q e : calm (S m) (search_tail l q e).
Proof. unfold search_tail. destruct l as [|? [|? ?]]; simpl; auto. Qed.

Lemma calm_call c : calm 0 (prog_of c).
Proof.
  destruct c; cbn [prog_of].
  - done.
  - simpl. intros. by apply calm_rows.
  - done.
  - done.
  - simpl. intros [|]; simpl; [|done]. intros [|]; simpl; [|done]. apply calm_scan. intros []; simpl; done.
  - unfold UnAlias_prog. case_decide; simpl; [done|]. intros [|]; simpl; [|done]. intros [|]; simpl; [|done].
    apply calm_filter. intros. case_decide; done.
  - unfold Put_prog, getIndices. simpl. intros [|]; simpl; [done|]. intros [|]; simpl; [|done].
    by apply calm_resolve.
  - unfold Search_prog. cbn [calm]. intros [|]; [apply calm_search|]. cbn [calm]. intros [|]; cbn [calm]; [|done].
    apply calm_resolve. intros. cbn [calm]. apply calm_search.
  - done.
  - simpl. by intros [|].
  - simpl. intros. by apply calm_string.
Qed.

(** ** The calls that only use the alias table *)
Fixpoint still (p : prog) : Prop :=
  match p with
  | Ret _ | Throw => True
  | RLock MA k | RUnlock MA k | Lock MA k | Unlock MA k => still k
  | GetAlias _ k => forall x, still (k x)
  | DelAlias _ k => still k
  | RangeAliases k => forall x, still (k x)
  | _ => False
  end.
Lemma wp_still p s : still p -> wp p s (keeps (r_I s)).
Proof.
  revert s. induction p; intros st Hc; cbn [wp still keeps] in *; eauto; try done.
  - destruct m; [done|]. case_match; [done|]. by apply (IHp (set_mu MA _ st)).
  - destruct m; [done|]. destruct (rw_readers _); [done|]. by apply (IHp (set_mu MA _ st)).
  - destruct m; [done|]. case_match; [done|]. destruct (rw_readers _); [|done]. by apply (IHp (set_mu MA _ st)).
  - destruct m; [done|]. case_match; [|done]. by apply (IHp (set_mu MA _ st)).
  - by apply (IHp (set_A _ st)).
Qed.
Lemma still_rows l acc k : (forall b, still (k b)) -> still (rows_loop l acc k).
Proof. intros Hk. revert acc. induction l; intros; simpl; [done|]. intros []; auto. Qed.
Lemma still_call c : alias_only c -> still (prog_of c).
Proof.
  destruct c; simpl; try done.
  - intros _ ?. by apply still_rows.
  - intros ->. by unfold UnAlias_prog.
Qed.

Lemma peq_sym p p' : peq p p' -> peq p' p.
Proof. induction 1; constructor; auto. Qed.

Section reenter.
  Context (ckn : bool) (tk : Tokenizer).
  Ltac go := cbn [wp get_mu set_mu set_I set_A r_I r_A r_imu r_amu rw_readers rw_pending rw_writer orb].

  Lemma spec_held_done c v o v' :
    v_leakI v <> 0 -> spec ckn tk c v (ODone o v') -> v_idx v' = v_idx v /\ v_leakI v <= v_leakI v'.
  Proof.
    intros Hl Ho. destruct c; cbn [spec] in Ho;
      repeat match type of Ho with
      | _ /\ _ => destruct Ho as [? Ho]
      | exists _, _ => destruct Ho as [? Ho]
      | (if _ then _ else _) => case_match
      | match ?x with _ => _ end => destruct x
      | search_many _ _ _ _ _ _ _ _ => destruct Ho as [(? & ? & ? & ? & Ho)|[? Ho]]
      end; try done; simplify_eq/=; auto.
  Qed.
  Lemma spec_held_panic c v v' : spec ckn tk c v (OPanic v') -> v' = v.
  Proof.
    intros Ho. destruct c; cbn [spec] in Ho;
      repeat match type of Ho with
      | _ /\ _ => destruct Ho as [? Ho]
      | exists _, _ => destruct Ho as [? Ho]
      | (if _ then _ else _) => case_match
      | match ?x with _ => _ end => destruct x
      | search_many _ _ _ _ _ _ _ _ => destruct Ho as [(? & ? & ? & ? & Ho)|[? Ho]]
      end; try done; simplify_eq/=; auto.
  Qed.

  (** Some calls while the table is held for reading. *)
  Lemma ref_calls cs k kp s v (Q : result -> Prop) :
    shape ckn tk s v -> v_leakI v <> 0 ->
    (forall s' v', shape ckn tk s' v' -> r_I s' = r_I s -> v_leakI v <= v_leakI v' -> v_idx v' = v_idx v ->
       calls_spec (spec ckn tk) cs v (ODone OUnit v') -> wp k s' Q) ->
    (forall s' v', shape ckn tk s' v' -> r_I s' = r_I s -> v_leakI v <= v_leakI v' -> v_idx v' = v_idx v ->
       calls_spec (spec ckn tk) cs v (OPanic v') -> wp kp s' Q) ->
    (calls_spec (spec ckn tk) cs v OCrash -> Q Crashed) ->
    (calls_spec (spec ckn tk) cs v OBlock -> Q Blocked) ->
    wp (calls cs k kp) s Q.
  Proof.
    revert s v. induction cs as [|c cs IH]; intros s v Hs Hl H1 H2 H3 H4.
    { by apply (H1 s v). }
    simpl. eapply wp_bindp.
    { apply wp_and; [by apply (ref_call ckn tk c s v)|]. apply (wp_calm _ 0); [apply calm_call|].
      rewrite (sh_imu _ _ _ _ Hs). simpl. lia. }
    - intros r s' [(o & Ho & Hm) Hk]. destruct o; try done. destruct Hm as [<- Hs']. simpl in Hk.
      destruct (spec_held_done _ _ _ _ Hl Ho) as [Hi Hle].
      apply (IH s' v0 Hs'); [lia|..].
      + intros s2 v2 Hs2 E2 Hle2 Hi2 Hc. apply (H1 s2 v2); [done|congruence|lia|congruence|]. by eexists.
      + intros s2 v2 Hs2 E2 Hle2 Hi2 Hc. apply (H2 s2 v2); [done|congruence|lia|congruence|]. by eexists.
      + intros Hc. apply H3. by eexists.
      + intros Hc. apply H4. by eexists.
    - intros s' [(o & Ho & Hm) Hk]. destruct o; try done. simpl in Hm, Hk.
      pose proof (spec_held_panic _ _ _ Ho). subst.
      apply (H2 s' v); [done|done|lia|done|]. by eexists.
    - intros [(o & Ho & Hm) _]. destruct o; try done. apply H3. by eexists.
    - intros [(o & Ho & Hm) _]. destruct o; try done. apply H4. by eexists.
  Qed.

  (** Some calls while the table is locked for writing. *)
  Lemma ref_locked c s v :
    fshape ckn tk s v true ->
    wp (prog_of c) s (fun res => keeps (r_I s) res /\
      match res with
      | Done r s' => exists v', locked_spec ckn tk c v (ODone (see s' r) v') /\ fshape ckn tk s' v' true
      | Blocked => locked_spec ckn tk c v OBlock
      | _ => False
      end).
  Proof.
    intros H. destruct (decide (alias_only c)) as [Hc|Hc].
    - apply wp_and; [by apply wp_still, still_call|].
      assert (textless c) as Ht by (by destruct c).
      eapply wp_peq; [apply peq_sym, (textless_peq no_fault c Ht)|].
      eapply wp_mono; [by apply (ref_dead no_fault ckn tk c)|].
      intros res (o & b & [-> Ho] & Hm). change (locked_spec ckn tk c v o) in Ho.
      destruct res, o; simpl in Hm; try done.
      + destruct Hm as [<- Hs]. eauto.
      + unfold locked_spec in Ho. rewrite decide_True in Ho by done.
        destruct c; try done; cbn [spec] in Ho; repeat case_match; try done; by destruct Ho as (? & ? & ?).
      + unfold locked_spec in Ho. rewrite decide_True in Ho by done.
        destruct c; try done; cbn [spec] in Ho; repeat case_match; try done; by destruct Ho as (? & ? & ?).
    - assert (locked_spec ckn tk c v OBlock) as Hb by (unfold locked_spec; by rewrite decide_False).
      pose proof (fs_imu _ _ _ _ _ H) as E.
      destruct c; try (by destruct Hc); cbn [prog_of];
        unfold List_prog, Has_prog, Alias_prog, Put_prog, getIndices, Search_prog, Rename_prog, Drop_prog, String_prog, UnAlias_prog;
        try (rewrite decide_False by done); cbn [wp get_mu]; rewrite E; simpl; done.
  Qed.

  Lemma ref_locked_calls cs k kp s v (Q : result -> Prop) :
    fshape ckn tk s v true ->
    (forall s' v', fshape ckn tk s' v' true -> r_I s' = r_I s ->
       calls_spec (locked_spec ckn tk) cs v (ODone OUnit v') -> wp k s' Q) ->
    (calls_spec (locked_spec ckn tk) cs v OBlock -> Q Blocked) ->
    wp (calls cs k kp) s Q.
  Proof.
    revert s v. induction cs as [|c cs IH]; intros s v Hs H1 H2.
    { by apply (H1 s v). }
    simpl. eapply wp_bindp; [by apply (ref_locked c s v)|..].
    - intros r s' [Hk (v' & Ho & Hs')]. simpl in Hk. apply (IH s' v' Hs').
      + intros s2 v2 Hs2 E2 Hc. apply (H1 s2 v2); [done|congruence|]. by eexists.
      + intros Hc. apply H2. by eexists.
    - by intros s' [_ ?].
    - by intros [_ ?].
    - intros [_ Ho]. apply H2. by eexists.
  Qed.

  Definition rpost (x : rcall) v (res : result) : Prop :=
    exists o, rspec ckn tk x v o /\ match_out ckn tk res o.

  Lemma ref_rsearch_tail cs i p q e s v (Q : result -> Prop) :
    shape ckn tk s (hold v) -> i_map (r_I s) !! i = Some p ->
    (forall res o o1, calls_spec (spec ckn tk) cs (hold v) o1 ->
        match o1 with
        | ODone _ v1 =>
            match search_name ckn tk (v_idx v) q e i with
            | Ok sr => o = ODone (OResults sr) (release v1)
            | Panic => o = OPanic (release v1)
            end
        | OPanic v1 => o = OPanic (release v1)
        | OCrash => o = OCrash
        | OBlock => o = OBlock
        end -> match_out ckn tk res o -> Q res) ->
    wp (rsearch_tail cs [Some p] q e) s Q.
  Proof.
    intros Hs Hp HQ. unfold rsearch_tail.
    assert (Hrel : forall s' v', shape ckn tk s' v' -> 0 < v_leakI v' ->
       shape ckn tk (set_mu MI (MkRW (pred (v_leakI v')) false false) s') (release v')).
    { intros s' v' [] Hl. by split. }
    apply (ref_calls cs _ _ s (hold v) Q Hs); [done|..].
    - intros s' v' Hs' E Hl Hi Hc. cbn [wp]. rewrite <- E in Hp. rewrite <- Hp.
      rewrite (i_search_name _ _ _ _ _ _ _ (sh_I _ _ _ _ Hs')). rewrite Hi. change (v_idx (hold v)) with (v_idx v).
      simpl in Hl. destruct (search_name ckn tk (v_idx v) q e i) as [sr|] eqn:Es; cbn [wp get_mu];
        rewrite (sh_imu _ _ _ _ Hs'); cbn [rw_readers]; destruct (v_leakI v') as [|l] eqn:El; [lia| |lia|];
        specialize (Hrel _ _ Hs'); rewrite El in Hrel; specialize (Hrel ltac:(lia)); cbn [wp];
        eapply HQ; [exact Hc|reflexivity|split; [done|exact Hrel]|exact Hc|reflexivity|exact Hrel].
    - intros s' v' Hs' E Hl Hi Hc. cbn [wp get_mu]. simpl in Hl.
        rewrite (sh_imu _ _ _ _ Hs'); cbn [rw_readers]; destruct (v_leakI v') as [|l] eqn:El; [lia|].
        specialize (Hrel _ _ Hs'); rewrite El in Hrel; specialize (Hrel ltac:(lia)); cbn [wp].
        eapply HQ; [exact Hc|reflexivity|exact Hrel].
    - intros Hc. by eapply HQ.
    - intros Hc. by eapply HQ.
  Qed.

  Ltac start H s v :=
    destruct s as [I A im am], v as [idx ali lI lA], H as [HI HA E1 E2];
    cbn [v_idx v_ali v_leakI v_leakA r_I r_A r_imu r_amu] in *; subst im am.

  Lemma ref_rsearch cs n q e s v :
    shape ckn tk s v -> modelled v (RSearch cs n q e) ->
    wp (rsearch cs n q e) s (rpost (RSearch cs n q e) v).
  Proof.
    intros H Hmod. start H s v. unfold rsearch. go.
    destruct (i_map I !! n) as [p|] eqn:En; go.
    - destruct (shI_fwd _ _ _ _ HI _ _ En) as (_ & nm & reqs & _ & Hm).
      apply (ref_rsearch_tail cs n p q e _ (MkView idx ali lI lA)); [by split|done|].
      intros res o o1 Ho1 Ho Hmo. exists o. split; [|done]. cbn [rspec]. unfold rsearch_spec, target.
      cbn [v_idx]. rewrite Hm. eauto.
    - apply (shI_None _ _ _ _ _ HI) in En as Hm. destruct lA; go.
      { exists OBlock. split; [|done]. cbn [rspec]. unfold rsearch_spec, target. cbn [v_idx v_leakA]. rewrite Hm. simpl. by rewrite Hm. }
      destruct (a_map A !! n) as [sl|] eqn:Ea; go.
      + destruct (shA_fwd _ _ HA _ _ Ea) as [Hw Ham].
        apply wp_resolve; [done|lia|]. rewrite drop_0. go. simpl app.
        destruct Hmod as [Hx|Hmod]; [simpl in Hx; rewrite Hm in Hx; by destruct Hx|]. simpl in Hmod. rewrite Ham in Hmod. simpl in Hmod.
        destruct (a_cont A sl) as [|x [|y l]] eqn:Ec; cbn [fmap list_fmap]; [| |simpl in Hmod; lia].
        * unfold rsearch_tail, search_tail. go. split; [intros Hin; by apply elem_of_nil in Hin|].
          intros bl bl' Hbl Hp. destruct bl; [|done]. apply Permutation_nil_r in Hp as ->. go.
          exists (ODone (OResults []) (MkView idx ali lI false)). split; [|split; [done|by split]].
          cbn [rspec]. unfold rsearch_spec, target. cbn [v_idx v_leakA v_ali]. rewrite Hm, Ham. simpl. rewrite Hm, Ham.
          left. exists [], []. done.
        * destruct (i_map I !! x) as [p|] eqn:Ex.
          -- destruct (shI_fwd _ _ _ _ HI _ _ Ex) as (_ & nm & reqs & _ & Hmx).
             apply (ref_rsearch_tail cs x p q e _ (MkView idx ali lI false)); [by split|done|].
             intros res o o1 Ho1 Ho Hmo. exists o. split; [|done]. cbn [rspec]. unfold rsearch_spec, target.
             cbn [v_idx v_leakA v_ali]. rewrite Hm, Ham, Hmx. eauto.
          -- apply (shI_None _ _ _ _ _ HI) in Ex as Hmx. unfold rsearch_tail, search_tail. go. simpl i_search.
             exists (OPanic (MkView idx ali lI false)). split; [|by split].
             cbn [rspec]. unfold rsearch_spec, target. cbn [v_idx v_leakA v_ali]. rewrite Hm, Ham, Hmx. simpl. rewrite Hm, Ham.
             unfold search_name. by rewrite Hmx.
      + apply (shA_m_None _ _ _ HA) in Ea as Ham.
        exists (ODone (OError (not_exist_error n)) (MkView idx ali lI false)). split; [|split; [done|by split]].
        cbn [rspec]. unfold rsearch_spec, target. cbn [v_idx v_leakA v_ali]. rewrite Hm, Ham.
        simpl. by rewrite Hm, Ham.
  Qed.

  Lemma ref_rput cs n d s v :
    shape ckn tk s v -> modelled v (RPut cs n d) ->
    wp (rput cs n d) s (rpost (RPut cs n d) v).
  Proof.
    intros H Hmod. start H s v. unfold rput, getIndices. go.
    assert (Hone : forall i p A0, i_map I !! i = Some p -> shA A0 ali ->
      (forall o, (exists o1, calls_spec (locked_spec ckn tk) cs (MkView idx ali 0 lA) o1 /\
         match o1 with
         | ODone _ v1 => o = ODone OUnit (MkView (put_each d [i] idx) (v_ali v1) (v_leakI v1) (v_leakA v1))
         | _ => o = OBlock
         end) -> rspec ckn tk (RPut cs n d) (MkView idx ali 0 lA) o) ->
      wp (calls cs (GoPut [Some p] d (Unlock MI (Ret RUnit))) (GoPut [None] d Throw))
        (MkRepo I A0 (MkRW 0 false true) (MkRW 0 false lA)) (rpost (RPut cs n d) (MkView idx ali 0 lA))).
    { intros i p A0 Hp HA0 Hsp.
      apply (ref_locked_calls cs _ _ _ (MkView idx ali 0 lA)); [by split|..].
      - intros s' v' Hs' Es Hc. destruct Hs' as [HI' HA' Ei Ea]. go. split; [intros Hin; by apply elem_of_list_singleton in Hin|].
        intros ps' i' Hps Hi. apply Permutation_singleton_r in Hps as ->. simpl in Hi. injection Hi as <-. rewrite Es. cbn [r_I].
        go. rewrite Ei. cbn [rw_writer]. go.
        eexists. split; [apply Hsp; eexists; split; [exact Hc|reflexivity]|]. split; [done|]. split; cbn; [|done..].
        by apply shI_put.
      - intros Hc. exists OBlock. split; [|done]. apply Hsp. by eexists. }
    assert (Ht : forall i, target (MkView idx ali 0 lA) n = Some i -> forall o,
       (exists o1, calls_spec (locked_spec ckn tk) cs (MkView idx ali 0 lA) o1 /\
         match o1 with
         | ODone _ v1 => o = ODone OUnit (MkView (put_each d [i] idx) (v_ali v1) (v_leakI v1) (v_leakA v1))
         | _ => o = OBlock
         end) -> rspec ckn tk (RPut cs n d) (MkView idx ali 0 lA) o).
    { intros i Hi o Ho. cbn [rspec]. unfold rput_spec. rewrite decide_False by (intros E; by apply E). by rewrite Hi. }
    destruct (i_map I !! n) as [p|] eqn:En; go.
    - destruct (shI_fwd _ _ _ _ HI _ _ En) as (_ & nm & reqs & _ & Hm).
      destruct lI as [|lI]; go.
      2:{ exists OBlock. split; [|done]. cbn [rspec]. unfold rput_spec. rewrite decide_True by done. simpl. by rewrite Hm. }
      apply (Hone n p A En HA). apply Ht. unfold target. cbn [v_idx]. by rewrite Hm.
    - apply (shI_None _ _ _ _ _ HI) in En as Hm. destruct lA; go.
      { exists OBlock. split; [|done]. cbn [rspec]. unfold rput_spec. case_decide; [simpl; by rewrite Hm|].
        unfold target. cbn [v_idx v_leakA]. by rewrite Hm. }
      destruct (a_map A !! n) as [sl|] eqn:Ea; go.
      + destruct (shA_fwd _ _ HA _ _ Ea) as [Hw Ham].
        apply wp_resolve; [done|lia|]. rewrite drop_0. go. simpl app.
        destruct lI as [|lI].
        2:{ exists OBlock. split; [|done]. cbn [rspec]. unfold rput_spec. rewrite decide_True by done. simpl. by rewrite Hm. }
        destruct Hmod as [Hx|Hmod]; [simpl in Hx; rewrite Hm in Hx; by destruct Hx|]. simpl in Hmod. rewrite Ham in Hmod. simpl in Hmod.
        destruct (a_cont A sl) as [|x [|y l]] eqn:Ec; cbn [fmap list_fmap]; [| |simpl in Hmod; lia].
        * go. split; [intros Hin; by apply elem_of_nil in Hin|].
          intros ps' i' Hps Hi. apply Permutation_nil_r in Hps as ->. simpl in Hi. injection Hi as <-. go.
          exists (ODone OUnit (MkView idx ali 0 false)). split; [|split; [done|by split]].
          cbn [rspec]. unfold rput_spec, target. cbn [v_idx v_leakA v_ali v_leakI]. rewrite Hm, Ham. simpl. rewrite Hm, Ham.
          rewrite decide_False by (intros HE; by inversion HE). done.
        * destruct (i_map I !! x) as [p|] eqn:Ex.
          -- destruct (shI_fwd _ _ _ _ HI _ _ Ex) as (_ & nm & reqs & _ & Hmx).
             apply (Hone x p A Ex HA). apply Ht. unfold target. cbn [v_idx v_leakA v_ali]. by rewrite Hm, Ham, Hmx.
          -- apply (shI_None _ _ _ _ _ HI) in Ex as Hmx. go. split.
             ++ intros _. exists OCrash. split; [|done].
                cbn [rspec]. unfold rput_spec, target. cbn [v_idx v_leakA v_ali v_leakI]. rewrite Hm, Ham, Hmx. simpl. rewrite Hm, Ham.
                rewrite decide_True; [done|]. by constructor.
             ++ intros ps' i' Hps Hi. apply Permutation_singleton_r in Hps as ->. done.
      + apply (shA_m_None _ _ _ HA) in Ea as Ham. destruct lI as [|lI]; go.
        2:{ exists OBlock. split; [|done]. cbn [rspec]. unfold rput_spec. rewrite decide_True by done. simpl. by rewrite Hm. }
        assert (Hsp : forall o, (exists o1, calls_spec (locked_spec ckn tk) cs (MkView (<[n := []]> idx) ali 0 false) o1 /\
         match o1 with
         | ODone _ v1 => o = ODone OUnit (MkView (<[n := [d]]> idx) (v_ali v1) (v_leakI v1) (v_leakA v1))
         | _ => o = OBlock
         end) -> rspec ckn tk (RPut cs n d) (MkView idx ali 0 false) o).
        { intros o Ho. cbn [rspec]. unfold rput_spec, target. cbn [v_idx v_leakA v_ali v_leakI]. rewrite Hm, Ham. exact Ho. }
        apply (ref_locked_calls cs _ _ _ (MkView (<[n := []]> idx) ali 0 false)).
        { split; [|done..]. cbn. by apply shI_new_empty. }
        -- intros s' v' [HI' HA' Ei Eam] Es Hc. go. rewrite Es, Ei. cbn [rw_writer r_I]. go.
           eexists. split; [apply Hsp; eexists; split; [exact Hc|reflexivity]|]. split; [done|]. split; cbn; [|done..].
           by apply shI_new.
        -- intros Hc. exists OBlock. split; [|done]. apply Hsp. by eexists.
  Qed.

  Lemma ref_rcall x s v : shape ckn tk s v -> modelled v x -> wp (rprog x) s (rpost x v).
  Proof.
    intros Hs Hm. destruct x.
    - by apply (ref_call ckn tk).
    - by apply ref_rsearch.
    - by apply ref_rput.
  Qed.
  Lemma rcall_refines x s v res :
    shape ckn tk s v -> modelled v x -> rresult x s res -> exists o, rspec ckn tk x v o /\ match_out ckn tk res o.
  Proof. intros Hs Hm Hr. refine (wp_sound _ _ (rpost x v) _ _ Hr). by apply ref_rcall. Qed.
  Lemma rcall_total x s : exists res, rresult x s res.
  Proof. apply (acc_outcome (TRun (rprog x), s)), run_acc. Qed.

  (** The machine moves deterministically. *)
  Lemma locked_det c v o1 v1 o2 v2 :
    locked_spec ckn tk c v (ODone o1 v1) -> locked_spec ckn tk c v (ODone o2 v2) -> v1 = v2.
  Proof. unfold locked_spec. case_decide; [|done]. apply spec_det_done. Qed.
  Lemma calls_det (sp : call -> view -> out -> Prop) cs v o1 v1 o2 v2 :
    (forall c v o1 v1 o2 v2, sp c v (ODone o1 v1) -> sp c v (ODone o2 v2) -> v1 = v2) ->
    calls_spec sp cs v (ODone o1 v1) -> calls_spec sp cs v (ODone o2 v2) -> v1 = v2.
  Proof.
    intros Hd. revert v. induction cs as [|c cs IH]; intros v; simpl; [by intros ??; simplify_eq|].
    intros (x & Hx & H1) (y & Hy & H2). destruct x; try done. destruct y; try done.
    rewrite (Hd _ _ _ _ _ _ Hx Hy) in H1. by eapply IH.
  Qed.

  Lemma spec_done_panic c v o v1 v2 : spec ckn tk c v (ODone o v1) -> spec ckn tk c v (OPanic v2) -> False.
  Proof.
    intros H1 H2. destruct c; cbn [spec] in H1, H2;
      repeat match type of H2 with
      | _ /\ _ => destruct H2 as [? H2]
      | exists _, _ => destruct H2 as [? H2]
      | (if _ then _ else _) => case_match
      | match ?x with _ => _ end => destruct x
      | search_many _ _ _ _ _ _ _ _ => destruct H2 as [(? & ? & ? & ? & H2)|[? H2]]
      end; done.
  Qed.
  Lemma calls_panic cs v v1 v2 :
    calls_spec (spec ckn tk) cs v (OPanic v1) -> calls_spec (spec ckn tk) cs v (OPanic v2) -> v1 = v2.
  Proof.
    revert v. induction cs as [|c cs IH]; intros v; simpl; [done|].
    intros (x & Hx & H1) (y & Hy & H2). destruct x; try done; destruct y; try done.
    - rewrite (spec_det_done _ _ _ _ _ _ _ _ Hx Hy) in H1. by eapply IH.
    - exfalso. by eapply spec_done_panic.
    - exfalso. by eapply spec_done_panic.
    - simplify_eq. apply spec_held_panic in Hx, Hy. congruence.
  Qed.
  Lemma calls_done_panic cs v o v1 v2 :
    calls_spec (spec ckn tk) cs v (ODone o v1) -> calls_spec (spec ckn tk) cs v (OPanic v2) -> False.
  Proof.
    revert v. induction cs as [|c cs IH]; intros v; simpl; [done|].
    intros (x & Hx & H1) (y & Hy & H2). destruct x; try done; destruct y; try done.
    - rewrite (spec_det_done _ _ _ _ _ _ _ _ Hx Hy) in H1. by eapply IH.
    - by eapply spec_done_panic.
  Qed.

  Lemma rspec_det_done x v o1 v1 o2 v2 :
    rspec ckn tk x v (ODone o1 v1) -> rspec ckn tk x v (ODone o2 v2) -> v1 = v2.
  Proof.
    destruct x; cbn [rspec].
    - apply spec_det_done.
    - unfold rsearch_spec. destruct (target v n); [|apply spec_det_done].
      intros (x & Hx & H1) (y & Hy & H2). destruct x as [? w| | |]; try done; destruct y as [? w'| | |]; try done.
      rewrite (calls_det _ _ _ _ _ _ _ (spec_det_done ckn tk) Hx Hy) in H1. case_match; by simplify_eq.
    - unfold rput_spec. case_decide; [apply spec_det_done|].
      assert (Hrun : forall v0 idx' (o1 o2 : obs) v1 v2,
        (exists o, calls_spec (locked_spec ckn tk) cs v0 o /\ match o with
           | ODone _ w => ODone o1 v1 = ODone OUnit (MkView idx' (v_ali w) (v_leakI w) (v_leakA w)) | _ => ODone o1 v1 = OBlock end) ->
        (exists o, calls_spec (locked_spec ckn tk) cs v0 o /\ match o with
           | ODone _ w => ODone o2 v2 = ODone OUnit (MkView idx' (v_ali w) (v_leakI w) (v_leakA w)) | _ => ODone o2 v2 = OBlock end) ->
        v1 = v2).
      { intros v0 idx' ???? (x & Hx & H1) (y & Hy & H2). destruct x as [? w| | |]; try done; destruct y as [? w'| | |]; try done.
        rewrite (calls_det _ _ _ _ _ _ _ locked_det Hx Hy) in H1. by simplify_eq. }
      destruct (target v n); [apply Hrun|]. destruct (v_leakA v); [done|]. destruct (v_ali v !! n); [apply spec_det_done|apply Hrun].
  Qed.
  Lemma rspec_det_panic x v v1 v2 : rspec ckn tk x v (OPanic v1) -> rspec ckn tk x v (OPanic v2) -> v1 = v2.
  Proof.
    destruct x; cbn [rspec].
    - apply spec_det_panic.
    - unfold rsearch_spec. destruct (target v n); [|apply spec_det_panic].
      intros (x & Hx & H1) (y & Hy & H2). destruct x as [? w|w| |]; try done; destruct y as [? w'|w'| |]; try done.
      + rewrite (calls_det _ _ _ _ _ _ _ (spec_det_done ckn tk) Hx Hy) in H1. case_match; by simplify_eq.
      + exfalso. by eapply calls_done_panic.
      + exfalso. by eapply calls_done_panic.
      + rewrite (calls_panic _ _ _ _ Hx Hy) in H1. by simplify_eq.
    - unfold rput_spec. case_decide; [apply spec_det_panic|].
      destruct (target v n); [intros (x & _ & Hx); by destruct x|]. destruct (v_leakA v); [done|].
      destruct (v_ali v !! n); [apply spec_det_panic|intros (x & _ & Hx); by destruct x].
  Qed.

  Lemma rreach_shape s v : rreach ckn tk s v -> shape ckn tk s v.
  Proof.
    induction 1 as [|s v x r s' v' Hr IH Hm Hc Hs|s v x s' v' Hr IH Hm Hc Hs].
    - apply shape_new.
    - destruct (rcall_refines x s v _ IH Hm Hc) as (o & Ho & Hmo). destruct o; try done. destruct Hmo as [<- Hsh].
      by rewrite (rspec_det_done _ _ _ _ _ _ Hs Ho).
    - destruct (rcall_refines x s v _ IH Hm Hc) as (o & Ho & Hmo). destruct o; try done.
      by rewrite (rspec_det_panic _ _ _ _ Hs Ho).
  Qed.
End reenter.
