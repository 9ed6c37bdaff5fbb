(** * One section of a call, run alone, and what follows: everything that the machine
    of SpecConc.v can do without leaving locks behind happens. *)
From Coq Require Import Lia.
From stdpp Require Import list gmap.
From Verif Require Import Entities Search SpecSearch Repo Sem RepoWp SpecRepo ProofRepo ProofTotal
  SpecConc Locks Race ProofRace Reduce ProofConc ProofMachine ProofExact ProofSim SpecExact.
Open Scope nat_scope.

(** ** Running a section alone *)
Record alone_ok (s : repo) (h : held) : Prop := {
  ao_I : r_imu s = rw_of h.1;
  ao_A : r_amu s = rw_of h.2 }.

Lemma alone_ok_step h s h' s' : alone_ok s h -> lstep h s h' s' -> alone_ok s' h'.
Proof.
  intros [H1 H2] Hl. destruct Hl as [s' E1 E2|m b w' Ht].
  - split; congruence.
  - assert (get_mu m s = rw_of (get_h m h)) as E by (by destruct m). rewrite E in Ht.
    assert (w' = rw_of b) as ->.
    { clear E. destruct (get_h m h); inversion Ht; simpl in *; simplify_eq; done. }
    destruct m; by split.
Qed.

Section alone.
  Context {B : Type} (CM : B -> data -> Prop) (FIN : B -> prog -> data -> Prop)
    (CR : option B -> Prop) (strict : bool) (WR : nat -> nat -> Prop).
  Context (md : mode) (Hmd : md <> Any) (L : ret -> Prop).

  Definition stops (lin : option B) (t : thr) (s : repo) : Prop :=
    exists p' s' h' g', rtc sstep (t, s) (TRun p', s') /\ alone_ok s' h' /\ disc md L g' h' p' /\
      (finished (TRun p') \/ h' = none_held) /\
      match lin with
      | None => exists b, CM b (dat s') /\ FIN b p' (dat s')
      | Some b => FIN b p' (dat s') /\ dat s' = dat s
      end.
  Definition dies_alone (lin : option B) (t : thr) (s : repo) : Prop :=
    exists t' s', rtc sstep (t, s) (t', s') /\ tstep s' t' TCrash /\
      match lin with
      | None => CR None \/ exists b D, CM b D /\ CR (Some b)
      | Some b => CR (Some b)
      end.

  Lemma run_alone t : forall lin g h s,
    wpT CM FIN CR strict WR t lin s -> tdisc md L g h t -> alone_ok s h ->
    (lin = None -> g = true) -> (is_Some lin -> g = false) ->
    stops lin t s \/ dies_alone lin t s.
  Proof.
    induction (thr_tacc t) as [t _ IH]. intros lin g h s Hw Hd Ha Hn Hs.
    destruct (step_or_stuck t s) as [Hf|[[x Hx]|Hst]].
    - left. destruct t as [p| | |]; try done. exists p, s, h, g. split_and!; [done|done|done|by left|].
      assert (Reduce.ends CM FIN lin p s) as He by (destruct p; done).
      destruct lin as [b|]; [by split|]. exact He.
    - assert (Hb : boundary lin t \/ ~ boundary lin t).
      { destruct lin, t as [[]| | |]; simpl; auto. }
      destruct Hb as [Hb|Hb].
      { left. destruct lin as [b|]; [|done]. destruct t as [p| | |]; try done.
        assert (g = false) as -> by eauto.
        exists p, s, h, false. split_and!; [done|done|done| | |done].
        - right. destruct p; try done; destruct Hd as ([?|?] & _); done.
        - destruct p; done. }
      assert (Hgr : g = true \/ h <> none_held).
      { destruct g; [by left|]. right. intros ->. destruct lin as [b|]; [|by specialize (Hn eq_refl)].
        destruct t as [p|m k|cs d k|cs q e r k]; simpl in Hd.
        - destruct (boundary_prog md Hmd _ _ _ Hd) as [Hf|(m & k & [-> | ->])]; [|by apply Hb..].
          destruct p; try done; inversion Hx.
        - by destruct Hd.
        - by destruct Hd.
        - destruct md; by destruct Hd as [? ?]. }
      destruct x as [t' s'|].
      + destruct (step_disc _ _ _ _ _ _ _ _ Hd Hx Hgr) as (g' & h' & Hd' & Hl & Hrel & Hnr & Hdat & _).
        assert (Ha' : alone_ok s' h') by by eapply alone_ok_step.
        destruct (wpT_step _ _ _ _ _ _ _ _ _ _ Hw Hx Hb) as [W1 W2].
        assert (Hst : forall t2 s2, rtc sstep (t', s') (t2, s2) -> rtc sstep (t, s) (t2, s2)).
        { intros t2 s2 Hr. eapply rtc_l; [by constructor|done]. }
        assert (Hdec : releasing t \/ ~ releasing t) by (destruct t as [[]| | |]; simpl; auto).
        destruct Hdec as [Hr|Hr].
        * destruct (Hrel Hr) as (-> & Hdt & _). specialize (W1 Hr).
          destruct lin as [b|]; simpl in W1.
          -- destruct (IH t' ltac:(by exists s, s') (Some b) false h' s' W1 Hd' Ha' ltac:(done) ltac:(done)) as [HL|HR'].
             ++ left. destruct HL as (p2 & s2 & h2 & g2 & R1 & R2 & R3 & R4 & R5 & R6). exists p2, s2, h2, g2.
                split_and!; try (by auto). congruence.
             ++ right. destruct HR' as (t2 & s2 & R1 & R2 & R3). exists t2, s2. split_and!; by auto.
          -- destruct W1 as (b & Hcm & W1).
             destruct (IH t' ltac:(by exists s, s') (Some b) false h' s' W1 Hd' Ha' ltac:(done) ltac:(done)) as [HL|HR'].
             ++ left. destruct HL as (p2 & s2 & h2 & g2 & R1 & R2 & R3 & R4 & R5 & R6). exists p2, s2, h2, g2.
                split_and!; try (by auto). exists b. split; [|done]. rewrite R6, Hdt. done.
             ++ right. destruct HR' as (t2 & s2 & R1 & R2 & R3). exists t2, s2. split_and!; [by auto..|].
                right. by exists b, (dat s).
        * destruct (Hnr Hr) as [-> _]. specialize (W2 Hr).
          destruct (IH t' ltac:(by exists s, s') lin g h' s' W2 Hd' Ha' Hn Hs) as [HL|HR'].
          -- left. destruct HL as (p2 & s2 & h2 & g2 & R1 & R2 & R3 & R4 & R5). exists p2, s2, h2, g2.
             split_and!; try (by auto). destruct lin as [b|]; [|done]. destruct R5 as [R5 R6]. split; [done|].
             rewrite R6. apply Hdat. eauto.
          -- right. destruct HR' as (t2 & s2 & R1 & R2 & R3). exists t2, s2. split_and!; by auto.
      + right. exists t, s. split_and!; [done|done|].
        assert (CR lin) as Hc.
        { eapply wpT_crash; [exact Hw|exact Hx|]. intros Hr. destruct Ha as [A1 A2].
          destruct t as [[]| | |]; try done; inversion Hx; simplify_eq; destruct Hd as [Hm _];
            destruct m; simpl in *; rewrite ?A1, ?A2, ?Hm in *; done. }
        destruct lin; [done|by left].
    - exfalso. destruct Ha as [A1 A2].
      destruct (stuck_cases s t Hst) as (m & k & [[[-> | ->] Hm]|[-> Hm]]).
      + destruct Hd as (_ & Hh & _). destruct m; simpl in *; rewrite ?A1, ?A2, Hh in Hm; simpl in Hm; naive_solver.
      + destruct Hd as (_ & Hh & _). destruct m; simpl in *; rewrite ?A1, ?A2, Hh in Hm; simpl in Hm; naive_solver.
      + destruct Hd as (_ & Hh & _). destruct m; simpl in *; rewrite ?A1, ?A2, Hh in Hm; simpl in Hm; done.
  Qed.
End alone.

(** ** The sections of the repo *)
Definition leak_ret (x : stage) (r : ret) : Prop :=
  match x with
  | Todo c => may_leak c r
  | UnAliasAt _ _ => r = RBool false
  | _ => False
  end.

Lemma disc_stage md strict x p D :
  linkC md strict x p D -> ~ finished (TRun p) ->
  exists md', md' <> Any /\ disc md' (leak_ret x) true none_held p.
Proof.
  intros Hl Hf. destruct x as [c|n d t|n|a i|[o|]].
  - destruct Hl as [-> _].
    destruct c; try (exists NoUnAlias; split; [done|]; by apply disc_call).
    exists NoRename. split; [done|]. by apply disc_call.
  - destruct Hl as [-> _]. exists NoRename. split; [done|]. unfold put_code. simpl.
    destruct t; simpl; auto 20.
  - simpl in Hl. subst p. exists NoRename. split; [done|]. unfold drop_code. simpl. split_and!; try (by auto 20).
    intros l. apply disc_drop; [done..|]. simpl. by auto 20.
  - simpl in Hl. subst p. exists NoRename. split; [done|]. unfold unalias_code. simpl. split_and!; try (by auto 20).
    intros [sl|]; [|simpl; right; done].
    apply disc_filter; [done..|]. intros s'. destruct (decide _); simpl; by auto 20.
  - destruct Hl as (r & -> & _). by destruct Hf.
  - simpl in Hl. subst p. by destruct Hf.
Qed.

Lemma rtc_string show names acc k s :
  rtc sstep (TRun (string_loop show names acc k), s)
    (TRun (k (acc ++ foldr (fun n t => match i_map (r_I s) !! n ≫= (fun p => i_heap (r_I s) !! p) with
                                       | Some mi => show mi | None => "<nil>" end ++ String (ascii_of_N 10) "" ++ t) "" names)%string), s).
Proof.
  revert acc. induction names as [|n names IH]; intros acc; cbn [string_loop foldr].
  - rewrite string_app_nil. done.
  - eapply rtc_l; [constructor; by econstructor|]. eapply rtc_l; [constructor; by econstructor|].
    destruct (i_map (r_I s) !! n ≫= (fun p => i_heap (r_I s) !! p)) as [mi|] eqn:E; simpl in E |- *; rewrite ?E.
    + specialize (IH (acc ++ show mi ++ String (ascii_of_N 10) "")%string). by rewrite !string_app_assoc in IH.
    + specialize (IH (acc ++ "<nil>" ++ String (ascii_of_N 10) "")%string). by rewrite !string_app_assoc in IH.
Qed.

Definition reading_stage (x : stage) : Prop :=
  match x with Todo CList | Todo CListAliases | Todo (CString _) | Todo (CSearch _ _ _) => True | _ => False end.

Section exact.
  Context (md : mode) (ckn : bool) (tk : Tokenizer).
  Notation shc := (shC false ckn tk).
  Notation link := (linkC md false).
  Notation free s := (alone_ok s none_held).

  (** A section that leaves no lock behind, run alone, ends as the machine allows. *)
  Lemma section_runs x p s w :
    link x p (dat s) -> shc (dat s) w -> free s -> ~ finished (TRun p) -> ~ leaks x w ->
    (exists p' s' b x' w', rtc sstep (TRun p, s) (TRun p', s') /\ free s' /\ shc (dat s') w' /\
       section ckn tk x w b w' /\ leave b x' /\ link x' p' (dat s') /\ GC md (dat s) (dat s')) \/
    (exists t' s', rtc sstep (TRun p, s) (t', s') /\ tstep s' t' TCrash /\
       (dies_before x w \/ exists b w', section ckn tk x w b w' /\ dies_inside b)).
  Proof.
    intros Hl Hs Ha Hf Hn.
    destruct (disc_stage _ _ _ _ _ Hl Hf) as (md' & Hmd & Hd).
    pose proof (all_sections md false ckn tk ltac:(done) x p (dat s) w Hl Hs Hf) as Hw.
    assert (alone (dat s) none_held = s) as Es.
    { destruct Ha as [A1 A2], s as [I A im am]. unfold alone. simpl in *. by subst. }
    rewrite Es in Hw.
    destruct (run_alone _ _ _ _ _ md' Hmd (leak_ret x) (TRun p) None true none_held s Hw Hd Ha ltac:(done) ltac:(by intros [? ?]))
      as [(p' & s' & h' & g' & R1 & R2 & R3 & R4 & b & (w' & C1 & C2 & C3) & (x' & F1 & F2))|(t' & s' & R1 & R2 & R3)].
    - left. exists p', s', b, x', w'. split; [done|]. split; [|done].
      assert (h' = none_held) as ->; [|done].
      destruct R4 as [R4|R4]; [|done]. destruct p'; try done. simpl in R3. destruct R3 as [?|[Hlk _]]; [done|]. exfalso.
      destruct x as [c|n d t|n|a i|a]; simpl in Hlk; try done.
      + destruct c; simpl in Hlk; try done. destruct Hlk as [Hi ->]. simpl in C2, Hn.
        rewrite decide_False in C2 by done. destruct (decide (c_idx w !! index = None)) as [E|E]; [by destruct Hn|].
        destruct C2 as [-> ->]. simpl in F1. subst x'. simpl in F2. discriminate F2.
      + subst r. simpl in C2, Hn. destruct (c_ali w !! a) as [l|]; [|done]. destruct C2 as [-> ->].
        simpl in F1. subst x'. simpl in F2. destruct F2 as (r & E & F2). injection E as <-. specialize (F2 s). discriminate F2.
    - right. exists t', s'. split; [done|]. split; [done|]. destruct R3 as [R3|(b & D & (w' & C1 & C2 & C3) & R3)]; [by left|].
      right. by exists b, w'.
  Qed.

  (** Every answer that the machine allows to a call that only reads. *)
  Lemma read_runs x p s w b w' x' :
    reading_stage x -> link x p (dat s) -> shc (dat s) w -> free s ->
    section ckn tk x w b w' -> leave b x' ->
    exists p' s', rtc sstep (TRun p, s) (TRun p', s') /\ free s' /\ shc (dat s') w' /\
      link x' p' (dat s') /\ GC md (dat s) (dat s').
  Proof.
    intros Hx Hl Hs Ha He Hb. destruct x as [c| | | |]; try done. destruct Hl as [-> Hal].
    destruct s as [I A im am]. destruct Ha as [A1 A2]. simpl in A1, A2. subst im am.
    destruct c; try done; simpl in He.
    - destruct He as (l & Hp & -> & ->). simpl in Hb. subst x'.
      eexists (Ret (RNames l)), (MkRepo I A rw_free rw_free). split_and!; [|by split|done|by exists (RNames l)|apply GC_refl].
      eapply rtc_l; [constructor; by econstructor|]. eapply rtc_l.
      { constructor. apply S_RangeIndices with (names := l). rewrite Hp. by rewrite <- (sc_map _ _ _ _ _ Hs). }
      eapply rtc_l; [constructor; by econstructor|]. done.
    - destruct He as (l & Hp & -> & ->). simpl in Hb. subst x'. pose proof (sc_ali _ _ _ _ _ Hs) as HA. cbn [d_A dat r_A] in HA.
      set (rows := omap (fun a => pair a <$> a_map A !! a) l.*1).
      assert (Hrows : rows_of A rows = l /\ Forall (fun row => snap A row.2) rows /\ rows.*1 = l.*1).
      { assert (Hall : forall x, x ∈ l -> c_ali w !! x.1 = Some x.2).
        { intros [a la] Hin. rewrite Hp in Hin. by apply elem_of_map_to_list in Hin. }
        clear Hp. subst rows. induction l as [|[a la] l IH]; [split_and!; constructor|]. cbn.
        pose proof (Hall (a, la) ltac:(left)) as Hla. simpl in Hla.
        destruct (a_map A !! a) as [sl|] eqn:E.
        - destruct (shA_fwd _ _ HA _ _ E) as [_ Hc]. cbn.
          destruct IH as (I1 & I2 & I3); [intros x Hin; apply Hall; by right|].
          split_and!; [|constructor; [by eapply shA_snap|done]|by f_equal].
          unfold rows_of in *. cbn [fmap list_fmap fst snd]. f_equal; [congruence|exact I1].
        - apply (shA_none _ _ HA) in E. congruence. }
      destruct Hrows as (H1 & H2 & H3).
      eexists (Ret (RRows rows)), (MkRepo I A rw_free rw_free).
      split_and!; [|by split|done| |apply GC_refl].
      + assert (outcome_of (TRun ListAliases_prog) (MkRepo I A rw_free rw_free) (Done (RRows rows) (MkRepo I A rw_free rw_free))) as Ho.
        { apply mp_sound. unfold ListAliases_prog.
          cbn [mp get_mu set_mu r_I r_A r_imu r_amu rw_readers rw_pending rw_writer orb rw_free]. exists l.*1. split.
          - rewrite (shA_keys _ _ HA). by rewrite Hp.
          - apply mp_rows. done. }
        by inversion Ho.
      + exists (RRows rows). split; [done|]. simpl. split; [done|]. intros _. done.
    - assert (Hdet : (forall b' w'', section ckn tk (Todo (CSearch index terms engine)) w b' w'' -> b' = b) ->
        (exists o, b = Next o) ->
        exists p' s', rtc sstep (TRun (prog_of (CSearch index terms engine)), MkRepo I A rw_free rw_free) (TRun p', s') /\ free s' /\ shc (dat s') w' /\
          link x' p' (dat s') /\ GC md (dat (MkRepo I A rw_free rw_free)) (dat s')).
      { intros Hd [o ->].
        destruct (section_runs (Todo (CSearch index terms engine)) (prog_of (CSearch index terms engine)) (MkRepo I A rw_free rw_free) w)
          as [(p' & s' & b' & x2 & w2 & R1 & R2 & R3 & R4 & R5 & R6 & R7)|(t' & s' & R1 & R2 & R3)]; [done..|by intros ?|by intros ?| |].
        - exists p', s'. pose proof (Hd _ _ R4) as ->. simpl in Hb, R5. subst x' x2.
          assert (w2 = w') as ->; [|done]. destruct R4 as [-> _]. by destruct He as [-> _].
        - exfalso. destruct R3 as [R3|(b' & w2 & R3 & R4)]; [done|]. by rewrite (Hd _ _ R3) in R4. }
      destruct He as [-> He]. destruct (targets w index) as [ops|] eqn:Et.
      2: { apply Hdet; [|eauto]. intros b' w2 [_ Hx']. rewrite Et in Hx'. congruence. }
      assert (Hcase : (exists op, ops = [op]) \/ (forall op, ops <> [op]) /\ b = Gather (search_obj ckn tk w terms engine <$> ops)).
      { destruct ops as [|op [|op' ops]]; [right; by split|by left; eauto|right; by split]. }
      destruct Hcase as [[op ->]|[Hne ->]].
      { apply Hdet.
        - intros b' w2 [_ Hx']. rewrite Et in Hx'. destruct (search_obj _ _ _ _ _ _); congruence.
        - destruct (search_obj _ _ _ _ _ _); eauto. }
      clear Hdet He. destruct Hb as (bl & bl' & Hbl & Hp & ->).
      exists (Ret (RResults (concat bl'))), (MkRepo I A rw_free rw_free).
      split_and!; [|by split|done|by exists (RResults (concat bl'))|apply GC_refl].
      assert (outcome_of (TRun (Search_prog index terms engine)) (MkRepo I A rw_free rw_free)
        (Done (RResults (concat bl')) (MkRepo I A rw_free rw_free))) as Ho; [|by inversion Ho].
      pose proof (sc_map _ _ _ _ _ Hs) as Hm. pose proof (sc_ali _ _ _ _ _ Hs) as HA. cbn [d_I d_A dat r_I r_A] in Hm, HA.
      apply mp_sound. unfold Search_prog.
      cbn [mp get_mu set_mu r_I r_A r_imu r_amu rw_readers rw_pending rw_writer orb rw_free].
      unfold targets in Et. rewrite Hm. destruct (c_idx w !! index) as [p|] eqn:Ei; [simplify_eq; by destruct (Hne (Some p))|].
      destruct (c_ali w !! index) as [l|] eqn:Ea; [|done].
      cbn [mp get_mu set_mu r_I r_A r_imu r_amu rw_readers rw_pending rw_writer orb rw_free].
      destruct (a_map A !! index) as [sl|] eqn:E; [|apply (shA_none _ _ HA) in E; congruence].
      destruct (shA_fwd _ _ HA _ _ E) as [Hw Hc]. rewrite Ea in Hc. injection Hc as ->. injection Et as <-.
      apply mp_resolve; [done|done|]. rewrite drop_0. simpl app. cbn [r_I].
      assert (Hsa : search_all ((fun x => i_map I !! x) <$> a_cont A sl) terms engine I = Ok <$> bl).
      { rewrite <- Hbl. unfold search_all. rewrite <- !list_fmap_compose. apply list_fmap_ext.
        intros _ x _. simpl. rewrite Hm. by eapply sc_search. }
      assert (Ht : forall ps, (forall x, ps <> [x]) -> search_tail ps terms engine =
        GoSearch ps terms engine (fun result => RUnlock MI (Ret (RResults result)))).
      { intros [|? [|??]] Hx'; try done. by destruct (Hx' o). }
      rewrite Ht; [|by rewrite Hm].
      cbn [mp get_mu set_mu r_I r_A r_imu r_amu rw_readers rw_pending rw_writer orb rw_free].
      exists bl, bl'. split; [exact Hsa|]. done.
    - destruct He as (names & Hp & -> & ->). simpl in Hb. subst x'.
      eexists (Ret (RText (text_of tk show w names))), (MkRepo I A rw_free rw_free).
      split_and!; [|by split|done|by exists (RText (text_of tk show w names))|apply GC_refl].
      pose proof (sc_map _ _ _ _ _ Hs) as Hm. cbn [d_I dat r_I] in Hm.
      eapply rtc_l; [constructor; by econstructor|]. eapply rtc_l.
      { constructor. apply S_RangeIndices with (names := names). rewrite Hp. by rewrite <- Hm. }
      eapply rtc_transitive; [apply rtc_string|]. eapply rtc_l; [constructor; by econstructor|].
      simpl. match goal with |- rtc _ (TRun (Ret (RText ?a)), _) (TRun (Ret (RText ?b)), _) => assert (a = b) as -> end; [|done].
      rewrite Hm. assert (Hin : forall n, n ∈ names -> is_Some (c_idx w !! n)).
      { intros n Hn. rewrite Hp in Hn. apply elem_of_list_fmap in Hn as ([n' p] & -> & Hn). apply elem_of_map_to_list in Hn. simpl. eauto. }
      match goal with |- (String.append "" ?a) = ?b => change (a = b) end.
      clear Hp. induction names as [|n names IH]; [done|]. cbn [foldr text_of].
      rewrite IH by (intros n' Hn'; apply Hin; by right). f_equal.
      destruct (Hin n ltac:(left)) as [p Hpn]. rewrite Hpn. simpl.
      destruct (sc_obj _ _ _ _ _ Hs _ _ Hpn) as [[nm reqs] Ho]. destruct (sc_heap _ _ _ _ _ Hs _ _ _ Ho) as [_ Hh].
      cbn [d_I dat r_I] in Hh. by rewrite Ho, Hh.
  Qed.
End exact.
