(** * Property C99: builders that hand out objects they made before.

    [sreach give ckn tk s w]: [s] was reached by some calls, their panics recovered,
    from a new repo whose builder returns the object [p] for a name [n] with
    [give n = Some p] and a new index for the other names; [w] says which object each
    name stands for and which documents each object holds. *)
From Coq Require Import Lia.
From stdpp Require Import gmap list.
From Verif Require Import Entities Search SpecSearch Properties_Search Repo Sem RepoWp SpecRepo ProofRepo ProofTotal
  Properties_Repo Locks Race ProofRace Run ProofReach Properties_Conc Shared SpecShared ProofShared.
Open Scope string_scope. Open Scope list_scope. Open Scope nat_scope.

(** What a call does, in every execution. *)
Definition salways (give : string -> option nat) (c : call) (s : repo) (P : result -> Prop) : Prop :=
  (exists res, shared_result give c s res) /\ forall res, shared_result give c s res -> P res.

(** The code follows the machine of SpecShared.v. *)
Theorem C99_calls_refine :
  forall give ckn tk s w c,
    sreach give ckn tk s w ->
    salways give c s (fun res =>
      match res with
      | Done r s' => exists w', sspec give ckn tk c w (SDone (see s' r) w') /\ sreach give ckn tk s' w'
      | Panicked s' => exists w', sspec give ckn tk c w (SPanic w') /\ sreach give ckn tk s' w'
      | Crashed => sspec give ckn tk c w SCrash
      | Blocked => sspec give ckn tk c w SBlock
      end).
Proof.
  intros give ckn tk s w c Hr. split; [apply scall_total|]. intros res Hres.
  destruct (scall_refines give ckn tk c s w res (sreach_shape _ _ _ _ _ Hr) Hres) as (o & Ho & Hm).
  destruct res, o; simpl in Hm; try done.
  - destruct Hm as [<- _]. exists w0. split; [done|]. by eapply SR_done.
  - exists w0. split; [done|]. by eapply SR_panic.
Qed.
Print Assumptions C99_calls_refine.

(** Every call but Put answers and changes what the names show as the machine of C29
    does. *)
Theorem C99_other_calls :
  forall give ckn tk c w b w',
    (forall n d, c <> CPut n d) -> sspec give ckn tk c w (SDone b w') ->
    spec ckn tk c (seen w) (ODone b (seen w')) /\ w_docs w' = w_docs w.
Proof.
  intros give ckn tk c w b w' Hc Hs.
  assert (Hx : exists v, spec ckn tk c (seen w) (ODone b v) /\ w' = next_world c w b v).
  { destruct c; try (by destruct (Hc _ _ eq_refl)); destruct Hs as ([b' v'|v'| |] & Ho & E); simplify_eq; by exists v'. }
  destruct Hx as (v & Hv & ->). split; [|done].
  assert (v = seen (next_world c w b v)) as E; [|by rewrite E in Hv]. clear Hs.
  destruct w as [ns ds ali lI lA]. unfold seen, next_world. cbn [w_names w_docs w_ali w_leakI w_leakA] in *.
  destruct c; cbn in Hv; try (by destruct (Hc _ _ eq_refl)).
  - destruct Hv as (l & _ & ?). by simplify_eq.
  - destruct lA; [done|]. destruct Hv as (l & _ & ?). by simplify_eq.
  - by simplify_eq.
  - destruct lA; by simplify_eq.
  - repeat case_match; by simplify_eq.
  - repeat case_match; by simplify_eq.
  - repeat case_match; simplify_eq; try done;
      destruct Hv as [(? & ? & _ & _ & ?)|[_ ?]]; by simplify_eq.
  - case_decide; [done|].
    assert (Hl : shown ns ds !! old = ns !! old ≫= (fun p => ds !! p)) by apply lookup_omap.
    change (match shown ns ds !! old with Some reqs => ODone b v = ODone (OBool true) (MkView (delete old (<[new := reqs]> (shown ns ds))) (map (renamed old new) <$> ali) lI lA) | None => ODone b v = ODone (OBool false) (MkView (shown ns ds) ali lI lA) end) in Hv.
    rewrite Hl in Hv. destruct (ns !! old) as [p|] eqn:Ep; simpl in Hv.
    + destruct (ds !! p) as [reqs|] eqn:Ed; simplify_eq; cbn; rewrite ?Ep.
      * f_equal. apply map_eq. intros n. unfold shown. rewrite lookup_omap.
        destruct (decide (n = old)) as [->|Hne]; [by rewrite !lookup_delete|]. rewrite !lookup_delete_ne by done.
        destruct (decide (n = new)) as [->|Hne']; [by rewrite !lookup_insert|]. rewrite !lookup_insert_ne by done.
        by rewrite lookup_omap.
      * done.
    + by simplify_eq.
  - repeat case_match; simplify_eq; try done. cbn. f_equal. apply map_eq. intros x. unfold shown. rewrite lookup_omap.
    destruct (decide (x = index)) as [->|Hne]; [by rewrite !lookup_delete|]. rewrite !lookup_delete_ne by done.
    by rewrite lookup_omap.
  - destruct Hv as (t & ?). by simplify_eq.
Qed.
Print Assumptions C99_other_calls.

(** Putting to a name adds the document to every name that stands for the same object,
    and to no other. *)
Theorem C99_put_shows :
  forall give ckn tk s w n p d,
    sreach give ckn tk s w -> w_names w !! n = Some p -> w_leakI w = 0 ->
    salways give (CPut n d) s (fun res => exists s' w',
      res = Done RUnit s' /\ sreach give ckn tk s' w' /\ w_names w' = w_names w /\
      forall n', v_idx (seen w') !! n' =
        if decide (w_names w !! n' = Some p) then (fun reqs => reqs ++ [d]) <$> v_idx (seen w) !! n'
        else v_idx (seen w) !! n').
Proof.
  intros give ckn tk s w n p d Hr Hn Hl. destruct (C99_calls_refine give ckn tk s w (CPut n d) Hr) as [Hex Hall].
  split; [done|]. intros res Hres. specialize (Hall _ Hres).
  assert (Hs : forall o, sspec give ckn tk (CPut n d) w o ->
    o = SDone OUnit (MkW (w_names w) (add_to d [p] (w_docs w)) (w_ali w) (w_leakI w) (w_leakA w))).
  { intros o. cbn [sspec]. rewrite Hn, Hl. rewrite decide_False by (intros E; by apply E). done. }
  destruct res as [r s'|s'| |]; [|destruct Hall as (w1 & Hx%Hs & _); done|by apply Hs in Hall..].
  destruct Hall as (w1 & Hx%Hs & Hr1). injection Hx as Hr0 ->. eexists s', _. split; [by destruct r|].
  split; [exact Hr1|]. split; [done|]. intros n'. cbn. unfold shown. rewrite !lookup_omap. cbn.
  destruct (w_names w !! n') as [p'|] eqn:En'; simpl; [|done].
  case_decide as Hd; simplify_eq; [apply list_lookup_alter|]. apply list_lookup_alter_ne. congruence.
Qed.
Print Assumptions C99_put_shows.

(** Two names of one object give the same answers to every search. *)
Theorem C99_same_answers :
  forall give ckn tk s w a b p q e,
    sreach give ckn tk s w -> w_names w !! a = Some p -> w_names w !! b = Some p ->
    salways give (CSearch a q e) s (fun res => salways give (CSearch b q e) s (fun res' =>
      match res, res' with
      | Done r _, Done r' _ => exists l, r = RResults l /\ r' = RResults l
      | Panicked _, Panicked _ => True
      | _, _ => False
      end)).
Proof.
  intros give ckn tk s w a b p q e Hr Ha Hb. pose proof (sreach_shape _ _ _ _ _ Hr) as Hsh.
  assert (Hp : exists reqs, w_docs w !! p = Some reqs).
  { apply lookup_lt_is_Some_2. eapply (shJ_map _ _ _ _ _ (ss_I _ _ _ _ _ Hsh)). by rewrite (ss_names _ _ _ _ _ Hsh). }
  destruct Hp as [reqs Hp].
  assert (Hx : forall n, w_names w !! n = Some p -> forall o, sspec give ckn tk (CSearch n q e) w o ->
    match search_docs ckn tk reqs q e with
    | Ok sr => exists w1, o = SDone (OResults sr) w1
    | Panic => exists w1, o = SPanic w1
    end).
  { intros n Hn o (o' & Ho & ->).
    assert (Hv : v_idx (seen w) !! n = Some reqs) by (cbn; unfold shown; by rewrite lookup_omap, Hn).
    cbn [spec] in Ho. rewrite Hv in Ho. destruct (search_docs ckn tk reqs q e); subst o'; by eexists. }
  destruct (C99_calls_refine give ckn tk s w (CSearch a q e) Hr) as [Ea Alla].
  destruct (C99_calls_refine give ckn tk s w (CSearch b q e) Hr) as [Eb Allb].
  split; [done|]. intros res Hres. split; [done|]. intros res' Hres'.
  specialize (Alla _ Hres). specialize (Allb _ Hres'). pose proof (Hx a Ha) as Xa. pose proof (Hx b Hb) as Xb.
  destruct (search_docs ckn tk reqs q e) as [sr|].
  - destruct res as [r s1|s1| |]; [|destruct Alla as (w1 & Hy%Xa & _); by destruct Hy|apply Xa in Alla; by destruct Alla..].
    destruct res' as [r' s1'|s1'| |]; [|destruct Allb as (w1' & Hy%Xb & _); by destruct Hy|apply Xb in Allb; by destruct Allb..].
    destruct Alla as (w1 & [? Hy]%Xa & _), Allb as (w1' & [? Hy']%Xb & _). exists sr.
    destruct r; simplify_eq/=; destruct r'; by simplify_eq/=.
  - destruct res as [r s1|s1| |]; [destruct Alla as (w1 & Hy%Xa & _); by destruct Hy| |apply Xa in Alla; by destruct Alla..].
    destruct res' as [r' s1'|s1'| |]; [destruct Allb as (w1' & Hy%Xb & _); by destruct Hy|done|apply Xb in Allb; by destruct Allb..].
Qed.
Print Assumptions C99_same_answers.

(** A document put through an alias is added to each object once for every name in the
    alias list that stands for it. *)
Lemma add_to_count d ps ds p :
  add_to d ps ds !! p = (fun reqs => reqs ++ replicate (length (filter (eq p) ps)) d) <$> ds !! p.
Proof.
  unfold add_to. induction ps as [|x ps IH]; simpl.
  - destruct (ds !! p); simpl; by rewrite ?app_nil_r.
  - rewrite filter_cons. destruct (decide (p = x)) as [->|Hne].
    + rewrite list_lookup_alter, IH. destruct (ds !! x); simpl; [|done]. f_equal. rewrite <- app_assoc. f_equal.
      generalize (length (filter (eq x) ps)). intros k. induction k as [|k IHk]; [done|]. simpl. by rewrite IHk.
    + by rewrite list_lookup_alter_ne by congruence.
Qed.

Theorem C99_alias_counts :
  forall give ckn tk s w a l d,
    sreach give ckn tk s w -> w_leakI w = 0 -> w_leakA w = false ->
    w_names w !! a = None -> w_ali w !! a = Some l -> (forall x, x ∈ l -> is_Some (w_names w !! x)) ->
    salways give (CPut a d) s (fun res => exists s' w',
      res = Done RUnit s' /\ sreach give ckn tk s' w' /\ w_names w' = w_names w /\
      forall p, w_docs w' !! p =
        (fun reqs => reqs ++ replicate (length (filter (fun x => w_names w !! x = Some p) l)) d) <$> w_docs w !! p).
Proof.
  intros give ckn tk s w a l d Hr Hl HlA Hn Ha Hall. destruct (C99_calls_refine give ckn tk s w (CPut a d) Hr) as [Hex Hres].
  split; [done|]. intros res Hx. specialize (Hres _ Hx).
  assert (Hs : forall o, sspec give ckn tk (CPut a d) w o ->
    o = SDone OUnit (MkW (w_names w) (add_to d (omap (fun x => w_names w !! x) l) (w_docs w)) (w_ali w) (w_leakI w) (w_leakA w))).
  { intros o. cbn [sspec]. rewrite Hn, Hl, HlA, Ha. rewrite !decide_False; [done| |intros E; by apply E].
    intros (x & Hin & E)%Exists_exists. destruct (Hall _ Hin) as [? ?]. congruence. }
  destruct res as [r s'|s'| |]; [|destruct Hres as (w1 & Hy%Hs & _); done|by apply Hs in Hres..].
  destruct Hres as (w1 & Hy%Hs & Hr1). injection Hy as Hr0 ->. eexists s', _. split; [by destruct r|].
  split; [exact Hr1|]. split; [done|]. intros p. cbn. rewrite add_to_count.
  assert (length (filter (eq p) (omap (fun x => w_names w !! x) l)) = length (filter (fun x => w_names w !! x = Some p) l)) as ->; [|done].
  clear. induction l as [|x l IH]; [done|]. csimpl. rewrite (filter_cons _ x).
  destruct (w_names w !! x) as [p'|].
  - rewrite filter_cons. destruct (decide (p = p')) as [->|Hne].
    + rewrite decide_True by done. csimpl. by f_equal.
    + rewrite decide_False by congruence. done.
  - by rewrite decide_False by congruence.
Qed.
Print Assumptions C99_alias_counts.

(** Dropping a name does not empty its object: put to again, the name shows the
    documents it had before (with the builder of the README it would show one). *)
Theorem C99_drop_keeps :
  forall give ckn tk s w n p reqs d,
    sreach give ckn tk s w -> w_leakI w = 0 -> w_leakA w = false ->
    give n = Some p -> w_names w !! n = Some p -> w_docs w !! p = Some reqs -> w_ali w !! n = None ->
    salways give (CDrop n) s (fun res => exists s1, res = Done (RBool true) s1 /\
      salways give (CPut n d) s1 (fun res' => exists s2 w2, res' = Done RUnit s2 /\
        sreach give ckn tk s2 w2 /\ v_idx (seen w2) !! n = Some (reqs ++ [d]))).
Proof.
  intros give ckn tk s w n p reqs d Hr Hl HlA Hg Hn Hd Ha.
  destruct (C99_calls_refine give ckn tk s w (CDrop n) Hr) as [Hex Hres].
  set (w1 := MkW (delete n (w_names w)) (w_docs w) (omap (drop_from n) (w_ali w)) 0 false).
  assert (Hs : forall o, sspec give ckn tk (CDrop n) w o -> o = SDone (OBool true) w1).
  { intros o (o' & Ho & ->).
    assert (Hv : v_idx (seen w) !! n = Some reqs) by (cbn; unfold shown; by rewrite lookup_omap, Hn).
    cbn [spec] in Ho. rewrite Hv in Ho. cbn in Ho. rewrite Hl, HlA in Ho.
    rewrite !decide_False in Ho; [|intros E; by apply E|done]. subst o'. done. }
  split; [done|]. intros res Hx. specialize (Hres _ Hx).
  destruct res as [r s1|s1| |]; [|destruct Hres as (w' & Hy%Hs & _); done|by apply Hs in Hres..].
  destruct Hres as (w' & Hy%Hs & Hr1). injection Hy as Hr0 ->. exists s1. split; [destruct r; by simplify_eq/=|].
  destruct (C99_calls_refine give ckn tk s1 w1 (CPut n d) Hr1) as [Hex2 Hres2]. split; [done|]. intros res' Hx'.
  specialize (Hres2 _ Hx').
  assert (Hs2 : forall o, sspec give ckn tk (CPut n d) w1 o ->
    o = SDone OUnit (MkW (<[n := p]> (delete n (w_names w))) (add_to d [p] (w_docs w)) (omap (drop_from n) (w_ali w)) 0 false)).
  { intros o. cbn [sspec w1 w_names w_docs w_ali w_leakI w_leakA]. rewrite lookup_delete, lookup_omap, Ha, Hg.
    rewrite decide_False by (intros E; by apply E). done. }
  destruct res' as [r' s2|s2| |]; [|destruct Hres2 as (w' & Hy%Hs2 & _); done|by apply Hs2 in Hres2..].
  destruct Hres2 as (w2 & Hy%Hs2 & Hr2). injection Hy as Hr0' ->. eexists s2, _. split; [by destruct r'|]. split; [exact Hr2|].
  cbn. unfold shown. rewrite lookup_omap, lookup_insert. cbn. rewrite list_lookup_alter, Hd. done.
Qed.
Print Assumptions C99_drop_keeps.

(** As long as no two names stand for one object, and an object handed out for a new name
    is empty and has no other name, Put too does what the machine of C29 does. *)
Theorem C99_distinct :
  forall give ckn tk s w n d b w',
    sreach give ckn tk s w ->
    (forall n1 n2 p, w_names w !! n1 = Some p -> w_names w !! n2 = Some p -> n1 = n2) ->
    (forall p, give n = Some p -> w_docs w !! p = Some [] /\ forall n', w_names w !! n' <> Some p) ->
    sspec give ckn tk (CPut n d) w (SDone b w') -> spec ckn tk (CPut n d) (seen w) (ODone b (seen w')).
Proof.
  intros give ckn tk s w n d b w' Hr Hinj Hg Hs. pose proof (sreach_shape _ _ _ _ _ Hr) as Hsh.
  assert (Hlt : forall n p, w_names w !! n = Some p -> p < length (w_docs w)).
  { intros n' p Hn'. eapply (shJ_map _ _ _ _ _ (ss_I _ _ _ _ _ Hsh)). by rewrite (ss_names _ _ _ _ _ Hsh). }
  destruct w as [ns ds ali lI lA]. cbn [w_names w_docs w_ali w_leakI w_leakA] in *. clear Hr Hsh.
  assert (Hnone : forall n, ns !! n = None <-> shown ns ds !! n = None).
  { intros n'. unfold shown. rewrite lookup_omap. destruct (ns !! n') as [p|] eqn:E; [|done]. cbn.
    destruct (lookup_lt_is_Some_2 ds p (Hlt _ _ E)) as [? ->]. done. }
  assert (Hadd : forall l, Forall (fun x => ns !! x <> None) l ->
    shown ns (add_to d (omap (fun x => ns !! x) l) ds) = put_each d l (shown ns ds)).
  { induction 1 as [|x l Hx Hl IH]; [done|].
    change (put_each d (x :: l) (shown ns ds)) with (alter (fun reqs => reqs ++ [d]) x (put_each d l (shown ns ds))).
    rewrite <- IH. csimpl. destruct (ns !! x) as [p|] eqn:Ex; [|done].
    apply map_eq. intros n'. unfold shown at 1. rewrite lookup_omap. destruct (decide (n' = x)) as [->|Hne].
    - rewrite lookup_alter. unfold shown. rewrite lookup_omap, Ex. cbn. apply list_lookup_alter.
    - rewrite lookup_alter_ne by done. unfold shown. rewrite lookup_omap. destruct (ns !! n') as [p'|] eqn:En; [|done]. cbn.
      apply list_lookup_alter_ne. intros ->. by apply Hne, (Hinj _ _ p'). }
  cbn [sspec w_names w_docs w_ali w_leakI w_leakA] in Hs. cbn [spec seen v_idx v_ali v_leakI v_leakA w_names w_docs w_ali w_leakI w_leakA].
  destruct (ns !! n) as [p|] eqn:En.
  - destruct (shown ns ds !! n) as [reqs|] eqn:Ev; [|apply Hnone in Ev; congruence].
    case_decide; [done|]. injection Hs as -> ->.
    assert (E : shown ns (add_to d (omap (fun x => ns !! x) [n]) ds) = put_each d [n] (shown ns ds)).
    { apply Hadd. repeat constructor; congruence. }
    csimpl in E. rewrite En in E.
    change (ODone OUnit (MkView (shown ns (add_to d [p] ds)) ali lI lA)
            = ODone OUnit (MkView (put_each d [n] (shown ns ds)) ali lI lA)).
    do 2 f_equal. exact E.
  - rewrite (proj1 (Hnone n) En). destruct lA; [done|]. case_decide; [done|]. destruct (ali !! n) as [l|] eqn:El.
    + case_decide as Hex; [done|]. injection Hs as -> ->. rewrite decide_False.
      * rewrite <- Hadd; [done|]. apply Forall_forall. intros x Hx E. apply Hex, Exists_exists. eauto.
      * intros (x & Hx & E)%Exists_exists. apply Hex, Exists_exists. exists x. split; [done|]. by apply Hnone.
    + destruct (give n) as [p|] eqn:Eg.
      * injection Hs as -> ->. destruct (Hg p eq_refl) as [Hp Hno]. unfold seen. cbn. do 2 f_equal.
        apply map_eq. intros n'. unfold shown. rewrite lookup_omap. destruct (decide (n' = n)) as [->|Hne].
        -- rewrite !lookup_insert. cbn. by rewrite list_lookup_alter, Hp.
        -- rewrite !lookup_insert_ne by done. rewrite lookup_omap. destruct (ns !! n') as [p'|] eqn:E'; [|done]. cbn.
           apply list_lookup_alter_ne. intros ->. by apply (Hno n').
      * injection Hs as -> ->. unfold seen. cbn. do 2 f_equal.
        apply map_eq. intros n'. unfold shown. rewrite lookup_omap. destruct (decide (n' = n)) as [->|Hne].
        -- rewrite !lookup_insert. cbn. by rewrite lookup_app_r, Nat.sub_diag by lia.
        -- rewrite !lookup_insert_ne by done. rewrite lookup_omap. destruct (ns !! n') as [p'|] eqn:E'; [|done]. cbn.
           apply lookup_app_l. by eapply Hlt.
Qed.
Print Assumptions C99_distinct.

(** ** Concurrent calls *)

(** Sharing objects cannot block anybody: C48 with such a builder. *)
Theorem C99_no_deadlock :
  forall give cs s ts s',
    r_imu s = rw_free -> r_amu s = rw_free ->
    rtc pstep (Pool (sstart give cs) s) (Pool ts s') ->
    ~ left_behind cs ts ->
    Forall finished ts \/ exists p, pstep (Pool ts s') p.
Proof.
  intros give cs s ts s' E1 E2 Hr Hl.
  destruct (spool_reach give Any cs s _ E1 E2 (any_allowed cs) Hr) as [gh Hp].
  eapply progress; [exact Hp|]. intros i t g h Hi Hg Hf. by eapply finished_free.
Qed.
Print Assumptions C99_no_deadlock.

Theorem C99_all_return :
  forall give cs s p,
    r_imu s = rw_free -> r_amu s = rw_free ->
    rtc pstep (Pool (sstart give cs) s) p ->
    exists p', rtc pstep p p' /\
      (p' = PCrashed \/ exists ts s', p' = Pool ts s' /\
        (left_behind cs ts \/ Forall finished ts /\ r_imu s' = rw_free /\ r_amu s' = rw_free)).
Proof.
  intros give cs s p E1 E2 Hr. induction (pool_terminates p) as [p _ IH].
  destruct p as [ts s'|]; [|exists PCrashed; split; [apply rtc_refl|by left]].
  destruct (spool_reach give Any cs s _ E1 E2 (any_allowed cs) Hr) as [gh Hp].
  assert (Hdec : left_behind cs ts \/ ~ left_behind cs ts).
  { unfold left_behind.
    assert (forall n, (exists i a x, i < n /\ cs !! i = Some (CUnAlias a x) /\ x <> ""%string /\ ts !! i = Some (TRun (Ret (RBool false)))) \/
      ~ (exists i a x, i < n /\ cs !! i = Some (CUnAlias a x) /\ x <> ""%string /\ ts !! i = Some (TRun (Ret (RBool false))))) as Hn.
    { induction n as [|n IHn]; [right; intros (i & a & x & ? & _); lia|].
      destruct IHn as [(i & a & x & ? & ? & ? & ?)|Hno]; [left; exists i, a, x; split_and!; [lia|done..]|].
      assert ((exists a x, cs !! n = Some (CUnAlias a x) /\ x <> ""%string /\ ts !! n = Some (TRun (Ret (RBool false)))) \/
        ~ (exists a x, cs !! n = Some (CUnAlias a x) /\ x <> ""%string /\ ts !! n = Some (TRun (Ret (RBool false))))) as [(a & x & ? & ? & ?)|Hn].
      { destruct (cs !! n) as [c|]; [|right; by intros (? & ? & ? & _)].
        destruct c; try (right; intros (? & ? & ? & _); congruence).
        destruct (decide (index = ""%string)); [right; intros (? & ? & ? & ? & _); congruence|].
        destruct (ts !! n) as [[[[|[]| | | | |]| | | | | | | | | | | | | | | | | | | | | | |]| | |]|]; first
          [left; by eauto|right; intros (? & ? & ? & ? & ?); congruence]. }
      - left. exists n, a, x. split_and!; [lia|done..].
      - right. intros (i & a & x & ? & ? & ? & ?). destruct (decide (i = n)) as [->|]; [apply Hn; eauto|].
        apply Hno. exists i, a, x. split_and!; [lia|done..]. }
    destruct (Hn (length cs)) as [(i & a & x & _ & ?)|Hno]; [left; by exists i, a, x|right].
    intros (i & a & x & Hc & ? & ?). apply Hno. exists i, a, x. split_and!; [by eapply lookup_lt_Some|done..]. }
  destruct Hdec as [Hl|Hl].
  { exists (Pool ts s'). split; [apply rtc_refl|]. right. eauto. }
  destruct (C99_no_deadlock give cs s ts s' E1 E2 Hr Hl) as [Hf|[p Hs]].
  - exists (Pool ts s'). split; [apply rtc_refl|]. right. exists ts, s'. split; [done|]. right. split; [done|].
    assert (Hfree : forall m, get_mu m s' = rw_free).
    { intros m. pose proof (pi_lock _ _ _ _ _ Hp m) as [K1 K2 K3 _ _].
      assert (Hall : ((fun x => get_h m x.2) <$> gh) = replicate (length gh) HN).
      { apply list_eq. intros i. rewrite list_lookup_fmap. destruct (gh !! i) as [[g h]|] eqn:Eg; simpl.
        - destruct (lookup_lt_is_Some_2 ts i) as [t Ht]; [rewrite <- (pi_len _ _ _ _ _ Hp); by eapply lookup_lt_Some|].
          assert (h = none_held) as -> by (eapply finished_free; [exact Hp|exact Hl|exact Ht|exact Eg|by eapply Forall_lookup_1]).
          symmetry. apply lookup_replicate. split; [by destruct m|by eapply lookup_lt_Some].
        - symmetry. apply lookup_replicate_None. by apply lookup_ge_None. }
      rewrite Hall in *. rewrite !cnt_replicate in * by done. destruct (get_mu m s') as [r p0 w]. simpl in *. subst.
      destruct p0, w; done. }
    split; [apply (Hfree MI)|apply (Hfree MA)].
  - destruct (IH p Hs) as (p' & H1 & H2); [by eapply rtc_r|]. exists p'. split; [by eapply rtc_l|done].
Qed.
Print Assumptions C99_all_return.

(** Nor do two calls race, under the conditions of C49. *)
Theorem C99_no_race_between_calls :
  forall give cs s ts s',
    r_imu s = rw_free -> r_amu s = rw_free -> without_rename cs \/ without_unalias cs ->
    rtc pstep (Pool (sstart give cs) s) (Pool ts s') -> ~ race_between ts.
Proof.
  intros give cs s ts s' E1 E2 [Hc|Hc] Hr.
  - destruct (spool_reach give NoRename cs s _ E1 E2 (allowed_without_rename _ Hc) Hr) as [gh Hp].
    by apply (no_race_between NoRename _ _ _ _) in Hp.
  - destruct (spool_reach give NoUnAlias cs s _ E1 E2 (allowed_without_unalias _ Hc) Hr) as [gh Hp].
    by apply (no_race_between NoUnAlias _ _ _ _) in Hp.
Qed.
Print Assumptions C99_no_race_between_calls.

Theorem C99_no_race_on_indices :
  forall give cs s ts s' l,
    r_imu s = rw_free -> r_amu s = rw_free ->
    rtc pstep (Pool (sstart give cs) s) (Pool ts s') -> race_on l ts ->
    l = LAliases \/ exists a i, l = LElem a i.
Proof.
  intros give cs s ts s' l E1 E2 Hr Hl. destruct (spool_reach give Any cs s _ E1 E2 (any_allowed cs) Hr) as [gh Hp].
  destruct l as [| |a i|p|]; [|by left|right; by eauto|..].
  - by destruct (no_race_on_indices _ _ _ _ _ LIndices eq_refl Hp).
  - by destruct (no_race_on_indices _ _ _ _ _ (LObj p) eq_refl Hp).
  - by destruct Hl as (? & ? & ? & ? & ? & ? & ? & ? & _ & _ & _ & ? & _).
Qed.
Print Assumptions C99_no_race_on_indices.

(** ** Witnesses: a builder returning one index for "p" and for "q" *)
Definition give_one (n : string) : option nat := if decide (n = "p" \/ n = "q") then Some 0 else None.
Definition one_object : list (string * list DocRequest) := [("base", [])].
Lemma give_one_ok : gives give_one one_object.
Proof. intros n p. unfold give_one. case_decide; intros; simplify_eq. simpl. lia. Qed.

(** Two goroutines of one Put write to the object at the same time, though the alias lists
    two different, existing names and neither Rename nor UnAlias was called: C49_no_race
    does not hold for such builders. *)
Theorem C99_put_race_refuted :
  exists cs ts s' t,
    rtc pstep (Pool (sstart give_one cs) (pooled true letters one_object)) (Pool ts s') /\
    without_rename cs /\ without_unalias cs /\ t ∈ ts /\ race_within t.
Proof.
  set (cs := [CPut "p" dA; CPut "q" dB; CAlias "a" "p"; CAlias "a" "q"; CPut "a" dA]).
  assert (Hc : without_rename cs /\ without_unalias cs).
  { split; [intros old new|intros a i]; unfold cs; set_solver. }
  set (l := steps 0 11 ++ steps 1 11 ++ steps 2 9 ++ steps 3 10 ++ steps 4 13).
  set (x := run l (sstart give_one cs) (pooled true letters one_object)).
  eexists cs, x.1, x.2, _. split; [apply run_sound|].
  split; [apply Hc|]. split; [apply Hc|].
  split; [eapply (elem_of_list_lookup_2 _ 4); calc|].
  exists 1, 2, (LObj 0), true, true. split_and!; [lia|by constructor|by constructor|by left].
Qed.
Print Assumptions C99_put_race_refuted.

Lemma sreach_next give ckn tk s w c w' :
  sreach give ckn tk s w -> (forall o, sspec give ckn tk c w o -> exists x, o = SDone x w') ->
  exists s', sreach give ckn tk s' w'.
Proof.
  intros Hr H. destruct (C99_calls_refine give ckn tk s w c Hr) as [[res Hres] Hall]. specialize (Hall _ Hres).
  destruct res as [r s'|s'| |].
  - destruct Hall as (w1 & Hs & Hf). destruct (H _ Hs) as [x E]. simplify_eq. eauto.
  - destruct Hall as (w1 & Hs & Hf). by destruct (H _ Hs) as [x E].
  - by destruct (H _ Hall) as [x E].
  - by destruct (H _ Hall) as [x E].
Qed.

(** "p" and "q" stand for one object with two documents, "r" for a new one; "a" lists "p"
    and "q". *)
Definition w_one : world :=
  MkW (<["r" := 1]> (<["q" := 0]> {["p" := 0]})) [[dA; dB]; [dA]] {["a" := ["p"; "q"]]} 0 false.
Example C99_example : exists s, sreach give_one true letters s w_one.
Proof.
  assert (SR0 := SR_new give_one true letters one_object give_one_ok).
  destruct (sreach_next _ _ _ _ _ (CPut "p" dA) (MkW {["p" := 0]} [[dA]] ∅ 0 false) SR0) as [s1 H1].
  { intros o Ho. exists OUnit. exact Ho. }
  destruct (sreach_next _ _ _ _ _ (CPut "q" dB) (MkW (<["q" := 0]> {["p" := 0]}) [[dA; dB]] ∅ 0 false) H1) as [s2 H2].
  { intros o Ho. exists OUnit. exact Ho. }
  destruct (sreach_next _ _ _ _ _ (CPut "r" dA) (MkW (<["r" := 1]> (<["q" := 0]> {["p" := 0]})) [[dA; dB]; [dA]] ∅ 0 false) H2) as [s3 H3].
  { intros o Ho. exists OUnit. exact Ho. }
  destruct (sreach_next _ _ _ _ _ (CAlias "a" "p")
    (MkW (<["r" := 1]> (<["q" := 0]> {["p" := 0]})) [[dA; dB]; [dA]] {["a" := ["p"]]} 0 false) H3) as [s4 H4].
  { intros o (o' & Ho & ->). exists (OBool true). cbn in Ho. rewrite decide_False in Ho by done.
    rewrite decide_False in Ho by (change ("p" ∉ []); by intros ?%elem_of_nil). by subst o'. }
  apply (sreach_next _ _ _ _ _ (CAlias "a" "q") w_one H4).
  intros o (o' & Ho & ->). exists (OBool true). cbn in Ho. rewrite decide_False in Ho by done.
  rewrite decide_False in Ho by (change ("q" ∉ ["p"]); by intros ?%elem_of_list_singleton). subst o'.
  unfold w_one. cbn. do 2 f_equal. by apply (bool_decide_unpack _).
Qed.
Example C99_example_docs :
  v_idx (seen w_one) !! "p" = Some [dA; dB] /\ v_idx (seen w_one) !! "q" = Some [dA; dB] /\
  v_idx (seen w_one) !! "r" = Some [dA] /\
  length (filter (fun x => w_names w_one !! x = Some 0) ["p"; "q"]) = 2.
Proof. by split_and!. Qed.

(** What the names of one object show is not theirs alone: a Put to "q" changes what "p"
    shows, which C29 excludes for the builders of the project. *)
Theorem C99_isolation_refuted :
  exists s w d s' w',
    sreach give_one true letters s w /\ shared_result give_one (CPut "q" d) s (Done RUnit s') /\
    sreach give_one true letters s' w' /\ v_idx (seen w') !! "p" <> v_idx (seen w) !! "p".
Proof.
  destruct C99_example as [s Hs].
  destruct (C99_put_shows give_one true letters s w_one "q" 0 dA Hs eq_refl eq_refl) as [[res Hres] Hall].
  destruct (Hall _ Hres) as (s' & w' & -> & Hr & _ & Hv). exists s, w_one, dA, s', w'. split_and!; [done..|].
  rewrite Hv. by intros E%(f_equal (fmap length)).
Qed.
Print Assumptions C99_isolation_refuted.
