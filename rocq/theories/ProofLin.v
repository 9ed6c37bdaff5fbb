(** * Calm pools are linearizable. *)
From Coq Require Import Lia.
From stdpp Require Import list gmap.
From Verif Require Import Entities Search SpecSearch Repo Sem SpecRepo ProofRepo SpecConc ProofConc SpecLin ProofMachine.
Open Scope nat_scope.

Lemma forget_view w : forget (view_of w) = view_of w.
Proof. done. Qed.

(** ** What a section does, seen by the sequential machine *)
Section explain.
  Context (ckn : bool) (tk : Tokenizer).

  Lemma explain_first c w b w' x :
    wfC w -> section ckn tk (Todo c) w b w' -> leave b x ->
    match x with
    | Answered a => explained ckn tk c a (view_of w) (view_of w')
    | PutAt n d t => c = CPut n d /\ t = targets w n /\ w' = w
    | DropAt n => c = CDrop n /\ is_Some (c_idx w !! n) /\ w' = w
    | UnAliasAt a i => c = CUnAlias a i /\ i <> ""%string /\ is_Some (c_idx w !! i) /\ w' = w
    | Todo _ => False
    end.
  Proof.
    intros Hw Hs Hx. destruct c; cbn [section] in Hs.
    - destruct Hs as (l & Hl & -> & ->). simpl in Hx. subst x. exists (view_of w). split; [|done].
      exists l. split; [|done]. by rewrite (view_keys w Hw).
    - destruct Hs as (l & Hl & -> & ->). simpl in Hx. subst x. exists (view_of w). split; [|done]. by exists l.
    - destruct Hs as (-> & ->). simpl in Hx. subst x. exists (view_of w). split; [|done]. cbn [spec].
      f_equal. f_equal. apply bool_decide_ext. symmetry. by apply view_idx_is_Some.
    - destruct Hs as (-> & ->). simpl in Hx. subst x. exists (view_of w). by split.
    - pose proof (view_idx_None w index Hw) as Hn. case_decide as Hd; destruct Hs as (-> & ->); simpl in Hx; subst x.
      + exists (view_of w). split; [|done]. cbn [spec]. case_decide as Hd'; [done|]. cbn [v_leakA view_of].
        rewrite decide_True; [done|]. destruct Hd as [Hd|Hd]; [by apply Hn in Hd|done].
      + eexists. split; [|shelve]. cbn [spec]. rewrite decide_False by (rewrite Hn; tauto). cbn [v_leakA view_of].
        rewrite decide_False by tauto. reflexivity.
        Unshelve. done.
    - pose proof (view_idx_None w index Hw) as Hn. case_decide as Hd.
      + destruct Hs as (-> & ->). simpl in Hx. subst x. eexists. split; [|shelve].
        cbn [spec]. rewrite decide_True by done. reflexivity. Unshelve. done.
      + case_decide as Hi; destruct Hs as (-> & ->); simpl in Hx; subst x.
        * eexists. split; [|shelve]. cbn [spec]. rewrite decide_False by done. rewrite decide_True by (by apply Hn).
          reflexivity. Unshelve. done.
        * split_and!; try done. by apply not_eq_None_Some.
    - destruct Hs as (-> & ->). simpl in Hx. by subst x.
    - destruct Hs as (-> & Hs). unfold targets in Hs.
      assert (Hsp : forall o, match c_idx w !! index with
        | Some p => match search_obj ckn tk w terms engine (Some p) with
                    | Ok sr => o = ODone (OResults sr) (view_of w)
                    | Panic => o = OPanic (view_of w)
                    end
        | None => match c_ali w !! index with
                  | None => o = ODone (OError ("index with name '" ++ index ++ "' does not exist")) (view_of w)
                  | Some [x] => match search_obj ckn tk w terms engine (c_idx w !! x) with
                                | Ok sr => o = ODone (OResults sr) (view_of w)
                                | Panic => o = OPanic (view_of w)
                                end
                  | Some l => search_many ckn tk (v_idx (view_of w)) terms engine l o (view_of w)
                  end
        end -> spec ckn tk (CSearch index terms engine) (view_of w) o).
      { intros o Ho. cbn [spec]. rewrite view_idx. destruct (c_idx w !! index) as [p|] eqn:Ei; simpl.
        - destruct (wf_obj _ Hw _ _ Ei) as [[nm reqs] Hp]. rewrite Hp. simpl. unfold search_obj in Ho. simpl in Ho.
          rewrite Hp in Ho. done.
        - destruct (c_ali w !! index) as [[|y [|y' l]]|]; try done. rewrite <- view_search in Ho. done. }
      destruct (c_idx w !! index) as [p|] eqn:Ei.
      + destruct (search_obj ckn tk w terms engine (Some p)) as [sr|]; subst b; simpl in Hx; subst x;
          exists (view_of w); (split; [by apply Hsp|done]).
      + destruct (c_ali w !! index) as [l|] eqn:Ea.
        * destruct l as [|y [|y' l]]; cbn [fmap list_fmap] in Hs.
          -- subst b. destruct Hx as (bl & bl' & E & Hp & ->). destruct bl; [|done]. apply Permutation_nil_r in Hp. subst.
             exists (view_of w). split; [|done]. apply Hsp. left. by exists [], [].
          -- destruct (search_obj ckn tk w terms engine (c_idx w !! y)) as [sr|]; subst b; simpl in Hx; subst x;
               exists (view_of w); (split; [by apply Hsp|done]).
          -- subst b. destruct Hx as (bl & bl' & E & Hp & ->). exists (view_of w). split; [|done]. apply Hsp. left.
             exists bl, bl'. split_and!; try done. rewrite <- E, !fmap_cons, !view_search. f_equal. f_equal.
             rewrite <- list_fmap_compose. apply list_fmap_ext. intros ? z _. apply view_search.
        * subst b. simpl in Hx. subst x. exists (view_of w). split; [by apply Hsp|done].
    - destruct (c_idx w !! old) as [p|] eqn:Eo; destruct Hs as (-> & ->); simpl in Hx; subst x.
      + destruct (wf_obj _ Hw _ _ Eo) as [[nm reqs] Hp].
        eexists. split; [|shelve]. cbn [spec]. rewrite decide_False by (intros E; by apply E).
        rewrite view_idx, Eo. simpl. rewrite Hp. simpl. reflexivity.
        Unshelve. unfold forget. cbn [v_idx v_ali]. unfold view_of at 1. cbn [c_idx c_obj c_ali]. f_equal.
        apply map_eq. intros n. rewrite lookup_omap. destruct (decide (n = old)) as [->|Hne]; [by rewrite !lookup_delete|].
        rewrite !lookup_delete_ne by done. destruct (decide (n = new)) as [->|Hne2].
        * rewrite !lookup_insert. simpl. by rewrite Hp.
        * rewrite !lookup_insert_ne by done. by rewrite lookup_omap.
      + exists (view_of w). split; [|done]. cbn [spec]. rewrite decide_False by (intros E; by apply E).
        by rewrite view_idx, Eo.
    - pose proof (view_idx_None w index Hw) as Hn. case_decide as Hd; destruct Hs as (-> & ->); simpl in Hx; subst x.
      + exists (view_of w). split; [|done]. cbn [spec]. rewrite decide_True by (by apply Hn). done.
      + split_and!; try done. by apply not_eq_None_Some.
    - destruct Hs as (l & Hl & -> & ->). simpl in Hx. subst x. exists (view_of w). split; [|done]. cbn [spec]. eauto.
  Qed.

  (** Only a search of several indices can fail to return. *)
  Lemma leave_or_crash x w b w' :
    wfC w -> section ckn tk x w b w' ->
    (exists x', leave b x') \/ (exists c, x = Todo c /\ spec ckn tk c (view_of w) OCrash /\ w' = w).
  Proof.
    intros Hw Hs. destruct b as [x'|outs]; [left; by exists x'|].
    assert (Hd : Panic ∈ outs \/ exists bl, outs = Ok <$> bl).
    { clear. induction outs as [|[sr|] outs IH]; [right; by exists []| |left; by left].
      destruct IH as [IH|[bl ->]]; [left; by right|right; by exists (sr :: bl)]. }
    destruct Hd as [Hp|[bl ->]]; [|left; eexists; by exists bl, bl].
    right. destruct x as [c|n d [ps|]|n|a i|a]; cbn [section] in Hs.
    - exists c. split; [done|]. destruct c; repeat case_decide; try (by destruct Hs as (? & _ & ? & _)); try (by destruct Hs).
      + destruct Hs as (-> & Hs). split; [|done]. unfold targets in Hs. cbn [spec]. rewrite view_idx.
        destruct (c_idx w !! index) as [p|] eqn:Ei; [by destruct (search_obj _ _ _ _ _ _)|]. cbn [mbind option_bind].
        change (v_leakA (view_of w)) with false. cbn iota. change (v_ali (view_of w)) with (c_ali w).
        destruct (c_ali w !! index) as [l|] eqn:Ea; [|done].
        assert (E : outs = (search_name ckn tk (v_idx (view_of w)) terms engine <$> l) /\ forall y, l <> [y]).
        { destruct l as [|y [|y' l]]; cbn [fmap list_fmap] in Hs.
          - by injection Hs as ->.
          - by destruct (search_obj _ _ _ _ _ _).
          - injection Hs as ->. split; [|done]. rewrite !fmap_cons, !view_search. f_equal. f_equal.
            rewrite <- list_fmap_compose. apply list_fmap_ext. intros ? z _. symmetry. apply view_search. }
        destruct E as [-> Hl]. destruct l as [|y [|y' l]]; [by apply elem_of_nil in Hp|by destruct (Hl y)|by right].
      + by destruct (c_idx w !! old); destruct Hs.
    - by destruct Hs as (_ & ? & _).
    - by destruct Hs as (? & _ & ? & _).
    - by destruct Hs.
    - by destruct (c_ali w !! a); destruct Hs.
    - done.
  Qed.

  (** The second section of a Put whose target has not changed. *)
  Lemma explain_put n d w b w' x :
    wfC w -> section ckn tk (PutAt n d (targets w n)) w b w' -> leave b x ->
    x = Answered (Returned OUnit) /\ explained ckn tk (CPut n d) (Returned OUnit) (view_of w) (view_of w').
  Proof.
    intros Hw Hs Hx. unfold targets in Hs.
    assert (Hz : 0 <> 0 -> False) by lia.
    destruct (c_idx w !! n) as [p|] eqn:En; cbn [section] in Hs.
    - destruct Hs as (_ & -> & ->). simpl in Hx. subst x. split; [done|].
      destruct (wf_obj _ Hw _ _ En) as [[nm reqs] Hp].
      eexists. split; [|shelve]. cbn [spec]. rewrite view_idx, En. cbn [mbind option_bind]. rewrite Hp. cbn [fmap option_fmap option_map].
      rewrite decide_False by done. reflexivity.
      Unshelve. unfold forget. cbn [v_idx v_ali].
      change [Some p] with [Some p]. rewrite <- En. change [c_idx w !! n] with ((fun x => c_idx w !! x) <$> [n]).
      rewrite view_put by done. done.
    - destruct (c_ali w !! n) as [l|] eqn:Ea; cbn [section] in Hs.
      + destruct Hs as (Hno & -> & ->). simpl in Hx. subst x. split; [done|].
        eexists. split; [|shelve]. cbn [spec]. rewrite view_idx, En. cbn [mbind option_bind].
        change (v_leakA (view_of w)) with false. cbn iota. rewrite decide_False by done. change (v_ali (view_of w)) with (c_ali w). rewrite Ea.
        rewrite decide_False; [reflexivity|]. intros Hex. apply Hno. apply Exists_exists in Hex as (y & Hy & E).
        apply elem_of_list_fmap. exists y. split; [|done]. symmetry. apply (view_idx_None w y Hw). exact E.
        Unshelve. unfold forget. cbn [v_idx v_ali]. by rewrite view_put.
      + destruct Hs as (p & Hp & -> & ->). simpl in Hx. subst x. split; [done|].
        eexists. split; [|shelve]. cbn [spec]. rewrite view_idx, En. cbn [mbind option_bind].
        change (v_leakA (view_of w)) with false. cbn iota. rewrite decide_False by done. change (v_ali (view_of w)) with (c_ali w). rewrite Ea. reflexivity.
        Unshelve. unfold forget. cbn [v_idx v_ali]. unfold view_of at 1. cbn [c_idx c_obj c_ali]. f_equal.
        apply map_eq. intros m. rewrite lookup_omap. destruct (decide (m = n)) as [->|Hne].
        * rewrite !lookup_insert. simpl. by rewrite lookup_insert.
        * rewrite !lookup_insert_ne by done. change (omap (λ p0, (c_obj w !! p0) ≫= λ x, Some x.2) (c_idx w)) with (v_idx (view_of w)).
          match goal with |- _ = ?m !! _ => change m with (v_idx (view_of w)) end.
          rewrite view_idx. destruct (c_idx w !! m) as [q|] eqn:Eq; [|done]. simpl.
          destruct (wf_obj _ Hw _ _ Eq) as [y Hy]. rewrite lookup_insert_ne by congruence. done.
  Qed.

  (** The second sections of UnAlias and Drop when the index is still there. *)
  Lemma explain_unalias a i w b w' x :
    wfC w -> i <> ""%string -> is_Some (c_idx w !! i) -> section ckn tk (UnAliasAt a i) w b w' -> leave b x ->
    exists o, x = Answered (Returned o) /\ explained ckn tk (CUnAlias a i) (Returned o) (view_of w) (view_of w').
  Proof.
    intros Hw Hi Hs1 Hs Hx. cbn [section] in Hs.
    assert (Hn : v_idx (view_of w) !! i <> None) by (rewrite view_idx_None by done; by apply not_eq_None_Some).
    destruct (c_ali w !! a) as [l|] eqn:Ea; destruct Hs as (-> & ->); simpl in Hx; subst x;
      (eexists; split; [reflexivity|]); eexists; (split; [|shelve]); cbn [spec];
      rewrite decide_False by done; rewrite decide_False by done; cbn [view_of v_leakA v_ali]; rewrite Ea; reflexivity.
    Unshelve. all: done.
  Qed.
  Lemma view_drop w n : view_of (MkC (delete n (c_idx w)) (c_obj w) (omap (drop_from n) (c_ali w))) =
    MkView (delete n (v_idx (view_of w))) (omap (drop_from n) (c_ali w)) 0 false.
  Proof.
    unfold view_of at 1. cbn [c_idx c_obj c_ali]. f_equal. apply map_eq. intros m. rewrite lookup_omap.
    destruct (decide (m = n)) as [->|Hne]; [by rewrite !lookup_delete|]. rewrite !lookup_delete_ne by done. by rewrite view_idx.
  Qed.
  Lemma explain_drop n w b w' x :
    wfC w -> is_Some (c_idx w !! n) -> section ckn tk (DropAt n) w b w' -> leave b x ->
    x = Answered (Returned (OBool true)) /\ explained ckn tk (CDrop n) (Returned (OBool true)) (view_of w) (view_of w').
  Proof.
    intros Hw Hs1 Hs Hx. cbn [section] in Hs. destruct Hs as (-> & ->). simpl in Hx. subst x. split; [done|].
    assert (Hn : v_idx (view_of w) !! n <> None) by (rewrite view_idx_None by done; by apply not_eq_None_Some).
    eexists. split; [|shelve]. cbn [spec]. rewrite decide_False by done. rewrite decide_False by (intros E; by apply E). reflexivity.
    Unshelve. unfold forget. cbn [v_idx v_ali]. by rewrite view_drop.
  Qed.
End explain.

(** ** Logs *)
Lemma chain_app v log v1 log' v2 : chain v log v1 -> chain v1 log' v2 -> chain v (log ++ log') v2.
Proof. induction 1; [done|]. intros H'. simpl. constructor. auto. Qed.

(** The call has taken effect. *)
Definition committed (t : cthr) : bool :=
  match t with Between (Answered _) | Inside (Next (Answered _)) | Inside (Gather _) => true | _ => false end.

Section lin.
  Context (ckn : bool) (tk : Tokenizer) (cs : list call) (w0 : cview).
  Context (Hw0 : wfC w0) (Hst : calm (view_of w0) cs).

  (** What stays as it was at the start until the call has taken effect. *)
  Definition keeps (w : cview) (c : call) : Prop :=
    match c with
    | CPut n _ =>
        match c_idx w0 !! n, c_ali w0 !! n with
        | Some p, _ => c_idx w !! n = Some p
        | None, Some l =>
            c_idx w !! n = None /\ c_ali w !! n = Some l /\ forall x, x ∈ l -> c_idx w !! x = c_idx w0 !! x
        | None, None => c_idx w !! n = None /\ c_ali w !! n = None
        end
    | _ => True
    end.

  Lemma keeps_start c : keeps w0 c.
  Proof. destruct c; try done. simpl. destruct (c_idx w0 !! index) eqn:E; [done|]. by destruct (c_ali w0 !! index). Qed.

  Lemma keeps_targets w n d : keeps w (CPut n d) -> targets w n = targets w0 n.
  Proof.
    simpl. unfold targets. destruct (c_idx w0 !! n) as [p|].
    - by intros ->.
    - destruct (c_ali w0 !! n) as [l|].
      + intros (-> & -> & H). f_equal. apply list_fmap_ext. intros i x Hx. apply H. by eapply elem_of_list_lookup_2.
      + by intros [-> ->].
  Qed.

  Definition pending (w : cview) (c : call) (x : stage) : Prop :=
    match x with
    | Todo c' => c' = c
    | PutAt n d t => c = CPut n d /\ t = targets w0 n
    | UnAliasAt a i => c = CUnAlias a i /\ i <> ""%string /\ is_Some (c_idx w !! i)
    | DropAt n => c = CDrop n /\ is_Some (c_idx w !! n)
    | Answered _ => False
    end.

  (** What a call may change. *)
  Inductive change (w w' : cview) : call -> Prop :=
  | ch_none c : c_idx w' = c_idx w -> c_ali w' = c_ali w -> change w w' c
  | ch_alias a i : c_idx w' = c_idx w -> (forall a', a' <> a -> c_ali w' !! a' = c_ali w !! a') ->
      change w w' (CAlias a i)
  | ch_unalias a i : c_idx w' = c_idx w -> (forall a', a' <> a -> c_ali w' !! a' = c_ali w !! a') ->
      (c_ali w !! a = None -> c_ali w' !! a = None) -> change w w' (CUnAlias a i)
  | ch_rename o m p : c_idx w !! o = Some p -> c_idx w' = delete o (<[m := p]> (c_idx w)) ->
      c_ali w' = map (renamed o m) <$> c_ali w -> change w w' (CRename o m)
  | ch_drop n : c_idx w' = delete n (c_idx w) -> c_ali w' = omap (drop_from n) (c_ali w) -> change w w' (CDrop n)
  | ch_put n d p : targets w n = None -> c_idx w' = <[n := p]> (c_idx w) -> c_ali w' = c_ali w ->
      change w w' (CPut n d).

  Lemma section_change c x w b w' :
    keeps w c -> pending w c x -> section ckn tk x w b w' -> change w w' c.
  Proof.
    intros Hk Hp Hs. destruct x as [c'|n d t|n|a i|]; try done.
    - simpl in Hp. subst c'. destruct c; cbn [section] in Hs; repeat case_decide;
        try (destruct Hs as (? & _ & _ & ->); by constructor); try (destruct Hs as (_ & ->); by constructor);
        try (destruct Hs as (-> & _); by constructor).
      + destruct Hs as (_ & ->). apply ch_alias; [done|]. intros a' Ha. cbn [c_ali]. by rewrite lookup_insert_ne.
      + destruct Hs as (_ & ->). apply ch_unalias; [done| |].
        * intros a' Ha. cbn [c_ali]. by rewrite lookup_delete_ne.
        * intros _. cbn [c_ali]. by rewrite lookup_delete.
      + destruct (c_idx w !! old) as [p|] eqn:E; destruct Hs as (_ & ->); [by eapply ch_rename|by constructor].
    - destruct Hp as [-> ->]. rewrite <- (keeps_targets w n d Hk) in Hs.
      destruct (targets w n) as [ps|] eqn:Et; cbn [section] in Hs.
      + destruct Hs as (_ & _ & ->). by constructor.
      + destruct Hs as (p & _ & _ & ->). by eapply ch_put.
    - destruct Hp as [-> _]. cbn [section] in Hs. destruct Hs as (_ & ->). by apply ch_drop.
    - destruct Hp as (-> & _). cbn [section] in Hs. destruct (c_ali w !! a) as [l|] eqn:Ea; destruct Hs as (_ & ->); [|by constructor].
      apply ch_unalias; [done| |by rewrite Ea]. intros a' Ha. cbn [c_ali]. by rewrite lookup_insert_ne.
  Qed.

  Lemma put_status n : match v_idx (view_of w0) !! n with Some _ => is_Some (c_idx w0 !! n) | None => c_idx w0 !! n = None end.
  Proof.
    destruct (v_idx (view_of w0) !! n) eqn:E; [apply view_idx_is_Some; eauto|by apply view_idx_None].
  Qed.

  (** A call that [c'] tolerates leaves what [c'] relies on. *)
  Lemma change_keeps w w' c c' :
    tolerates (view_of w0) c' c -> change w w' c -> keeps w c -> keeps w c' -> keeps w' c'.
  Proof.
    intros Ht Hch Hkc Hk. destruct c' as [| | | | | |n d| | | |]; try done. simpl in Hk |- *.
    cbn [tolerates] in Ht. change (c_ali w0) with (v_ali (view_of w0)) in *.
    pose proof (put_status n) as Hn.
    destruct (v_idx (view_of w0) !! n) as [reqs|] eqn:Ev.
    - destruct Hn as [p Hp]. rewrite Hp in *.
      inversion Hch as [? E1 E2|? ? E1 E2|? ? E1 E2 E3|o m q E0 E1 E2|m E1 E2|m d' q E0 E1 E2]; subst; rewrite E1; try done.
      + destruct Ht as [T1 T2]. rewrite lookup_delete_ne, lookup_insert_ne by done. done.
      + by rewrite lookup_delete_ne.
      + rewrite lookup_insert_ne; [done|]. intros ->. unfold targets in E0. by rewrite Hk in E0.
    - rewrite Hn in *. destruct (v_ali (view_of w0) !! n) as [l|] eqn:Ea.
      + destruct Hk as (K1 & K2 & K3).
        inversion Hch as [? E1 E2|a i E1 E2|a i E1 E2 E3|o m q E0 E1 E2|m E1 E2|m d' q E0 E1 E2]; subst; rewrite E1.
        * by rewrite E2.
        * rewrite E2 by done. done.
        * rewrite E2 by done. done.
        * destruct Ht as (T1 & T2 & T3). split_and!.
          -- apply lookup_delete_None. right. by rewrite lookup_insert_ne.
          -- rewrite E2, lookup_fmap, K2. simpl. f_equal. rewrite <- (list_fmap_id l) at 2. apply list_fmap_ext.
             intros i x Hx. unfold renamed. rewrite decide_False; [done|]. intros ->. apply T2. by eapply elem_of_list_lookup_2.
          -- intros x Hx. rewrite lookup_delete_ne, lookup_insert_ne by set_solver. by apply K3.
        * destruct Ht as (T1 & T2). split_and!.
          -- apply lookup_delete_None. by right.
          -- rewrite E2, lookup_omap, K2. simpl. unfold drop_from.
             assert (without m l = l) as ->; [|by destruct l].
             unfold without. clear -T2. induction l as [|x l IH]; [done|]. rewrite filter_cons.
             rewrite decide_True by set_solver. f_equal. apply IH. set_solver.
          -- intros x Hx. rewrite lookup_delete_ne by set_solver. by apply K3.
        * assert (Hmn : m <> n). { intros ->. unfold targets in E0. by rewrite K1, K2 in E0. }
          split_and!; [by rewrite lookup_insert_ne|by rewrite E2|].
          intros x Hx. rewrite lookup_insert_ne; [by apply K3|]. intros ->.
          rewrite (keeps_targets w x d' Hkc) in E0. unfold targets in E0.
          destruct (Ht Hx) as [[y Hy]|[y Hy]].
          -- pose proof (put_status x) as Hx'. rewrite Hy in Hx'. destruct Hx' as [p Hp]. by rewrite Hp in E0.
          -- simpl in Hy. rewrite Hy in E0. by destruct (c_idx w0 !! x).
      + destruct Hk as (K1 & K2).
        inversion Hch as [? E1 E2|a i E1 E2|a i E1 E2 E3|o m q E0 E1 E2|m E1 E2|m d' q E0 E1 E2]; subst; rewrite E1.
        * by rewrite E2.
        * rewrite E2 by done. done.
        * split; [done|]. destruct (decide (a = n)) as [->|]; [by apply E3|]. by rewrite E2.
        * split; [|by rewrite E2, lookup_fmap, K2]. apply lookup_delete_None. right. by rewrite lookup_insert_ne.
        * split; [|by rewrite E2, lookup_omap, K2]. apply lookup_delete_None. by right.
        * split; [by rewrite lookup_insert_ne|by rewrite E2].
  Qed.
  Lemma change_pending w w' c c' x :
    tolerates (view_of w0) c' c -> change w w' c -> pending w c' x -> pending w' c' x.
  Proof.
    intros Ht Hch Hp. destruct x as [|n d t|n|a i|]; try done; simpl in Hp |- *.
    - destruct Hp as [-> Hp]. split; [done|]. simpl in Ht.
      inversion Hch as [? E1 E2|? ? E1 E2|? ? E1 E2 E3|o m q E0 E1 E2|m E1 E2|m d' q E0 E1 E2]; subst; rewrite E1; try done.
      + rewrite lookup_delete_ne by done. apply lookup_insert_is_Some'. by right.
      + by rewrite lookup_delete_ne.
      + apply lookup_insert_is_Some'. by right.
    - destruct Hp as (-> & Hi & Hp). split_and!; [done..|]. simpl in Ht.
      inversion Hch as [? E1 E2|? ? E1 E2|? ? E1 E2 E3|o m q E0 E1 E2|m E1 E2|m d' q E0 E1 E2]; subst; rewrite E1; try done.
      + by rewrite lookup_delete_ne.
      + apply lookup_insert_is_Some'. by right.
  Qed.

  Lemma lin_section c x w b w' :
    wfC w -> keeps w c -> pending w c x -> section ckn tk x w b w' ->
    (committed (Inside b) = true /\
     forall x', leave b x' -> exists a, x' = Answered a /\ explained ckn tk c a (view_of w) (view_of w')) \/
    (committed (Inside b) = false /\ w' = w /\ forall x', leave b x' -> pending w c x').
  Proof.
    intros Hf Hk Hp Hs.
    destruct x as [c'|n d t|n|a i|]; try done.
    - simpl in Hp. subst c'.
      assert (Hex := fun x => explain_first ckn tk c w b w' x Hf Hs).
      destruct (committed (Inside b)) eqn:Eb.
      + left. split; [done|].
        intros x' Hx'. specialize (Hex _ Hx'). destruct x' as [| | | |a]; try done; [..|by eauto].
        all: exfalso; destruct b as [x0|]; [simpl in Hx'; subst x0; done|by destruct Hx' as (? & ? & _ & _ & ?)].
      + right. split; [done|]. destruct b as [x0|]; [|done].
        specialize (Hex x0 eq_refl). destruct x0 as [|n d t|n|a i|]; try done.
        * destruct Hex as (-> & -> & ->). split; [done|]. intros x' ->. split; [done|]. by eapply keeps_targets.
        * destruct Hex as (-> & ? & ->). split; [done|]. by intros x' ->.
        * destruct Hex as (-> & ? & ? & ->). split; [done|]. by intros x' ->.
    - destruct Hp as [-> ->]. left. rewrite <- (keeps_targets w n d Hk) in Hs.
      assert (Hex := fun x => explain_put ckn tk n d w b w' x Hf Hs). split.
      + destruct (targets w n) as [ps|]; cbn [section] in Hs; [by destruct Hs as (_ & -> & _)|by destruct Hs as (? & _ & -> & _)].
      + intros x' Hx'. destruct (Hex _ Hx') as [-> ?]. eauto.
    - destruct Hp as (-> & Hs1). left.
      assert (Hex := fun x => explain_drop ckn tk n w b w' x Hf Hs1 Hs). split.
      + cbn [section] in Hs. by destruct Hs as (-> & _).
      + intros x' Hx'. destruct (Hex _ Hx') as [-> ?]. eauto.
    - destruct Hp as (-> & Hi & Hs1). left.
      assert (Hex := fun x => explain_unalias ckn tk a i w b w' x Hf Hi Hs1 Hs). split.
      + cbn [section] in Hs. by destruct (c_ali w !! a); destruct Hs as (-> & _).
      + intros x' Hx'. destruct (Hex _ Hx') as (o & -> & ?). eauto.
  Qed.

  Definition thr_ok (w : cview) (log : list (nat * view * view)) (i : nat) (c : call) (t : cthr) : Prop :=
    if committed t then
      exists vb va, (i, vb, va) ∈ log /\ forall x, ends t x -> exists a, x = Answered a /\ explained ckn tk c a vb va
    else i ∉ log.*1.*1 /\ keeps w c /\ forall x, ends t x -> pending w c x.

  Record linI (l : list cthr) (w : cview) (log : list (nat * view * view)) : Prop := {
    li_len : length l = length cs;
    li_wf : wfC w;
    li_nodup : NoDup log.*1.*1;
    li_dom : forall i, i ∈ log.*1.*1 -> i < length cs;
    li_chain : chain (view_of w0) log (view_of w);
    li_take : forall i vb va, (i, vb, va) ∈ log -> exists c, cs !! i = Some c /\ may_take ckn tk c vb va;
    li_thr : forall i t c, l !! i = Some t -> cs !! i = Some c -> thr_ok w log i c t }.

  Lemma in_log (log : list (nat * view * view)) i vb va : (i, vb, va) ∈ log -> i ∈ log.*1.*1.
  Proof. intros H. apply elem_of_list_fmap. exists (i, vb). split; [done|]. apply elem_of_list_fmap. by exists (i, vb, va). Qed.

  Lemma thr_ok_iff w log i c t : thr_ok w log i c t -> (i ∈ log.*1.*1 <-> committed t = true).
  Proof.
    unfold thr_ok. destruct (committed t).
    - intros (vb & va & Hin & _). split; [done|]. intros _. by eapply in_log.
    - intros [H _]. done.
  Qed.

  Lemma linI_step l w l' w' log :
    linI l w log -> cstep ckn tk (APool l w) (APool l' w') -> exists ext, linI l' w' (log ++ ext).
  Proof.
    intros [H1 H2 H3 H3' H4 H4' H5] Hs. inversion Hs as [? ? i x b ? Hi Heff|? ? i b x Hi Hfin| |]; simplify_eq.
    - destruct (lookup_lt_is_Some_2 cs i) as [c Hc]; [rewrite <- H1; by eapply lookup_lt_Some|].
      pose proof (H5 _ _ _ Hi Hc) as Ht. unfold thr_ok in Ht.
      destruct (committed (Between x)) eqn:Ex; [destruct x; try done; by simpl in Heff|].
      destruct Ht as (Hni & Hk & Hp). specialize (Hp x eq_refl).
      pose proof (section_change c x w b w' Hk Hp Heff) as Hch.
      destruct (lin_section c x w b w') as [(Eb & Hex)|(Eb & -> & Hpen)]; try done.
      + exists [(i, view_of w, view_of w')]. split.
        * by rewrite insert_length.
        * by eapply section_wf.
        * rewrite !fmap_app. simpl. apply NoDup_app. split_and!; [done| |apply NoDup_singleton].
          intros j Hj E%elem_of_list_singleton. by subst.
        * intros j. rewrite !fmap_app. simpl. rewrite elem_of_app, elem_of_list_singleton.
          intros [Hj| ->]; [by apply H3'|by eapply lookup_lt_Some].
        * eapply chain_app; [done|]. constructor. constructor.
        * intros j vb va [Hj|Hj]%elem_of_app; [by eauto|]. apply elem_of_list_singleton in Hj. simplify_eq.
          exists c. split; [done|]. destruct (leave_or_crash ckn tk x w b w' H2 Heff) as [[x' Hx']|(c' & -> & Hcr & ->)].
          -- destruct (Hex _ Hx') as (a & -> & He). left. eauto.
          -- simpl in Hp. subst c'. by right.
        * intros j t c' Hj Hc'. apply list_lookup_insert_Some in Hj as [(-> & <- & _)|[Hne Hj]].
          -- rewrite Hc in Hc'. simplify_eq. unfold thr_ok. rewrite Eb. exists (view_of w), (view_of w'). split; [set_solver|done].
          -- specialize (H5 _ _ _ Hj Hc'). unfold thr_ok in *. destruct (committed t).
             ++ destruct H5 as (vb & va & Hin & Hx). exists vb, va. split; [set_solver|done].
             ++ destruct H5 as (Hno & Hk' & Hx). pose proof (Hst j i c' c (not_eq_sym Hne) Hc' Hc) as Hto. split_and!.
                ** rewrite !fmap_app. simpl. set_solver.
                ** by eapply change_keeps.
                ** intros y Hy. eapply change_pending; [done..|by apply Hx].
      + exists []. rewrite app_nil_r. split; try done.
        * by rewrite insert_length.
        * intros j t c' Hj Hc'. apply list_lookup_insert_Some in Hj as [(-> & <- & _)|[Hne Hj]]; [|by eauto].
          rewrite Hc in Hc'. simplify_eq. unfold thr_ok. rewrite Eb. done.
    - destruct (lookup_lt_is_Some_2 cs i) as [c Hc]; [rewrite <- H1; by eapply lookup_lt_Some|].
      pose proof (H5 _ _ _ Hi Hc) as Ht. unfold thr_ok in Ht.
      exists []. rewrite app_nil_r. split; try done; [by rewrite insert_length|].
      intros j t c' Hj Hc'. apply list_lookup_insert_Some in Hj as [(-> & <- & _)|[Hne Hj]]; [|by eauto].
      rewrite Hc in Hc'. simplify_eq. unfold thr_ok. destruct (committed (Inside b)) eqn:Eb.
      + destruct Ht as (vb & va & Hin & Hx). destruct (Hx x Hfin) as (a & -> & He). simpl. exists vb, va. split; [done|].
        intros ? ->. eauto.
      + destruct Ht as (Hno & Hk & Hx). specialize (Hx x Hfin).
        destruct (committed (Between x)) eqn:Ex; [by destruct x|]. split_and!; [done..|]. by intros ? ->.
  Qed.

  Lemma linI_steps l w l' w' log :
    linI l w log -> rtc (cstep ckn tk) (APool l w) (APool l' w') -> exists ext, linI l' w' (log ++ ext).
  Proof.
    intros H Hr. remember (APool l w) as p eqn:Ep. remember (APool l' w') as p' eqn:Ep'.
    revert l w log H Ep. induction Hr as [p|p p1 p2 Hs Hr IH]; intros l w log H ->.
    - simplify_eq. exists []. by rewrite app_nil_r.
    - destruct p1 as [l1 w1|].
      + destruct (linI_step _ _ _ _ _ H Hs) as [ext H1]. destruct (IH Ep' _ _ _ H1 eq_refl) as [ext' H2].
        exists (ext ++ ext'). by rewrite app_assoc.
      + exfalso. inversion Hr; simplify_eq. rename select (astep _ _ _ _ ACrashed _) into Hb. inversion Hb.
  Qed.

  Lemma linI_start : linI (cstart cs) w0 [].
  Proof.
    split.
    - unfold cstart. by rewrite fmap_length.
    - done.
    - constructor.
    - intros i Hi. by apply elem_of_nil in Hi.
    - constructor.
    - intros i vb va Hi. by apply elem_of_nil in Hi.
    - intros i t c Hi Hc. unfold cstart in Hi. rewrite list_lookup_fmap, Hc in Hi. simpl in Hi. simplify_eq.
      unfold thr_ok. simpl. split_and!; [by apply not_elem_of_nil|apply keeps_start|]. by intros ? ->.
  Qed.

  (** At most the call that takes a step is added to the order. *)
  Lemma linI_ext l w l' w' log ext i :
    linI l w log -> linI l' w' (log ++ ext) -> (forall j, j <> i -> l' !! j = l !! j) ->
    ext.*1.*1 = [] \/ (ext.*1.*1 = [i] /\ i ∉ log.*1.*1).
  Proof.
    intros H H' Hoff. pose proof (li_nodup _ _ _ H') as Hn. rewrite !fmap_app in Hn.
    apply NoDup_app in Hn as (_ & Hd & Hn).
    assert (Hall : forall j, j ∈ ext.*1.*1 -> j = i).
    { intros j Hj. destruct (decide (j = i)) as [|Hne]; [done|exfalso].
      assert (Hin : j ∈ (log ++ ext).*1.*1) by (rewrite !fmap_app; set_solver).
      assert (Hnl : j ∉ log.*1.*1) by (intros Hl; by apply (Hd j)).
      destruct (cs !! j) as [c|] eqn:Ec.
      - destruct (lookup_lt_is_Some_2 l j) as [t Ht]; [rewrite (li_len _ _ _ H); by eapply lookup_lt_Some|].
        pose proof (li_thr _ _ _ H _ _ _ Ht Ec) as K1. rewrite <- Hoff in Ht by done.
        pose proof (li_thr _ _ _ H' _ _ _ Ht Ec) as K2. apply thr_ok_iff in K1, K2. tauto.
      - pose proof (li_dom _ _ _ H' _ Hin). apply lookup_ge_None in Ec. lia. }
    destruct ext.*1.*1 as [|a [|b r]].
    - by left.
    - right. assert (a = i) as -> by (apply Hall; by left). split; [done|]. intros Hl. apply (Hd _ Hl). by left.
    - exfalso. assert (a = i) as -> by (apply Hall; by left). assert (b = i) as -> by (apply Hall; right; by left).
      apply NoDup_cons in Hn as [Hn _]. apply Hn. by left.
  Qed.
End lin.
