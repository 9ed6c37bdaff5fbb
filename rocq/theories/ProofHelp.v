(** * Gentle pools are linearizable; a Put may take effect at the Drop of its target. *)
From Coq Require Import Lia.
From stdpp Require Import list gmap.
From Verif Require Import Entities Search SpecSearch Repo Sem SpecRepo ProofRepo SpecConc ProofConc SpecLin SpecHelp
  ProofMachine ProofLin.
Open Scope nat_scope.

(** ** Objects that no name stands for *)

Notation count n l := (length (filter (fun x => x = n) l)).

Lemma count_notin {A} `{EqDecision A} (n : A) l : n ∉ l -> count n l = 0.
Proof.
  intros H. induction l as [|x l IH]; [done|]. rewrite filter_cons. rewrite decide_False by set_solver.
  apply IH. set_solver.
Qed.
Lemma count_without n m l : n <> m -> count n (without m l) = count n l.
Proof.
  intros H. unfold without. induction l as [|x l IH]; [done|]. rewrite filter_cons. case_decide.
  - rewrite !filter_cons. case_decide; simpl; by rewrite IH.
  - rewrite filter_cons, decide_False by congruence. done.
Qed.
Lemma elem_of_without n m l : n ∈ without m l <-> n <> m /\ n ∈ l.
Proof. unfold without. by rewrite elem_of_list_filter. Qed.

(** The objects [ps], as far as a name stands for them, are those of the names [l]. *)
Record rel (w : cview) (ps : list (option nat)) (l : list string) : Prop := {
  rel_none : None ∉ ps;
  rel_obj : forall p, Some p ∈ ps -> is_Some (c_obj w !! p);
  rel_idx : forall x, x ∈ l -> is_Some (c_idx w !! x);
  rel_count : forall n p, c_idx w !! n = Some p -> count (Some p) ps = count n l }.

Lemma rel_one w n p : wfC w -> c_idx w !! n = Some p -> rel w [Some p] [n].
Proof.
  intros Hw Hn. split.
  - set_solver.
  - intros q Hq. apply elem_of_list_singleton in Hq. simplify_eq. by eapply wf_obj.
  - intros x ->%elem_of_list_singleton. eauto.
  - intros m q Hm. rewrite !filter_cons, !filter_nil. destruct (decide (m = n)) as [->|Hne].
    + rewrite Hn in Hm. simplify_eq. by rewrite !decide_True.
    + rewrite decide_False, decide_False; [done..|]. intros ?. simplify_eq. apply Hne. by eapply wf_inj.
Qed.

Lemma rel_list w l : wfC w -> None ∉ ((fun x => c_idx w !! x) <$> l) -> rel w ((fun x => c_idx w !! x) <$> l) l.
Proof.
  intros Hw Hno. split.
  - done.
  - intros p Hp. apply elem_of_list_fmap in Hp as (x & E & _). by eapply wf_obj.
  - intros x Hx. apply not_eq_None_Some. intros E. apply Hno. apply elem_of_list_fmap. exists x. by rewrite E.
  - intros n p Hn. clear Hno. induction l as [|x l IH]; [done|]. rewrite fmap_cons, !filter_cons.
    destruct (decide (x = n)) as [->|Hne].
    + rewrite decide_True by done. simpl. by rewrite IH.
    + rewrite decide_False; [exact IH|]. intros E. apply Hne. by eapply wf_inj.
Qed.

(** Putting a document into the objects is putting it into the indices. *)
Lemma rel_put w d ps l :
  rel w ps l ->
  view_of (MkC (c_idx w) (put_objs d ps (c_obj w)) (c_ali w)) = MkView (put_each d l (v_idx (view_of w))) (c_ali w) 0 false.
Proof.
  intros Hr. unfold view_of at 1. cbn [c_idx c_obj c_ali]. f_equal. apply map_eq. intros n.
  rewrite lookup_omap, put_each_lookup, view_idx. destruct (c_idx w !! n) as [p|] eqn:E; [|done]. simpl.
  rewrite put_objs_lookup, (rel_count _ _ _ Hr _ _ E). by destruct (c_obj w !! p) as [[nm reqs]|].
Qed.
Lemma rel_put_nil w d ps :
  rel w ps [] -> view_of (MkC (c_idx w) (put_objs d ps (c_obj w)) (c_ali w)) = view_of w.
Proof. intros Hr. rewrite (rel_put _ _ _ _ Hr). done. Qed.

(** ** What a call may change *)
Inductive change (w w' : cview) : call -> Prop :=
| ch_none c : c_idx w' = c_idx w -> c_ali w' = c_ali w -> change w w' c
| ch_alias a i : c_idx w' = c_idx w -> (forall a', a' <> a -> c_ali w' !! a' = c_ali w !! a') ->
    change w w' (CAlias a i)
| ch_unalias a i : c_idx w' = c_idx w -> (forall a', a' <> a -> c_ali w' !! a' = c_ali w !! a') ->
    (c_ali w !! a = None -> c_ali w' !! a = None) -> change w w' (CUnAlias a i)
| ch_rename o m p : c_idx w !! o = Some p -> c_idx w' = delete o (<[m := p]> (c_idx w)) ->
    c_ali w' = map (renamed o m) <$> c_ali w -> change w w' (CRename o m)
| ch_drop n : is_Some (c_idx w !! n) -> c_idx w' = delete n (c_idx w) -> c_ali w' = omap (drop_from n) (c_ali w) -> change w w' (CDrop n)
| ch_put n d p : c_idx w !! n = None -> c_ali w !! n = None -> c_obj w !! p = None ->
    c_idx w' = <[n := p]> (c_idx w) -> c_ali w' = c_ali w -> change w w' (CPut n d).

(** No object disappears. *)
Definition grows (w w' : cview) : Prop := forall p, is_Some (c_obj w !! p) -> is_Some (c_obj w' !! p).

Lemma section_grows ckn tk x w b w' : section ckn tk x w b w' -> grows w w'.
Proof.
  intros Hs p Hp. destruct x as [c|n d [ps|]|n|a i|a]; cbn [section] in Hs.
  - destruct c; repeat case_decide;
      try (by destruct Hs as (? & _ & _ & ->)); try (by destruct Hs as (_ & ->)); try (by destruct Hs as (-> & _)).
    destruct (c_idx w !! old); by destruct Hs as (_ & ->).
  - destruct Hs as (_ & _ & ->). by apply put_objs_is_Some.
  - destruct Hs as (q & _ & _ & ->). apply lookup_insert_is_Some'. by right.
  - by destruct Hs as (_ & ->).
  - destruct (c_ali w !! a); by destruct Hs as (_ & ->).
  - done.
Qed.

Lemma rel_same w w' ps l : grows w w' -> c_idx w' = c_idx w -> rel w ps l -> rel w' ps l.
Proof. intros Hg E [H1 H2 H3 H4]. split; try done; [|by rewrite E..]. intros p Hp. apply Hg. auto. Qed.

Lemma rel_drop w w' ps l m : grows w w' -> c_idx w' = delete m (c_idx w) -> rel w ps l -> rel w' ps (without m l).
Proof.
  intros Hg E [H1 H2 H3 H4]. split.
  - done.
  - intros p Hp. apply Hg. auto.
  - intros x [Hx1 Hx2]%elem_of_without. rewrite E, lookup_delete_ne by done. auto.
  - intros n p. rewrite E. intros [Hne Hn]%lookup_delete_Some. rewrite count_without by done. auto.
Qed.

Lemma rel_rename w w' ps l o m p :
  grows w w' -> c_idx w !! o = Some p -> c_idx w' = delete o (<[m := p]> (c_idx w)) -> o ∉ l ->
  rel w ps l -> rel w' ps (without m l).
Proof.
  intros Hg Ho E Hol [H1 H2 H3 H4]. split.
  - done.
  - intros q Hq. apply Hg. auto.
  - intros x [Hx1 Hx2]%elem_of_without. rewrite E, lookup_delete_ne, lookup_insert_ne by set_solver. auto.
  - intros n q. rewrite E. intros [Hne Hn]%lookup_delete_Some. apply lookup_insert_Some in Hn as [[<- <-]|[Hne' Hn]].
    + rewrite (H4 _ _ Ho), (count_notin o) by done. rewrite count_notin; [done|]. intros [? _]%elem_of_without. done.
    + rewrite count_without by done. auto.
Qed.

Lemma rel_new w w' ps l n p :
  grows w w' -> c_idx w !! n = None -> c_obj w !! p = None -> c_idx w' = <[n := p]> (c_idx w) ->
  rel w ps l -> rel w' ps l.
Proof.
  intros Hg Hn Hp E [H1 H2 H3 H4]. split.
  - done.
  - intros q Hq. apply Hg. auto.
  - intros x Hx. rewrite E. apply lookup_insert_is_Some'. right. auto.
  - intros m q. rewrite E. intros [[<- <-]|[Hne Hm]]%lookup_insert_Some; [|by auto].
    rewrite !count_notin; [done|..].
    + intros Hx. destruct (H3 _ Hx). congruence.
    + intros Hx. destruct (H2 _ Hx). congruence.
Qed.

(** Objects no name stands for stay so. *)
Lemma rel_nil w w' ps c : grows w w' -> change w w' c -> rel w ps [] -> rel w' ps [].
Proof.
  intros Hg Hch Hr. inversion Hch as [? E1 E2|? ? E1 E2|? ? E1 E2 E3|o m q E0 E1 E2|m Em E1 E2|m d' q E0 E0' E0'' E1 E2]; subst.
  - by eapply rel_same.
  - by eapply rel_same.
  - by eapply rel_same.
  - change (@nil string) with (without m []). eapply rel_rename; [done..|set_solver|done].
  - change (@nil string) with (without m []). by eapply rel_drop.
  - by eapply rel_new.
Qed.

(** ** Putting a document just before its index goes *)

(** In [v] a Put of [n] goes into the indices [l]. *)
Definition aims (v : view) (n : string) (l : list string) : Prop :=
  (is_Some (v_idx v !! n) /\ l = [n]) \/
  (v_idx v !! n = None /\ v_ali v !! n = Some l /\ forall x, x ∈ l -> is_Some (v_idx v !! x)).

Definition put_view (d : DocRequest) (l : list string) (v : view) : view :=
  MkView (put_each d l (v_idx v)) (v_ali v) 0 false.

Lemma explain_aims ckn tk n d l v :
  forget v = v -> aims v n l -> explained ckn tk (CPut n d) (Returned OUnit) v (put_view d l v).
Proof.
  intros Hf H. assert (Hi : v_leakI v = 0) by (by rewrite <- Hf). assert (Ha : v_leakA v = false) by (by rewrite <- Hf).
  eexists. split; [|shelve]. cbn [spec]. destruct H as [[[reqs E] ->]|(E & El & Hl)]; rewrite E.
  - rewrite decide_False by lia. reflexivity.
  - rewrite Ha. rewrite decide_False by lia. rewrite El.
    rewrite decide_False; [reflexivity|]. intros Hex. apply Exists_exists in Hex as (y & Hy & Ey). destruct (Hl _ Hy). congruence.
  Unshelve. all: done.
Qed.

(** [v'] is [v] up to the documents of the index [m]. *)
Record near (m : string) (v v' : view) : Prop := {
  near_ali : v_ali v' = v_ali v;
  near_forget : forget v' = v';
  near_idx : forall x, x <> m -> v_idx v' !! x = v_idx v !! x;
  near_dom : forall x, is_Some (v_idx v' !! x) <-> is_Some (v_idx v !! x) }.

Lemma near_refl m w : near m (view_of w) (view_of w).
Proof. by split. Qed.
Lemma near_put m v v' d l : near m v v' -> (forall x, x ∈ l -> x = m) -> near m v (put_view d l v').
Proof.
  intros [H1 H2 H3 H4] Hl. split; [done|done|..]; cbn [put_view v_idx].
  - intros x Hx. rewrite put_each_lookup, count_notin; [|intros Hin; by apply Hx, Hl].
    rewrite H3 by done. destruct (v_idx v !! x); [|done]. simpl. by rewrite app_nil_r.
  - intros x. by rewrite put_each_lookup, fmap_is_Some.
Qed.
Lemma near_aims m v v' n l : near m v v' -> aims v n l -> aims v' n l.
Proof.
  intros [H1 H2 H3 H4] [[H ->]|(E & Ea & H)]; [left|right].
  - split; [|done]. by apply H4.
  - split_and!; [|congruence|intros x Hx; by apply H4, H]. apply eq_None_not_Some. rewrite H4. by apply eq_None_not_Some.
Qed.

Lemma explain_drop_near ckn tk m w w' v :
  wfC w -> near m (view_of w) v -> is_Some (c_idx w !! m) ->
  w' = MkC (delete m (c_idx w)) (c_obj w) (omap (drop_from m) (c_ali w)) ->
  explained ckn tk (CDrop m) (Returned (OBool true)) v (view_of w').
Proof.
  intros Hw [H1 H2 H3 H4] Hm ->. assert (Hi : v_leakI v = 0) by (by rewrite <- H2). assert (Ha : v_leakA v = false) by (by rewrite <- H2).
  eexists. split; [|shelve]. cbn [spec].
  apply (view_idx_is_Some _ _ Hw), H4 in Hm. rewrite decide_False by (by apply not_eq_None_Some).
  rewrite Hi, Ha. rewrite decide_False by lia. reflexivity.
  Unshelve. unfold forget. cbn [v_idx v_ali]. rewrite view_drop, H1. f_equal. apply map_eq. intros x.
  destruct (decide (x = m)) as [->|Hne]; [by rewrite !lookup_delete|]. rewrite !lookup_delete_ne by done. by rewrite H3.
Qed.

Lemma explain_rename_near ckn tk o m p w w' v :
  wfC w -> near m (view_of w) v -> o <> m -> c_idx w !! o = Some p ->
  w' = MkC (delete o (<[m := p]> (c_idx w))) (c_obj w) (map (renamed o m) <$> c_ali w) ->
  explained ckn tk (CRename o m) (Returned (OBool true)) v (view_of w').
Proof.
  intros Hw [H1 H2 H3 H4] Hom Ho ->. destruct (wf_obj _ Hw _ _ Ho) as [[nm reqs] Hp].
  assert (Hi : v_leakI v = 0) by (by rewrite <- H2). assert (Ha : v_leakA v = false) by (by rewrite <- H2).
  eexists. split; [|shelve]. cbn [spec]. rewrite H3, view_idx, Ho by done. cbn [mbind option_bind]. rewrite Hp.
  rewrite Hi, Ha. rewrite decide_False by lia. reflexivity.
  Unshelve. unfold forget. cbn [v_idx v_ali]. unfold view_of at 1. cbn [c_idx c_obj c_ali]. rewrite H1. f_equal.
  apply map_eq. intros n. rewrite lookup_omap. destruct (decide (n = o)) as [->|Hne]; [by rewrite !lookup_delete|].
  rewrite !lookup_delete_ne by done. destruct (decide (n = m)) as [->|Hne2].
  - rewrite !lookup_insert. simpl. by rewrite Hp.
  - rewrite !lookup_insert_ne by done. rewrite H3 by done. by rewrite view_idx.
Qed.

Section lin.
  Context (ckn : bool) (tk : Tokenizer) (cs : list call) (w0 : cview).
  Context (Hw0 : wfC w0) (Hst : gentle (view_of w0) cs).

  (** A Put that has not begun. *)
  Definition todo_ok (w : cview) (n : string) : Prop :=
    match c_idx w0 !! n, c_ali w0 !! n with
    | Some _, _ =>
        (CDrop n ∈ cs -> c_ali w !! n = None) /\ (is_Some (c_idx w !! n) \/ (CDrop n ∈ cs /\ c_idx w !! n = None))
    | None, Some l =>
        c_idx w !! n = None /\
        ((exists l', c_ali w !! n = Some l' /\ l' ⊆ l /\ forall x, x ∈ l -> x ∈ l' \/ CDrop x ∈ cs) \/
         (c_ali w !! n = None /\ (exists m, CDrop m ∈ cs) /\ forall x, x ∈ l -> CDrop x ∈ cs))
    | None, None => c_idx w !! n = None /\ c_ali w !! n = None
    end.

  (** A Put that has looked its target up. *)
  Definition at_ok (i : nat) (w : cview) (n : string) (t : option (list (option nat))) : Prop :=
    match t with
    | None => sole cs i n /\ c_idx w !! n = None /\ c_ali w !! n = None
    | Some ps =>
        None ∈ ps \/
        exists l', rel w ps l' /\
          ((is_Some (c_idx w0 !! n) /\ l' = [n] /\ is_Some (c_idx w !! n)) \/
           (exists l, c_idx w0 !! n = None /\ c_ali w0 !! n = Some l /\ l' ⊆ l /\
             c_idx w !! n = None /\ c_ali w !! n = Some l'))
    end.

  Definition pending (i : nat) (w : cview) (c : call) (x : stage) : Prop :=
    match x with
    | Todo c' => c' = c /\ match c with CPut n _ => todo_ok w n | _ => True end
    | PutAt n d t => c = CPut n d /\ at_ok i w n t
    | UnAliasAt a i => c = CUnAlias a i /\ i <> ""%string /\ is_Some (c_idx w !! i)
    | DropAt n => c = CDrop n /\ is_Some (c_idx w !! n)
    | Answered _ => False
    end.

  (** A Put that has taken effect at a step of another call. *)
  Definition helped (w : cview) (c : call) (x : stage) : Prop :=
    exists n d ps, c = CPut n d /\ x = PutAt n d (Some ps) /\ rel w ps [].

  Lemma todo_start i n d : cs !! i = Some (CPut n d) -> todo_ok w0 n.
  Proof.
    intros Hi. unfold todo_ok. destruct (c_idx w0 !! n) as [p|] eqn:E.
    - split; [|left; eauto]. intros [j Hj]%elem_of_list_lookup.
      pose proof (Hst i j _ _ ltac:(congruence) Hi Hj) as Hb. cbn [bears] in Hb.
      destruct (v_idx (view_of w0) !! n) eqn:Ev; [by destruct (Hb eq_refl)|].
      apply view_idx_None in Ev; [congruence|done].
    - destruct (c_ali w0 !! n) as [l|] eqn:Ea; [|done]. split; [done|]. left. exists l. split_and!; [done..|]. by left.
  Qed.

  (** The facts [bears] gives about a Put. *)
  Lemma bears_idx i j n d c : cs !! i = Some (CPut n d) -> cs !! j = Some c -> i <> j -> is_Some (c_idx w0 !! n) ->
    match c with CRename o _ => o <> n | _ => True end /\ (c = CDrop n -> sole cs i n).
  Proof.
    intros Hi Hj Hij [p Hp]. pose proof (Hst i j _ _ Hij Hi Hj) as Hb. cbn [bears] in Hb.
    destruct (v_idx (view_of w0) !! n) eqn:Ev; [|apply view_idx_None in Ev; [congruence|done]].
    split; [by destruct c|]. intros ->. by destruct (Hb eq_refl).
  Qed.
  Lemma bears_ali i j n d c l : cs !! i = Some (CPut n d) -> cs !! j = Some c -> i <> j ->
    c_idx w0 !! n = None -> c_ali w0 !! n = Some l ->
    match c with
    | CAlias a _ | CUnAlias a _ => a <> n
    | CDrop _ => (forall x, x ∈ l -> CDrop x ∈ cs) -> sole cs i n
    | CRename o m => m <> n /\ o ∉ l /\ m ∉ l
    | _ => True
    end.
  Proof.
    intros Hi Hj Hij Hn Ha. pose proof (Hst i j _ _ Hij Hi Hj) as Hb. cbn [bears] in Hb.
    apply view_idx_None in Hn; [|done]. rewrite Hn in Hb. change (v_ali (view_of w0)) with (c_ali w0) in Hb. by rewrite Ha in Hb.
  Qed.
  Lemma bears_new i n d : cs !! i = Some (CPut n d) -> c_idx w0 !! n = None -> c_ali w0 !! n = None -> sole cs i n.
  Proof.
    intros Hi Hn Ha j c Hij Hj. pose proof (Hst i j _ _ (not_eq_sym Hij) Hi Hj) as Hb. cbn [bears] in Hb.
    apply view_idx_None in Hn; [|done]. rewrite Hn in Hb. change (v_ali (view_of w0)) with (c_ali w0) in Hb. by rewrite Ha in Hb.
  Qed.

  (** A Put that has not begun, while another call takes effect. *)
  Lemma todo_change i j n d w w' c :
    cs !! i = Some (CPut n d) -> cs !! j = Some c -> i <> j -> change w w' c -> todo_ok w n -> todo_ok w' n.
  Proof.
    intros Hi Hj Hij Hch. unfold todo_ok. destruct (c_idx w0 !! n) as [p|] eqn:E0.
    - destruct (bears_idx i j n d c Hi Hj Hij ltac:(eauto)) as [B1 B2].
      assert (Hdrop : CDrop n ∈ cs -> sole cs i n).
      { intros [k Hk]%elem_of_list_lookup. destruct (bears_idx i k n d _ Hi Hk ltac:(congruence) ltac:(eauto)) as [_ B]. by apply B. }
      assert (Hmk : CDrop n ∈ cs -> ~ makes n c).
      { intros Hd. eapply Hdrop; [done| |exact Hj]. done. }
      intros [H1 H2].
      inversion Hch as [? E1 E2|a ? E1 E2|a ? E1 E2 E3|o m q Eq E1 E2|m Em E1 E2|m d' q Eq Eq' Eq'' E1 E2]; subst; rewrite E1.
      + by rewrite E2.
      + split; [|done]. intros Hd. rewrite E2; [by auto|]. intros <-. by destruct (Hmk Hd).
      + split; [|done]. intros Hd. destruct (decide (a = n)) as [->|]; [by auto|]. rewrite E2 by done. auto.
      + split.
        * intros Hd. rewrite E2, lookup_fmap, H1 by done. done.
        * rewrite lookup_delete_ne by done. destruct (decide (m = n)) as [->|Hne].
          -- left. rewrite lookup_insert. eauto.
          -- rewrite lookup_insert_ne by done. done.
      + split.
        * intros Hd. rewrite E2, lookup_omap, H1 by done. done.
        * destruct (decide (m = n)) as [->|Hne].
          -- right. split; [by eapply elem_of_list_lookup_2|]. by rewrite lookup_delete.
          -- rewrite lookup_delete_ne by done. done.
      + rewrite E2. split; [done|]. destruct (decide (m = n)) as [->|Hne].
        * left. rewrite lookup_insert. eauto.
        * rewrite lookup_insert_ne by done. done.
    - destruct (c_ali w0 !! n) as [l|] eqn:Ea.
      + pose proof (bears_ali i j n d c l Hi Hj Hij E0 Ea) as B.
        assert (Hgone : (exists m, CDrop m ∈ cs) -> (forall x, x ∈ l -> CDrop x ∈ cs) -> ~ makes n c).
        { intros (m & [k Hk]%elem_of_list_lookup) Hall.
          pose proof (bears_ali i k n d _ l Hi Hk ltac:(congruence) E0 Ea) as B'. by eapply (B' Hall). }
        intros [H1 H2].
        inversion Hch as [? E1 E2|a ? E1 E2|a ? E1 E2 E3|o m q Eq E1 E2|m Em E1 E2|m d' q Eq Eq' Eq'' E1 E2]; subst; rewrite E1.
        * by rewrite E2.
        * by rewrite E2.
        * by rewrite E2.
        * destruct B as (B1 & B2 & B3). split.
          -- apply lookup_delete_None. right. by rewrite lookup_insert_ne.
          -- rewrite E2, lookup_fmap. destruct H2 as [(l' & -> & Hl & Hx)|(-> & H2)]; [|by right].
             left. exists l'. split_and!; [|done..]. simpl. f_equal. rewrite <- (list_fmap_id l') at 2. apply list_fmap_ext.
             intros k x Hk. unfold renamed. rewrite decide_False; [done|]. intros ->. apply B2, Hl. by eapply elem_of_list_lookup_2.
        * split; [apply lookup_delete_None; by right|]. rewrite E2, lookup_omap.
          destruct H2 as [(l' & -> & Hl & Hx)|(-> & H2)]; [|by right]. simpl. unfold drop_from.
          assert (Hm : CDrop m ∈ cs) by (by eapply elem_of_list_lookup_2).
          assert (Hx' : forall x, x ∈ l -> x ∈ without m l' \/ CDrop x ∈ cs).
          { intros x Hxl. destruct (decide (x = m)) as [->|Hne]; [by right|]. destruct (Hx _ Hxl); [left|by right].
            by apply elem_of_without. }
          destruct (without m l') as [|y l''] eqn:El.
          -- right. split_and!; [done|eauto|]. intros x Hxl. destruct (Hx' _ Hxl) as [[]%elem_of_nil|?]; done.
          -- left. eexists. split_and!; [done| |done]. rewrite <- El. intros x [_ ?]%elem_of_without. auto.
        * rewrite E2. split; [|done]. rewrite lookup_insert_ne; [done|]. intros <-.
          destruct H2 as [(l' & H2 & _)|(_ & H3 & H4)]; [congruence|]. by eapply (Hgone H3 H4).
      + pose proof (bears_new i n d Hi E0 Ea j c (not_eq_sym Hij) Hj) as B. intros [H1 H2].
        inversion Hch as [? E1 E2|a ? E1 E2|a ? E1 E2 E3|o m q Eq E1 E2|m Em E1 E2|m d' q Eq Eq' Eq'' E1 E2]; subst; rewrite E1.
        * by rewrite E2.
        * rewrite E2; [done|]. intros <-. by apply B.
        * split; [done|]. destruct (decide (a = n)) as [->|]; [by apply E3|]. by rewrite E2.
        * split; [|by rewrite E2, lookup_fmap, H2]. apply lookup_delete_None. right. rewrite lookup_insert_ne; [done|]. intros <-. by apply B.
        * split; [|by rewrite E2, lookup_omap, H2]. apply lookup_delete_None. by right.
        * split; [|by rewrite E2]. rewrite lookup_insert_ne; [done|]. intros <-. by apply B.
  Qed.

  (** The first section of a Put. *)
  Lemma at_first i n d w :
    cs !! i = Some (CPut n d) -> wfC w -> todo_ok w n -> at_ok i w n (targets w n).
  Proof.
    intros Hi Hw. unfold todo_ok, targets, at_ok. destruct (c_idx w0 !! n) as [p|] eqn:E0.
    - intros [H1 H2]. destruct (c_idx w !! n) as [q|] eqn:E.
      + right. exists [n]. split; [by apply rel_one|]. left. eauto.
      + destruct H2 as [[? ?]|[Hd _]]; [done|]. rewrite H1 by done. split; [|done].
        apply elem_of_list_lookup in Hd as [k Hk]. destruct (bears_idx i k n d _ Hi Hk ltac:(congruence) ltac:(eauto)) as [_ B]. by apply B.
    - destruct (c_ali w0 !! n) as [l|] eqn:Ea.
      + intros [-> H2]. destruct H2 as [(l' & -> & Hl & _)|(-> & (m & [k Hk]%elem_of_list_lookup) & Hx)].
        * destruct (decide (None ∈ ((fun x => c_idx w !! x) <$> l'))) as [Hd|Hd]; [by left|]. right.
          exists l'. split; [by apply rel_list|]. right. exists l. split_and!; done.
        * split; [|done]. pose proof (bears_ali i k n d _ l Hi Hk ltac:(congruence) E0 Ea) as B. by apply B.
      + intros [-> ->]. split; [|done]. by eapply bears_new.
  Qed.

  Lemma at_aims i w n ps : wfC w -> None ∉ ps -> at_ok i w n (Some ps) -> exists l, rel w ps l /\ aims (view_of w) n l.
  Proof.
    intros Hw Hno [?|(l' & Hr & [(_ & -> & Hn)|(l & _ & _ & _ & Hn & Ha)])]; [done|exists [n]|exists l']; (split; [done|]).
    - left. split; [|done]. by apply view_idx_is_Some.
    - right. split_and!; [by apply view_idx_None|done|]. intros x Hx. apply view_idx_is_Some; [done|]. by eapply rel_idx.
  Qed.

  Lemma section_change i c x w b w' :
    pending i w c x \/ helped w c x -> section ckn tk x w b w' -> change w w' c.
  Proof.
    intros Hp Hs. destruct Hp as [Hp|(n & d & ps & -> & -> & _)].
    2:{ cbn [section] in Hs. destruct Hs as (_ & _ & ->). by constructor. }
    destruct x as [c'|n d t|n|a j|]; try done.
    - destruct Hp as [-> _]. destruct c; cbn [section] in Hs; repeat case_decide;
        try (destruct Hs as (? & _ & _ & ->); by constructor); try (destruct Hs as (_ & ->); by constructor);
        try (destruct Hs as (-> & _); by constructor).
      + destruct Hs as (_ & ->). apply ch_alias; [done|]. intros a' Ha. cbn [c_ali]. by rewrite lookup_insert_ne.
      + destruct Hs as (_ & ->). apply ch_unalias; [done| |].
        * intros a' Ha. cbn [c_ali]. by rewrite lookup_delete_ne.
        * intros _. cbn [c_ali]. by rewrite lookup_delete.
      + destruct (c_idx w !! old) as [p|] eqn:E; destruct Hs as (_ & ->); [by eapply ch_rename|by constructor].
    - destruct Hp as [-> Hp]. destruct t as [ps|]; cbn [section] in Hs.
      + destruct Hs as (_ & _ & ->). by constructor.
      + destruct Hs as (p & Hp' & _ & ->). destruct Hp as (_ & ? & ?). by eapply ch_put.
    - destruct Hp as [-> ?]. cbn [section] in Hs. destruct Hs as (_ & ->). by apply ch_drop.
    - destruct Hp as (-> & _). cbn [section] in Hs. destruct (c_ali w !! a) as [l|] eqn:Ea; destruct Hs as (_ & ->); [|by constructor].
      apply ch_unalias; [done| |by rewrite Ea]. intros a' Ha. cbn [c_ali]. by rewrite lookup_insert_ne.
  Qed.

  (** A call that is not over when another takes effect: it goes on as before, or
      it is a Put into nothing but an index that goes now. *)
  Definition goes (w : cview) (c : call) (m : string) : Prop :=
    (c = CDrop m /\ is_Some (c_idx w !! m)) \/ (exists o, c = CRename o m /\ o <> m /\ is_Some (c_idx w !! o)).

  Lemma pending_change i j c c' x w w' :
    i <> j -> cs !! i = Some c' -> cs !! j = Some c -> wfC w -> grows w w' -> change w w' c -> pending i w c' x ->
    pending i w' c' x \/
    (exists m n d l, goes w c m /\ c' = CPut n d /\ aims (view_of w) n l /\ (forall y, y ∈ l -> y = m) /\ helped w' c' x).
  Proof.
    intros Hij Hi Hj Hw Hg Hch Hp. pose proof (Hst i j _ _ Hij Hi Hj) as Hb.
    destruct x as [c1|n d t|n|a k|]; try done; simpl in Hp.
    - left. destruct Hp as [-> Hp]. split; [done|]. destruct c'; try done. by eapply todo_change.
    - destruct Hp as [-> Hp]. destruct t as [ps|].
      + destruct Hp as [Hp|(l' & Hr & [(Hn0 & -> & Hn)|(l & Hn0 & Ha0 & Hl & Hn & Ha)])]; [left; split; [done|by left]|..].
        * destruct (bears_idx i j n d c Hi Hj Hij Hn0) as [B1 B2].
          assert (Hkeep : is_Some (c_idx w' !! n) -> rel w' ps [n] -> pending i w' (CPut n d) (PutAt n d (Some ps))).
          { intros ? ?. split; [done|]. right. exists [n]. split; [done|]. left. done. }
          assert (Hhelp : forall m, goes w c m -> n = m -> rel w' ps [] ->
            exists m n' d' l, goes w c m /\ CPut n d = CPut n' d' /\ aims (view_of w) n' l /\
              (forall y, y ∈ l -> y = m) /\ helped w' (CPut n d) (PutAt n d (Some ps))).
          { intros m Hgo -> ?. exists m, m, d, [m]. split_and!; [done..| | |].
            - left. split; [by apply view_idx_is_Some|done].
            - intros y ->%elem_of_list_singleton. done.
            - exists m, d, ps. done. }
          inversion Hch as [? E1 E2|a ? E1 E2|a ? E1 E2 E3|o m q Eq E1 E2|m Em E1 E2|m d' q Eq Eq' Eq'' E1 E2]; subst.
          -- left. apply Hkeep; [by rewrite E1|by eapply rel_same].
          -- left. apply Hkeep; [by rewrite E1|by eapply rel_same].
          -- left. apply Hkeep; [by rewrite E1|by eapply rel_same].
          -- assert (Hr' : rel w' ps (without m [n])) by (eapply rel_rename; [exact Hg|exact Eq|exact E1|intros ->%elem_of_list_singleton; by apply B1|exact Hr]).
             unfold without in Hr'. rewrite filter_cons in Hr'. case_decide as Hd; rewrite filter_nil in Hr'.
             ++ left. apply Hkeep; [|done]. rewrite E1, lookup_delete_ne, lookup_insert_ne by done. done.
             ++ right. assert (n = m) as -> by (destruct (decide (n = m)); [done|by destruct Hd]). eapply Hhelp; [by right; eauto 6|done..].
          -- assert (Hr' : rel w' ps (without m [n])) by (by eapply rel_drop).
             unfold without in Hr'. rewrite filter_cons in Hr'. case_decide as Hd; rewrite filter_nil in Hr'.
             ++ left. apply Hkeep; [|done]. by rewrite E1, lookup_delete_ne.
             ++ right. assert (n = m) as -> by (destruct (decide (n = m)); [done|by destruct Hd]). eapply Hhelp; [by left|done..].
          -- left. apply Hkeep; [|by eapply rel_new]. rewrite E1. apply lookup_insert_is_Some'. by right.
        * pose proof (bears_ali i j n d c l Hi Hj Hij Hn0 Ha0) as B.
          assert (Hkeep : forall l1, c_idx w' !! n = None -> c_ali w' !! n = Some l1 -> l1 ⊆ l -> rel w' ps l1 ->
            pending i w' (CPut n d) (PutAt n d (Some ps))).
          { intros l1 ? ? ? ?. split; [done|]. right. exists l1. split; [done|]. right. exists l. done. }
          inversion Hch as [? E1 E2|a ? E1 E2|a ? E1 E2 E3|o m q Eq E1 E2|m Em E1 E2|m d' q Eq Eq' Eq'' E1 E2]; subst.
          -- left. apply (Hkeep l'); [by rewrite E1|by rewrite E2|done|by eapply rel_same].
          -- left. apply (Hkeep l'); [by rewrite E1|by rewrite E2|done|by eapply rel_same].
          -- left. apply (Hkeep l'); [by rewrite E1|by rewrite E2|done|by eapply rel_same].
          -- destruct B as (B1 & B2 & B3). left. apply (Hkeep l'); [| |done|].
             ++ rewrite E1. apply lookup_delete_None. right. by rewrite lookup_insert_ne.
             ++ rewrite E2, lookup_fmap, Ha. simpl. f_equal. rewrite <- (list_fmap_id l') at 2. apply list_fmap_ext.
                intros k x Hk. unfold renamed. rewrite decide_False; [done|]. intros ->. apply B2, Hl. by eapply elem_of_list_lookup_2.
             ++ assert (without m l' = l') as <-.
                { unfold without. clear -B3 Hl. induction l' as [|x l' IH]; [done|]. rewrite filter_cons, decide_True by set_solver.
                  f_equal. apply IH. set_solver. }
                eapply rel_rename; [exact Hg|exact Eq|exact E1|set_solver|exact Hr].
          -- assert (Hr' : rel w' ps (without m l')) by (by eapply rel_drop).
             destruct (without m l') as [|y l''] eqn:El.
             ++ right. exists m, n, d, l'. split_and!; [by left|done|..].
                ** right. split_and!; [by apply view_idx_None|done|]. intros x Hx. apply view_idx_is_Some; [done|]. by eapply rel_idx.
                ** intros x Hx. apply dec_stable. intros Hne. apply (not_elem_of_nil x). rewrite <- El. by apply elem_of_without.
                ** by exists n, d, ps.
             ++ left. apply (Hkeep (y :: l'')); [| | |done].
                ** rewrite E1. apply lookup_delete_None. by right.
                ** rewrite E2, lookup_omap, Ha. simpl. unfold drop_from. by rewrite El.
                ** rewrite <- El. intros x [_ ?]%elem_of_without. auto.
          -- left. apply (Hkeep l'); [|by rewrite E2|done|by eapply rel_new].
             rewrite E1, lookup_insert_ne; [done|]. intros ->. congruence.
      + destruct Hp as (Hso & Hn & Ha). left. split; [done|]. split; [done|].
        pose proof (Hso j c (not_eq_sym Hij) Hj) as B.
        inversion Hch as [? E1 E2|a ? E1 E2|a ? E1 E2 E3|o m q Eq E1 E2|m Em E1 E2|m d' q Eq Eq' Eq'' E1 E2]; subst; rewrite E1.
        * by rewrite E2.
        * rewrite E2; [done|]. intros <-. by apply B.
        * split; [done|]. destruct (decide (a = n)) as [->|]; [by apply E3|]. by rewrite E2.
        * split; [|by rewrite E2, lookup_fmap, Ha]. apply lookup_delete_None. right. rewrite lookup_insert_ne; [done|]. intros <-. by apply B.
        * split; [|by rewrite E2, lookup_omap, Ha]. apply lookup_delete_None. by right.
        * split; [|by rewrite E2]. rewrite lookup_insert_ne; [done|]. intros <-. by apply B.
    - left. destruct Hp as [-> Hp]. split; [done|]. simpl in Hb.
      inversion Hch as [? E1 E2|? ? E1 E2|? ? E1 E2 E3|o m q E0 E1 E2|m Em E1 E2|m d' q E0 E0' E0'' E1 E2]; subst; rewrite E1; try done.
      + rewrite lookup_delete_ne by done. apply lookup_insert_is_Some'. by right.
      + by rewrite lookup_delete_ne.
      + apply lookup_insert_is_Some'. by right.
    - left. destruct Hp as (-> & Hk & Hp). split_and!; [done..|]. simpl in Hb.
      inversion Hch as [? E1 E2|? ? E1 E2|? ? E1 E2 E3|o m q E0 E1 E2|m Em E1 E2|m d' q E0 E0' E0'' E1 E2]; subst; rewrite E1; try done.
      + by rewrite lookup_delete_ne.
      + apply lookup_insert_is_Some'. by right.
  Qed.

  Lemma lin_section i c x w b w' :
    wfC w -> cs !! i = Some c -> pending i w c x -> section ckn tk x w b w' ->
    (committed (Inside b) = true /\
     forall x', leave b x' -> exists a, x' = Answered a /\ explained ckn tk c a (view_of w) (view_of w')) \/
    (committed (Inside b) = false /\ w' = w /\ forall x', leave b x' -> pending i w c x').
  Proof.
    intros Hf Hi Hp Hs. destruct x as [c'|n d t|n|a k|]; try done.
    - destruct Hp as [-> Hp].
      assert (Hex := fun x => explain_first ckn tk c w b w' x Hf Hs).
      destruct (committed (Inside b)) eqn:Eb.
      + left. split; [done|].
        intros x' Hx'. specialize (Hex _ Hx'). destruct x' as [| | | |a]; try done; [..|by eauto].
        all: exfalso; destruct b as [x0|]; [simpl in Hx'; subst x0; done|by destruct Hx' as (? & ? & _ & _ & ?)].
      + right. split; [done|]. destruct b as [x0|]; [|done].
        specialize (Hex x0 eq_refl). destruct x0 as [|n d t|n|a k|]; try done.
        * destruct Hex as (-> & -> & ->). split; [done|]. intros x' ->. split; [done|]. by eapply at_first.
        * destruct Hex as (-> & ? & ->). split; [done|]. by intros x' ->.
        * destruct Hex as (-> & ? & ? & ->). split; [done|]. by intros x' ->.
    - destruct Hp as [-> Hp]. left. destruct t as [ps|].
      + cbn [section] in Hs. destruct Hs as (Hno & -> & ->). split; [done|]. intros x' ->. eexists. split; [done|].
        destruct (at_aims i w n ps Hf Hno Hp) as (l & Hr & Ha). rewrite (rel_put _ _ _ _ Hr). by apply explain_aims.
      + destruct Hp as (_ & Hn & Ha).
        assert (Et : targets w n = None) by (unfold targets; by rewrite Hn, Ha). rewrite <- Et in Hs.
        assert (Hex := fun x => explain_put ckn tk n d w b w' x Hf Hs). split.
        * rewrite Et in Hs. cbn [section] in Hs. by destruct Hs as (? & _ & -> & _).
        * intros x' Hx'. destruct (Hex _ Hx') as [-> ?]. eauto.
    - destruct Hp as (-> & Hs1). left.
      assert (Hex := fun x => explain_drop ckn tk n w b w' x Hf Hs1 Hs). split.
      + cbn [section] in Hs. by destruct Hs as (-> & _).
      + intros x' Hx'. destruct (Hex _ Hx') as [-> ?]. eauto.
    - destruct Hp as (-> & Hk & Hs1). left.
      assert (Hex := fun x => explain_unalias ckn tk a k w b w' x Hf Hk Hs1 Hs). split.
      + cbn [section] in Hs. by destruct (c_ali w !! a); destruct Hs as (-> & _).
      + intros x' Hx'. destruct (Hex _ Hx') as (o & -> & ?). eauto.
  Qed.

  (** The call under which the index [m] goes may as well start from a view that
      differs in the documents of [m]. *)
  Lemma goes_section i c x w b w' m v :
    wfC w -> pending i w c x -> section ckn tk x w b w' -> committed (Inside b) = true -> goes w c m ->
    near m (view_of w) v ->
    forall x', leave b x' -> exists a, x' = Answered a /\ explained ckn tk c a v (view_of w').
  Proof.
    intros Hf Hp Hs Hb Hgo Hv x' Hx'. destruct Hgo as [[-> Hm]|(o & -> & Hom & [p Ho])]; destruct x as [c'|n d t|n|a k|]; try done.
    - destruct Hp as [-> _]. exfalso. cbn [section] in Hs. case_decide as Hd; [rewrite Hd in Hm; by destruct Hm|].
      destruct Hs as (-> & _). done.
    - by destruct Hp as [? _].
    - destruct Hp as [[= ->] Hn]. cbn [section] in Hs. destruct Hs as (-> & Hs). simpl in Hx'. subst x'. eexists. split; [done|].
      by eapply explain_drop_near.
    - by destruct Hp as [? _].
    - destruct Hp as [-> _]. cbn [section] in Hs. rewrite Ho in Hs. destruct Hs as (-> & Hs). simpl in Hx'. subst x'.
      eexists. split; [done|]. by eapply explain_rename_near.
    - by destruct Hp as [? _].
    - by destruct Hp as [? _].
    - by destruct Hp as [? _].
  Qed.

  Lemma helped_section c x w b w' :
    helped w c x -> section ckn tk x w b w' ->
    committed (Inside b) = true /\ view_of w' = view_of w /\ change w w' c /\
    forall x', leave b x' -> x' = Answered (Returned OUnit).
  Proof.
    intros Hh Hs. pose proof (section_change 0 c x w b w' (or_intror Hh) Hs) as Hch.
    destruct Hh as (n & d & ps & -> & -> & Hr). cbn [section] in Hs. destruct Hs as (_ & -> & ->).
    split_and!; [done|by apply rel_put_nil|done|]. by intros x' ->.
  Qed.

  Definition thr_ok (w : cview) (log : list (nat * view * view)) (i : nat) (c : call) (t : cthr) : Prop :=
    if committed t then
      exists vb va, (i, vb, va) ∈ log /\ forall x, ends t x -> exists a, x = Answered a /\ explained ckn tk c a vb va
    else
      (i ∉ log.*1.*1 /\ forall x, ends t x -> pending i w c x) \/
      (exists vb va, (i, vb, va) ∈ log /\ explained ckn tk c (Returned OUnit) vb va /\ forall x, ends t x -> helped w c x).

  Record linI (l : list cthr) (w : cview) (log : list (nat * view * view)) : Prop := {
    li_len : length l = length cs;
    li_wf : wfC w;
    li_nodup : NoDup log.*1.*1;
    li_dom : forall i, i ∈ log.*1.*1 -> i < length cs;
    li_chain : chain (view_of w0) log (view_of w);
    li_take : forall i vb va, (i, vb, va) ∈ log -> exists c, cs !! i = Some c /\ may_take ckn tk c vb va;
    li_thr : forall i t c, l !! i = Some t -> cs !! i = Some c -> thr_ok w log i c t }.

  (** A call that is not over is at, or on its way to, one stage. *)
  Lemma open_end t : committed t = false -> exists x, ends t x /\ forall y, ends t y -> y = x.
  Proof. destruct t as [x|[x|]]; [| |done]; intros _; exists x; done. Qed.

  Lemma thr_ok_ext w log ext i c t : i ∉ ext.*1.*1 -> thr_ok w log i c t -> thr_ok w (log ++ ext) i c t.
  Proof.
    intros Hi. unfold thr_ok. destruct (committed t).
    - intros (vb & va & Hin & Hx). exists vb, va. split; [set_solver|done].
    - intros [[Hno Hx]|(vb & va & Hin & Hx)].
      + left. split; [|done]. rewrite !fmap_app. set_solver.
      + right. exists vb, va. split; [set_solver|done].
  Qed.

  (** The other calls when one takes effect: some of the Puts do so just before it. *)
  Lemma help_all l w w' log i c k :
    linI l w log -> cs !! i = Some c -> grows w w' -> change w w' c ->
    exists ext v,
      chain (view_of w) ext v /\
      ((ext = [] /\ v = view_of w) \/ exists m, goes w c m /\ near m (view_of w) v) /\
      NoDup ext.*1.*1 /\
      (forall j, j ∈ ext.*1.*1 -> j < k /\ j <> i /\ j ∉ log.*1.*1) /\
      (forall j vb va, (j, vb, va) ∈ ext -> exists c', cs !! j = Some c' /\ explained ckn tk c' (Returned OUnit) vb va) /\
      (forall j t c', j < k -> j <> i -> l !! j = Some t -> cs !! j = Some c' -> thr_ok w' (log ++ ext) j c' t).
  Proof.
    intros HI Hi Hg Hch. induction k as [|k IH].
    { exists [], (view_of w). split_and!; [constructor|by left|constructor| |..]; try (intros; lia).
      - intros j Hj. by apply elem_of_nil in Hj.
      - intros j vb va Hj. by apply elem_of_nil in Hj. }
    destruct IH as (ext & v & I1 & I2 & I3 & I4 & I5 & I6).
    assert (Hk : k ∉ ext.*1.*1). { intros Hk. destruct (I4 _ Hk). lia. }
    assert (Hsame : (forall t c', k <> i -> l !! k = Some t -> cs !! k = Some c' -> thr_ok w' (log ++ ext) k c' t) ->
      exists ext v, chain (view_of w) ext v /\
      ((ext = [] /\ v = view_of w) \/ exists m, goes w c m /\ near m (view_of w) v) /\
      NoDup ext.*1.*1 /\
      (forall j, j ∈ ext.*1.*1 -> j < S k /\ j <> i /\ j ∉ log.*1.*1) /\
      (forall j vb va, (j, vb, va) ∈ ext -> exists c', cs !! j = Some c' /\ explained ckn tk c' (Returned OUnit) vb va) /\
      (forall j t c', j < S k -> j <> i -> l !! j = Some t -> cs !! j = Some c' -> thr_ok w' (log ++ ext) j c' t)).
    { intros Hthr. exists ext, v. split_and!; try done.
      - intros j Hj. destruct (I4 _ Hj) as (? & ? & ?). split_and!; [lia|done..].
      - intros j t c' Hj Hne Hl Hc'. destruct (decide (j = k)) as [->|]; [by apply Hthr|]. apply I6; [lia|done..]. }
    destruct (decide (k = i)) as [->|Hki]; [by apply Hsame|].
    destruct (l !! k) as [t|] eqn:El; [|by apply Hsame].
    destruct (cs !! k) as [c'|] eqn:Ec; [|by apply Hsame].
    pose proof (li_thr _ _ _ HI _ _ _ El Ec) as Ht. unfold thr_ok in Ht.
    destruct (committed t) eqn:Et.
    { apply Hsame. intros ? ? _ [= <-] [= <-]. apply thr_ok_ext; [done|]. unfold thr_ok. by rewrite Et. }
    destruct Ht as [[Hno Hp]|(vb & va & Hin & He & Hh)].
    2:{ apply Hsame. intros ? ? _ [= <-] [= <-]. apply thr_ok_ext; [done|]. unfold thr_ok. rewrite Et. right.
        exists vb, va. split_and!; [done..|]. intros x Hx. destruct (Hh _ Hx) as (n & d & ps & -> & -> & Hr).
        exists n, d, ps. split_and!; [done..|]. by eapply rel_nil. }
    destruct (open_end t Et) as (x & Hx & Huniq). specialize (Hp _ Hx).
    destruct (pending_change k i c c' x w w' Hki Ec Hi (li_wf _ _ _ HI) Hg Hch Hp)
      as [Hp'|(m & n & d & l' & Hgo & -> & Ha & Hl' & Hh)].
    { apply Hsame. intros ? ? _ [= <-] [= <-]. apply thr_ok_ext; [done|]. unfold thr_ok. rewrite Et. left.
      split; [done|]. intros y ->%Huniq. done. }
    assert (Hv : near m (view_of w) v).
    { destruct I2 as [[_ ->]|(m' & Hgo' & Hv)]; [apply near_refl|].
      assert (m' = m) as <-; [|done].
      destruct Hgo as [[-> _]|(o & -> & _)], Hgo' as [[E _]|(o' & E & _)]; congruence. }
    exists (ext ++ [(k, v, put_view d l' v)]), (put_view d l' v). split_and!.
    - eapply chain_app; [done|]. constructor. constructor.
    - right. exists m. split; [done|]. by apply near_put.
    - rewrite !fmap_app. simpl. apply NoDup_app. split_and!; [done| |apply NoDup_singleton]. set_solver.
    - intros j. rewrite !fmap_app. simpl. rewrite elem_of_app, elem_of_list_singleton. intros [Hj| ->].
      + destruct (I4 _ Hj) as (? & ? & ?). split_and!; [lia|done..].
      + split_and!; [lia|done..].
    - intros j vb va [Hj|Hj]%elem_of_app; [by eauto|]. apply elem_of_list_singleton in Hj. simplify_eq.
      exists (CPut n d). split; [done|]. apply explain_aims; [by eapply near_forget|by eapply near_aims].
    - intros j t' c' Hj Hne Hl Hc'. rewrite app_assoc. destruct (decide (j = k)) as [->|Hjk].
      + simplify_eq. unfold thr_ok. rewrite Et. right. exists v, (put_view d l' v). split_and!; [set_solver| |].
        * apply explain_aims; [by eapply near_forget|by eapply near_aims].
        * intros y ->%Huniq. done.
      + apply thr_ok_ext; [set_solver|]. apply I6; [lia|done..].
  Qed.

  Lemma linI_step l w l' w' log :
    linI l w log -> cstep ckn tk (APool l w) (APool l' w') -> exists ext, linI l' w' (log ++ ext).
  Proof.
    intros HI Hs. pose proof HI as [H1 H2 H3 H3' H4 H4' H5].
    inversion Hs as [? ? i x b ? Hi Heff|? ? i b x Hi Hfin| |]; simplify_eq.
    - destruct (lookup_lt_is_Some_2 cs i) as [c Hc]; [rewrite <- H1; by eapply lookup_lt_Some|].
      pose proof (H5 _ _ _ Hi Hc) as Ht. unfold thr_ok in Ht.
      pose proof (section_grows _ _ _ _ _ _ Heff) as Hg.
      destruct (committed (Between x)) eqn:Ex; [destruct x; try done; by simpl in Heff|].
      destruct Ht as [[Hni Hp]|(vb & va & Hin & He & Hh)].
      + specialize (Hp x eq_refl).
        pose proof (section_change i c x w b w' (or_introl Hp) Heff) as Hch.
        destruct (lin_section i c x w b w') as [(Eb & Hex)|(Eb & -> & Hpen)]; try done.
        * destruct (help_all l w w' log i c (length cs) HI Hc Hg Hch) as (ext & v & I1 & I2 & I3 & I4 & I5 & I6).
          assert (Hiext : i ∉ ext.*1.*1). { intros Hj. by destruct (I4 _ Hj) as (_ & ? & _). }
          assert (Hex' : forall x', leave b x' -> exists a, x' = Answered a /\ explained ckn tk c a v (view_of w')).
          { destruct I2 as [[_ ->]|(m & Hgo & Hv)]; [done|]. by eapply goes_section. }
          assert (Hmay : may_take ckn tk c v (view_of w')).
          { destruct (leave_or_crash ckn tk x w b w' H2 Heff) as [[x' Hx']|(c' & -> & Hcr & ->)].
            - destruct (Hex' _ Hx') as (a & -> & He). left. eauto.
            - destruct Hp as [-> _]. right. destruct I2 as [[_ ->]|(m & [[-> Hm]|(o & -> & Hom & [p Ho])] & Hv)]; [done|..]; exfalso; cbn [spec] in Hcr.
              + repeat case_decide; done.
              + rewrite decide_False in Hcr by (intros E; by apply E). by destruct (v_idx (view_of w) !! o). }
          exists (ext ++ [(i, v, view_of w')]). split.
          -- by rewrite insert_length.
          -- by eapply section_wf.
          -- rewrite !fmap_app. simpl. apply NoDup_app. split_and!; [done| |].
             ++ intros j Hj [Hj'| ->%elem_of_list_singleton]%elem_of_app; [|done]. by destruct (I4 _ Hj') as (_ & _ & ?).
             ++ apply NoDup_app. split_and!; [done| |apply NoDup_singleton]. set_solver.
          -- intros j. rewrite !fmap_app. simpl. rewrite !elem_of_app, elem_of_list_singleton.
             intros [Hj|[Hj| ->]]; [by apply H3'|by destruct (I4 _ Hj)|by eapply lookup_lt_Some].
          -- eapply chain_app; [done|]. eapply chain_app; [done|]. constructor. constructor.
          -- intros j vb va [Hj|[Hj|Hj]%elem_of_app]%elem_of_app; [by eauto|..].
             ++ destruct (I5 _ _ _ Hj) as (c' & ? & ?). exists c'. split; [done|]. left. eauto.
             ++ apply elem_of_list_singleton in Hj. simplify_eq. eauto.
          -- intros j t c' Hj Hc'. apply list_lookup_insert_Some in Hj as [(-> & <- & _)|[Hne Hj]].
             ++ rewrite Hc in Hc'. simplify_eq. unfold thr_ok. rewrite Eb. exists v, (view_of w'). split; [set_solver|done].
             ++ rewrite app_assoc. apply thr_ok_ext; [set_solver|]. apply I6; [by eapply lookup_lt_Some|done..].
        * exists []. rewrite app_nil_r. split; try done.
          -- by rewrite insert_length.
          -- intros j t c' Hj Hc'. apply list_lookup_insert_Some in Hj as [(-> & <- & _)|[Hne Hj]]; [|by eauto].
             rewrite Hc in Hc'. simplify_eq. unfold thr_ok. rewrite Eb. by left.
      + destruct (helped_section c x w b w' (Hh _ eq_refl) Heff) as (Eb & Ev & Hch & Hx).
        destruct (help_all l w w' log i c (length cs) HI Hc Hg Hch) as (ext & v & I1 & I2 & I3 & I4 & I5 & I6).
        assert (ext = []) as ->.
        { destruct I2 as [[? _]|(m & Hgo & _)]; [done|exfalso]. destruct (Hh _ eq_refl) as (n & d & ps & -> & _).
          destruct Hgo as [[? _]|(? & ? & _)]; done. }
        exists []. rewrite app_nil_r in *. split; try done.
        * by rewrite insert_length.
        * by eapply section_wf.
        * by rewrite Ev.
        * intros j t c' Hj Hc'. apply list_lookup_insert_Some in Hj as [(-> & <- & _)|[Hne Hj]].
          -- rewrite Hc in Hc'. simplify_eq. unfold thr_ok. rewrite Eb. exists vb, va. split; [done|].
             intros x' ->%Hx. eauto.
          -- apply I6; [by eapply lookup_lt_Some|done..].
    - destruct (lookup_lt_is_Some_2 cs i) as [c Hc]; [rewrite <- H1; by eapply lookup_lt_Some|].
      pose proof (H5 _ _ _ Hi Hc) as Ht. unfold thr_ok in Ht.
      exists []. rewrite app_nil_r. split; try done; [by rewrite insert_length|].
      intros j t c' Hj Hc'. apply list_lookup_insert_Some in Hj as [(-> & <- & _)|[Hne Hj]]; [|by eauto].
      rewrite Hc in Hc'. simplify_eq. unfold thr_ok. destruct (committed (Inside b)) eqn:Eb.
      + destruct Ht as (vb & va & Hin & Hx). destruct (Hx x Hfin) as (a & -> & He). simpl. exists vb, va. split; [done|].
        intros ? ->. eauto.
      + destruct Ht as [(Hno & Hx)|(vb & va & Hin & He & Hx)]; specialize (Hx x Hfin).
        * destruct (committed (Between x)) eqn:Ex; [by destruct x|]. left. split; [done|]. by intros ? ->.
        * destruct (committed (Between x)) eqn:Ex; [by destruct x as [| | | |]; try done; destruct Hx as (? & ? & ? & _ & ? & _)|].
          right. exists vb, va. split_and!; [done..|]. by intros ? ->.
  Qed.

  Lemma linI_steps l w l' w' log :
    linI l w log -> rtc (cstep ckn tk) (APool l w) (APool l' w') -> exists ext, linI l' w' (log ++ ext).
  Proof.
    intros H Hr. remember (APool l w) as p eqn:Ep. remember (APool l' w') as p' eqn:Ep'.
    revert l w log H Ep. induction Hr as [p|p p1 p2 Hs Hr IH]; intros l w log H ->.
    - simplify_eq. exists []. by rewrite app_nil_r.
    - destruct p1 as [l1 w1|].
      + destruct (linI_step _ _ _ _ _ H Hs) as [ext H1]. destruct (IH Ep' _ _ _ H1 eq_refl) as [ext' H2].
        exists (ext ++ ext'). by rewrite app_assoc.
      + exfalso. inversion Hr; simplify_eq. rename select (astep _ _ _ _ ACrashed _) into Hb. inversion Hb.
  Qed.

  (** *** Calls that are about to kill the process *)

  Definition doomed (t : cthr) : Prop :=
    (exists n d ps, ends t (PutAt n d (Some ps)) /\ None ∈ ps) \/ (exists outs, t = Inside (Gather outs) /\ Panic ∈ outs).

  (** Such a call would have killed the process where it looked its target up. *)
  Definition doomI (begun : gmap nat nat) (l : list cthr) (log : list (nat * view * view)) : Prop :=
    (forall i from, begun !! i = Some from -> from <= length log) /\
    forall i t c, l !! i = Some t -> cs !! i = Some c -> doomed t ->
      exists log1 v1, log1 `prefix_of` log /\ i ∉ log1.*1.*1 /\ chain (view_of w0) log1 v1 /\
        spec ckn tk c v1 OCrash /\ forall from, begun !! i = Some from -> from <= length log1.

  Lemma dies_doomed w t : dies w t -> doomed t.
  Proof.
    destruct t as [[| n d [ps|] | | | ]|[|outs]]; try done; intros H.
    - left. by exists n, d, ps.
    - right. by exists outs.
  Qed.

  Lemma doomed_section c w b w' :
    wfC w -> section ckn tk (Todo c) w b w' -> doomed (Inside b) -> spec ckn tk c (view_of w) OCrash.
  Proof.
    intros Hw Hs [(n & d & ps & He & Hn)|(outs & [= ->] & Hp)].
    - destruct b as [x|]; [|by destruct He as (? & ? & _ & _ & ?)]. simpl in He. subst x.
      assert (Hc : c = CPut n d /\ Some ps = targets w n).
      { destruct c; cbn [section] in Hs; repeat case_decide; try (by destruct Hs as (? & _ & ? & _)); try (by destruct Hs).
        - destruct Hs as [E _]. by simplify_eq.
        - destruct Hs as [_ Hs]. destruct (targets w index) as [[|? [|? ?]]|]; try done. by destruct (search_obj _ _ _ _ _ _).
        - by destruct (c_idx w !! old); destruct Hs. }
      destruct Hc as [-> Ht]. unfold targets in Ht. cbn [spec].
      destruct (c_idx w !! n) as [p|] eqn:Ei; [simplify_eq; set_solver|].
      pose proof (proj2 (view_idx_None w n Hw) Ei) as ->. change (v_leakA (view_of w)) with false. cbn iota.
      rewrite decide_False by (intros E; by apply E). change (v_ali (view_of w)) with (c_ali w).
      destruct (c_ali w !! n) as [l|]; [|done]. injection Ht as ->. rewrite decide_True; [done|].
      apply elem_of_list_fmap in Hn as (x & Hx & Hin). apply Exists_exists. exists x. split; [done|].
      by apply view_idx_None.
    - destruct (leave_or_crash ckn tk (Todo c) w _ w' Hw Hs) as [(x & bl & bl' & E & _)|(c' & [= <-] & H & _)]; [|done].
      exfalso. rewrite E in Hp. by apply elem_of_list_fmap in Hp as (? & ? & _).
  Qed.

  Lemma doomI_step begun l w l' w' log ext :
    linI l w log -> doomI begun l log -> cstep ckn tk (APool l w) (APool l' w') -> doomI begun l' (log ++ ext).
  Proof.
    intros HI [D1 D2] Hs. split; [intros i from Hi; rewrite app_length; apply D1 in Hi; lia|].
    assert (Hold : forall i t c, l !! i = Some t -> cs !! i = Some c -> doomed t ->
      exists log1 v1, log1 `prefix_of` (log ++ ext) /\ i ∉ log1.*1.*1 /\ chain (view_of w0) log1 v1 /\
        spec ckn tk c v1 OCrash /\ forall from, begun !! i = Some from -> from <= length log1).
    { intros i t c Hi Hc Hd. destruct (D2 _ _ _ Hi Hc Hd) as (log1 & v1 & ? & ?). exists log1, v1. split; [|done].
      by apply prefix_app_r. }
    inversion Hs as [? ? i x b ? Hi Heff|? ? i b x Hi Hfin| |]; simplify_eq;
      intros j t c Hj Hc Hd; apply list_lookup_insert_Some in Hj as [(-> & <- & _)|[Hne Hj]]; try (by eapply Hold).
    - pose proof (li_thr _ _ _ HI _ _ _ Hi Hc) as Ht. unfold thr_ok in Ht.
      destruct x as [c'|n d t|n|a k|]; [|exfalso|exfalso|exfalso|done].
      + destruct Ht as [[Hni Hp]|(? & ? & _ & _ & Hh)]; [|by destruct (Hh _ eq_refl) as (? & ? & ? & _ & ? & _)].
        destruct (Hp _ eq_refl) as [-> _]. exists log, (view_of w).
        split_and!; [by apply prefix_app_r|done|apply HI| |by apply D1].
        eapply doomed_section; [apply HI|done..].
      + destruct Hd as [(? & ? & ? & He & _)|(? & E & _)]; destruct t; cbn [section] in Heff.
        all: try (destruct Heff as (_ & -> & _)); try (destruct Heff as (? & _ & -> & _)); done.
      + destruct Heff as [-> _]. by destruct Hd as [(? & ? & ? & ? & _)|(? & ? & _)].
      + cbn [section] in Heff. destruct (c_ali w !! a); destruct Heff as [-> _]; by destruct Hd as [(? & ? & ? & ? & _)|(? & ? & _)].
    - destruct Hd as [(n & d & ps & He & Hn)|(? & ? & _)]; [|done]. simpl in He. subst x.
      eapply Hold; [done..|]. left. exists n, d, ps. split; [|done]. destruct b; [done|by destruct Hfin as (? & ? & _ & _ & ?)].
  Qed.

  Lemma doomI_steps begun l w l' w' log :
    linI l w log -> doomI begun l log -> rtc (cstep ckn tk) (APool l w) (APool l' w') ->
    exists ext, linI l' w' (log ++ ext) /\ doomI begun l' (log ++ ext).
  Proof.
    intros H HD Hr. remember (APool l w) as p eqn:Ep. remember (APool l' w') as p' eqn:Ep'.
    revert l w log H HD Ep. induction Hr as [p|p p1 p2 Hs Hr IH]; intros l w log H HD ->.
    - simplify_eq. exists []. by rewrite app_nil_r.
    - destruct p1 as [l1 w1|].
      + destruct (linI_step _ _ _ _ _ H Hs) as [ext H1]. pose proof (doomI_step _ _ _ _ _ _ ext H HD Hs) as HD1.
        destruct (IH Ep' _ _ _ H1 HD1 eq_refl) as [ext' H2].
        exists (ext ++ ext'). by rewrite app_assoc.
      + exfalso. inversion Hr; simplify_eq. rename select (astep _ _ _ _ ACrashed _) into Hb. inversion Hb.
  Qed.

  Lemma doomI_start : doomI ∅ (cstart cs) [].
  Proof.
    split; [done|]. intros i t c Hi Hc Hd. unfold cstart in Hi. rewrite list_lookup_fmap, Hc in Hi. injection Hi as <-.
    by destruct Hd as [(? & ? & ? & ? & _)|(? & ? & _)].
  Qed.
  Lemma doomI_begun begun l log i : 
    doomI begun l log -> is_Some (begun !! i) \/ (forall t, l !! i = Some t -> exists c, t = Between (Todo c)) ->
    doomI (begun ∪ {[i := length log]}) l log.
  Proof.
    intros [D1 D2] Hi.
    assert (Hu : forall j from, (begun ∪ {[i := length log]}) !! j = Some from ->
      begun !! j = Some from \/ (j = i /\ begun !! i = None /\ from = length log)).
    { intros j from [?|[Hn Hj]]%lookup_union_Some_raw; [by left|right]. apply lookup_singleton_Some in Hj as [-> <-]. done. }
    split.
    - intros j from [Hj|(_ & _ & ->)]%Hu; [by eapply D1|done].
    - intros j t c Hj Hc Hd. destruct (D2 _ _ _ Hj Hc Hd) as (log1 & v1 & ? & ? & ? & ? & Hf). exists log1, v1.
      split_and!; [done..|]. intros from [?|(-> & Hn & ->)]%Hu; [by apply Hf|].
      destruct Hi as [[? ?]|Hi]; [congruence|]. destruct (Hi _ Hj) as [c' ->].
      by destruct Hd as [(? & ? & ? & ? & _)|(? & ? & _)].
  Qed.

  (** If a call that has taken effect may kill the process, the first such call does. *)
  Lemma first_fatal v log v1 i c (from : nat) full :
    chain v log v1 -> (forall k vb va, (k, vb, va) ∈ log -> exists c', cs !! k = Some c' /\ may_take ckn tk c' vb va) ->
    cs !! i = Some c -> spec ckn tk c v1 OCrash -> i ∉ log.*1.*1 -> from <= length log -> log `prefix_of` full ->
    deadly ckn tk v cs full from i.
  Proof.
    intros Hch Htk Hi Hcr Hni Hfrom Hpre.
    assert (Hd : (forall k vb va, (k, vb, va) ∈ log -> exists c' a, cs !! k = Some c' /\ explained ckn tk c' a vb va) \/
      exists log1 j v2 va log2 c', log = log1 ++ (j, v2, va) :: log2 /\ chain v log1 v2 /\ cs !! j = Some c' /\
        spec ckn tk c' v2 OCrash /\
        forall k vb va, (k, vb, va) ∈ log1 -> exists c' a, cs !! k = Some c' /\ explained ckn tk c' a vb va).
    { clear Hni Hfrom Hpre Hcr. induction Hch as [v|k v v2 log v3 Hch IH].
      - left. intros k vb va H. by apply elem_of_nil in H.
      - destruct (Htk k v v2) as (c' & Hk & [[a Ha]|[Hc ->]]); [by left| |].
        + destruct IH as [IH|(log1 & j & v4 & va & log2 & c'' & -> & G1 & G2 & G3 & G4)].
          * intros k' vb va H. apply Htk. by right.
          * left. intros k' vb va [[= -> -> ->]|H]%elem_of_cons; [eauto|by apply IH].
          * right. exists ((k, v, v2) :: log1), j, v4, va, log2, c''. split_and!; [done|by constructor|done..|].
            intros k' vb va' [[= -> -> ->]|H]%elem_of_cons; [eauto|by apply G4].
        + right. exists [], k, v, v, log, c'. split_and!; [done|constructor|done..|]. intros ? ? ? H. by apply elem_of_nil in H. }
    destruct Hd as [Hd|(log1 & j & v2 & va & log2 & c' & -> & G1 & G2 & G3 & G4)].
    - exists log, v1, i, c. split_and!; [done..|]. by right.
    - exists log1, v2, j, c'. destruct Hpre as [r ->]. split_and!; [done| |done..|].
      + rewrite <- app_assoc. by eexists.
      + left. rewrite !fmap_app. simpl. exists (log2.*1.*1 ++ r.*1.*1). by rewrite <- !app_assoc.
  Qed.

  Lemma doomI_deadly begun l w log i t from :
    linI l w log -> doomI begun l log -> l !! i = Some t -> dies w t -> begun !! i = Some from ->
    deadly ckn tk (view_of w0) cs log from i.
  Proof.
    intros HI [_ D2] Hi Hd Hb. destruct (lookup_lt_is_Some_2 cs i) as [c Hc]; [rewrite <- (li_len _ _ _ HI); by eapply lookup_lt_Some|].
    destruct (D2 _ _ _ Hi Hc (dies_doomed _ _ Hd)) as (log1 & v1 & [log2 ->] & Hn & Hch & Hs & Hf).
    eapply first_fatal; [exact Hch| |exact Hc|exact Hs|exact Hn|by apply Hf|by exists log2].
    intros k vb va Hin. apply (li_take _ _ _ HI). set_solver.
  Qed.

  Lemma linI_start : linI (cstart cs) w0 [].
  Proof.
    split.
    - unfold cstart. by rewrite fmap_length.
    - done.
    - constructor.
    - intros i Hi. by apply elem_of_nil in Hi.
    - constructor.
    - intros i vb va Hi. by apply elem_of_nil in Hi.
    - intros i t c Hi Hc. unfold cstart in Hi. rewrite list_lookup_fmap, Hc in Hi. simpl in Hi. simplify_eq.
      unfold thr_ok. simpl. left. split; [by apply not_elem_of_nil|]. intros ? ->. split; [done|].
      destruct c; try done. by eapply todo_start.
  Qed.

  (** The calls added to the order had begun. *)
  Lemma linI_ext l w l' w' log ext i j :
    linI l w log -> linI l' w' (log ++ ext) -> (forall k, k <> i -> l' !! k = l !! k) ->
    j ∈ ext.*1.*1 -> j <> i -> forall c, l !! j <> Some (Between (Todo c)).
  Proof.
    intros H H' Hoff Hj Hne c Hl. pose proof (li_nodup _ _ _ H') as Hn. rewrite !fmap_app in Hn.
    apply NoDup_app in Hn as (_ & Hd & _).
    assert (Hin : j ∈ (log ++ ext).*1.*1) by (rewrite !fmap_app; set_solver).
    destruct (lookup_lt_is_Some_2 cs j) as [c' Ec]; [by eapply li_dom|].
    pose proof (Hoff j Hne) as Hl'. rewrite Hl in Hl'.
    pose proof (li_thr _ _ _ H' _ _ _ Hl' Ec) as K. unfold thr_ok in K. simpl in K.
    destruct K as [[K _]|(vb & va & _ & _ & K)]; [done|]. by destruct (K _ eq_refl) as (? & ? & ? & _ & ? & _).
  Qed.
End lin.
