(** * Facts about the machine with atomic sections. *)
From Coq Require Import Lia.
From stdpp Require Import list gmap.
From Verif Require Import Entities Search SpecSearch Repo Sem SpecRepo ProofRepo SpecConc ProofConc.
Open Scope nat_scope.

(** Names stand for existing objects, different names for different ones. *)
Record wfC (w : cview) : Prop := {
  wf_obj : forall n p, c_idx w !! n = Some p -> is_Some (c_obj w !! p);
  wf_inj : forall n1 n2 p, c_idx w !! n1 = Some p -> c_idx w !! n2 = Some p -> n1 = n2 }.

Lemma put_objs_lookup d ps obj q :
  put_objs d ps obj !! q =
  (fun x : string * list DocRequest => (x.1, x.2 ++ replicate (length (filter (fun op => op = Some q) ps)) d)) <$> obj !! q.
Proof.
  unfold put_objs. induction ps as [|op ps IH]; cbn [foldr].
  - simpl. destruct (obj !! q) as [[? ?]|]; simpl; [by rewrite app_nil_r|done].
  - rewrite filter_cons. destruct op as [p|].
    + destruct (decide (p = q)) as [->|Hne].
      * rewrite (lookup_alter (M := gmap nat)), IH. rewrite decide_True by done. cbn [length]. destruct (obj !! q) as [[? ?]|]; [|done].
        cbn [fmap option_fmap option_map fst snd]. rewrite replicate_S_end, app_assoc. done.
      * rewrite (lookup_alter_ne (M := gmap nat)) by done. rewrite IH. rewrite decide_False by congruence. done.
    + rewrite decide_False by done. exact IH.
Qed.
Lemma put_objs_is_Some d ps obj q : is_Some (put_objs d ps obj !! q) <-> is_Some (obj !! q).
Proof. rewrite put_objs_lookup, fmap_is_Some. done. Qed.

Lemma section_wf ckn tk x w b w' : wfC w -> section ckn tk x w b w' -> wfC w'.
Proof.
  intros [H1 H2] Hs. destruct x as [c|n d [ps|]|n|a i|a]; cbn [section] in Hs.
  - destruct c; repeat case_decide;
      try (destruct Hs as (? & _ & _ & ->); by split); try (destruct Hs as (_ & ->); by split);
      try (destruct Hs as (-> & _); by split).
    + destruct (c_idx w !! old) as [p|] eqn:E; destruct Hs as [_ ->]; [|by split].
      split; cbn [c_idx c_obj].
      * intros n q. rewrite lookup_delete_Some, lookup_insert_Some. naive_solver.
      * intros n1 n2 q. rewrite !lookup_delete_Some, !lookup_insert_Some. naive_solver.
  - destruct Hs as (_ & _ & ->). split; cbn [c_idx c_obj]; [|done].
    intros m p Hm. apply put_objs_is_Some. eauto.
  - destruct Hs as (p & Hp & _ & ->). split; cbn [c_idx c_obj].
    + intros m q. rewrite lookup_insert_Some. intros [[<- <-]|[Hne Hq]]; [rewrite lookup_insert; eauto|].
      destruct (H1 _ _ Hq) as [x Hx]. rewrite lookup_insert_ne by congruence. eauto.
    + intros n1 n2 q. rewrite !lookup_insert_Some.
      intros [[<- <-]|[Hne Hq]] [[<- E]|[Hne' Hq']]; try done; try (by eauto).
      * destruct (H1 _ _ Hq') as [x Hx]. congruence.
      * destruct (H1 _ _ Hq) as [x Hx]. congruence.
  - destruct Hs as [_ ->]. split; cbn [c_idx c_obj]; intros *; rewrite ?lookup_delete_Some; naive_solver.
  - destruct (c_ali w !! a); destruct Hs as [_ ->]; by split.
  - done.
Qed.

(** ** The sequential view of a machine state *)
Lemma view_idx w n : v_idx (view_of w) !! n = c_idx w !! n ≫= (fun p => snd <$> c_obj w !! p).
Proof. unfold view_of. cbn [v_idx]. by rewrite lookup_omap. Qed.
Lemma view_idx_None w n : wfC w -> v_idx (view_of w) !! n = None <-> c_idx w !! n = None.
Proof.
  intros Hw. rewrite view_idx. destruct (c_idx w !! n) as [p|] eqn:E; [|done]. simpl.
  destruct (wf_obj _ Hw _ _ E) as [x ->]. done.
Qed.
Lemma view_idx_is_Some w n : wfC w -> is_Some (v_idx (view_of w) !! n) <-> is_Some (c_idx w !! n).
Proof.
  intros Hw. pose proof (view_idx_None w n Hw) as H. by rewrite <- !not_eq_None_Some, H.
Qed.
Lemma view_keys w : wfC w -> (map_to_list (v_idx (view_of w))).*1 ≡ₚ (map_to_list (c_idx w)).*1.
Proof.
  intros Hw. apply NoDup_Permutation; [apply NoDup_fst_map_to_list..|]. intros n. rewrite !elem_of_list_fmap.
  pose proof (view_idx_is_Some w n Hw) as H. split.
  - intros ([? l] & -> & Ha). apply elem_of_map_to_list in Ha. destruct H as [[p Hp] _]; [eauto|].
    exists (s, p). by rewrite elem_of_map_to_list.
  - intros ([? p] & -> & Ha). apply elem_of_map_to_list in Ha. destruct H as [_ [l Hl]]; [eauto|].
    exists (s, l). by rewrite elem_of_map_to_list.
Qed.
Lemma view_search ckn tk w q e n :
  search_name ckn tk (v_idx (view_of w)) q e n = search_obj ckn tk w q e (c_idx w !! n).
Proof.
  unfold search_name, search_obj. rewrite view_idx. destruct (c_idx w !! n) as [p|]; [|done]. simpl.
  by destruct (c_obj w !! p) as [[nm reqs]|].
Qed.

(** Adding a document to the objects behind some names. *)
Lemma put_each_lookup d l idx n :
  put_each d l idx !! n = (fun reqs => reqs ++ replicate (length (filter (fun x => x = n) l)) d) <$> idx !! n.
Proof.
  unfold put_each. induction l as [|m l IH]; cbn [foldr].
  - simpl. destruct (idx !! n); simpl; [by rewrite app_nil_r|done].
  - rewrite filter_cons. destruct (decide (m = n)) as [->|Hne].
    + rewrite lookup_alter, IH. cbn [length]. destruct (idx !! n); [|done].
      cbn [fmap option_fmap option_map]. by rewrite replicate_S_end, app_assoc.
    + rewrite lookup_alter_ne by done. exact IH.
Qed.
Lemma view_put w d l :
  wfC w -> view_of (MkC (c_idx w) (put_objs d ((fun x => c_idx w !! x) <$> l) (c_obj w)) (c_ali w)) =
  MkView (put_each d l (v_idx (view_of w))) (c_ali w) 0 false.
Proof.
  intros Hw. unfold view_of at 1. cbn [c_idx c_obj c_ali]. f_equal. apply map_eq. intros n.
  rewrite lookup_omap, put_each_lookup, view_idx. destruct (c_idx w !! n) as [p|] eqn:E; [|done]. simpl.
  rewrite put_objs_lookup. destruct (c_obj w !! p) as [[nm reqs]|]; [|done]. simpl. f_equal. f_equal. f_equal.
  clear reqs. induction l as [|m l IH]; [done|]. rewrite fmap_cons, !filter_cons.
  destruct (decide (m = n)) as [->|Hne].
  - rewrite E. rewrite decide_True by done. cbn [length]. by rewrite IH.
  - rewrite decide_False; [done|]. intros Em. apply Hne. by eapply (wf_inj _ Hw).
Qed.

(** ** Invariants *)
Lemma machine_inv ckn tk (I : list cthr -> cview -> Prop) l w l' w' :
  (forall l w l' w', I l w -> cstep ckn tk (APool l w) (APool l' w') -> I l' w') ->
  I l w -> rtc (cstep ckn tk) (APool l w) (APool l' w') -> I l' w'.
Proof.
  intros Hstep H Hr. remember (APool l w) as p eqn:Ep. remember (APool l' w') as p' eqn:Ep'.
  revert l w H Ep. induction Hr as [p|p p1 p2 Hs Hr IH]; intros l w H ->; [by simplify_eq|].
  destruct p1 as [l1 w1|]; [by eauto|].
  exfalso. inversion Hr; simplify_eq. rename select (astep _ _ _ _ ACrashed _) into Hb. inversion Hb.
Qed.

(** A crash happens in some state with the invariant. *)
Lemma machine_crash ckn tk (I : list cthr -> cview -> Prop) l w :
  (forall l w l' w', I l w -> cstep ckn tk (APool l w) (APool l' w') -> I l' w') ->
  I l w -> rtc (cstep ckn tk) (APool l w) ACrashed ->
  exists l' w', I l' w' /\ cstep ckn tk (APool l' w') ACrashed.
Proof.
  intros Hstep H Hr. remember (APool l w) as p eqn:Ep. remember (ACrashed : cpool) as p' eqn:Ep'.
  revert l w H Ep. induction Hr as [p|p p1 p2 Hs Hr IH]; intros l w H ->; [by simplify_eq|]. subst p2.
  destruct p1 as [l1 w1|]; [|by exists l, w]. apply (IH eq_refl l1 w1); [by eapply Hstep|done].
Qed.

(** The stages a thread is at or on its way to. *)
Definition ends (t : cthr) (x : stage) : Prop :=
  match t with Between x' => x = x' | Inside b => leave b x end.

(** ** No alias lists a missing index unless an index is renamed to itself *)
Section dangling.
  Context (ckn : bool) (tk : Tokenizer) (cs : list call).
  Context (Hcs : forall n, CRename n n ∉ cs).

  Definition listed (w : cview) : Prop :=
    forall a l x, c_ali w !! a = Some l -> x ∈ l -> is_Some (c_idx w !! x).

  (** What is known about a call at some stage. *)
  Definition sane (c : call) (x : stage) : Prop :=
    match x with
    | Todo c' => c' = c
    | PutAt _ _ (Some ps) => None ∉ ps
    | Answered Threw => exists n q e reqs, c = CSearch n q e /\ search_docs ckn tk reqs q e = Panic
    | _ => True
    end.
  Definition sane_thr (c : call) (t : cthr) : Prop :=
    (forall x, ends t x -> sane c x) /\
    (forall outs, t = Inside (Gather outs) -> Panic ∈ outs ->
       exists n q e reqs, c = CSearch n q e /\ search_docs ckn tk reqs q e = Panic).

  Definition dang_inv (l : list cthr) (w : cview) : Prop :=
    wfC w /\ listed w /\ length l = length cs /\ forall i t c, l !! i = Some t -> cs !! i = Some c -> sane_thr c t.

  Lemma without_in n l x : x ∈ without n l -> x ∈ l /\ x <> n.
  Proof. unfold without. rewrite elem_of_list_filter. tauto. Qed.

  Lemma listed_targets w n ps : listed w -> targets w n = Some ps -> None ∉ ps.
  Proof.
    intros Hl. unfold targets. destruct (c_idx w !! n) as [p|] eqn:E; [intros [= <-]; by rewrite elem_of_list_singleton|].
    destruct (c_ali w !! n) as [l|] eqn:Ea; [|done]. intros [= <-]. rewrite elem_of_list_fmap.
    intros (x & Hx & Hin). destruct (Hl _ _ _ Ea Hin) as [p Hp]. congruence.
  Qed.
  Lemma search_obj_panic w q e op :
    wfC w -> (exists n, op = c_idx w !! n /\ is_Some op) -> search_obj ckn tk w q e op = Panic ->
    exists reqs, search_docs ckn tk reqs q e = Panic.
  Proof.
    intros Hw (n & -> & [p Hp]). rewrite Hp. unfold search_obj. simpl. destruct (wf_obj _ Hw _ _ Hp) as [[nm reqs] ->]. eauto.
  Qed.
  Lemma targets_exist w n ps op : listed w -> targets w n = Some ps -> op ∈ ps -> exists m, op = c_idx w !! m /\ is_Some op.
  Proof.
    intros Hl. unfold targets. destruct (c_idx w !! n) as [p|] eqn:E.
    - intros [= <-] ->%elem_of_list_singleton. exists n. rewrite E. eauto.
    - destruct (c_ali w !! n) as [l|] eqn:Ea; [|done]. intros [= <-] Hop. apply elem_of_list_fmap in Hop as (x & -> & Hx).
      exists x. split; [done|]. by eapply Hl.
  Qed.

  Lemma dang_section c x w b w' :
    c ∈ cs -> wfC w -> listed w -> sane c x -> section ckn tk x w b w' -> listed w' /\ sane_thr c (Inside b).
  Proof.
    intros Hc Hw Hl Hx Hs. destruct x as [c'|n d [ps|]|n|a i|]; cbn [section] in Hs.
    - simpl in Hx. subst c'.
      destruct c; repeat case_decide;
        try (destruct Hs as (? & _ & -> & ->); split; [done|]; split; [by intros ? ->|done]);
        try (destruct Hs as (-> & ->); split; [done|]; split; [by intros ? ->|done]).
      + destruct Hs as (-> & ->). split; [|split; [by intros ? ->|done]]. intros a l x. cbn [c_ali c_idx].
        rewrite lookup_insert_Some. intros [[<- <-]|[Hne Ha]] Hin; [|by eauto].
        apply elem_of_app in Hin as [Hin| ->%elem_of_list_singleton].
        * destruct (c_ali w !! alias) as [l|] eqn:E; simpl in Hin; [by eauto|by apply elem_of_nil in Hin].
        * apply not_eq_None_Some. tauto.
      + destruct Hs as (-> & ->). split; [|split; [by intros ? ->|done]]. intros a l x. cbn [c_ali c_idx].
        rewrite lookup_delete_Some. intros [Hne Ha] Hin. by eauto.
      + destruct Hs as (-> & ->). split; [done|]. split; [|done]. intros ? ->. simpl.
        destruct (targets w index) as [ps|] eqn:Et; [|done]. by eapply listed_targets.
      + destruct Hs as (-> & Hs). split; [done|]. destruct (targets w index) as [ps|] eqn:Et.
        * assert (Hp : forall op, op ∈ ps -> search_obj ckn tk w terms engine op = Panic -> exists n q e reqs,
            CSearch index terms engine = CSearch n q e /\ search_docs ckn tk reqs q e = Panic).
          { intros op Hop Hpan. destruct (search_obj_panic w terms engine op Hw) as [reqs Hr]; [|done|eauto 7].
            by eapply targets_exist. }
          assert (Hg : forall outs, outs = (search_obj ckn tk w terms engine <$> ps) ->
            sane_thr (CSearch index terms engine) (Inside (Gather outs))).
          { intros outs ->. split; [by intros x (bl & bl' & _ & _ & ->)|].
            intros outs' [= <-] Hin. apply elem_of_list_fmap in Hin as (op & Hpan & Hop). by eapply Hp. }
          destruct ps as [|op [|op' ps]]; [subst b; by apply Hg| |subst b; by apply Hg].
          destruct (search_obj ckn tk w terms engine op) as [sr|] eqn:Es; subst b; (split; [|done]); intros ? ->; simpl; [done|].
          eapply Hp; [by left|done].
        * subst b. split; [by intros ? ->|done].
      + destruct (c_idx w !! old) as [p|] eqn:Eo; destruct Hs as (-> & ->); (split; [|split; [by intros ? ->|done]]); [|done].
        assert (Hne : old <> new) by (intros ->; by apply (Hcs new)).
        intros a l x. cbn [c_ali c_idx]. rewrite lookup_fmap. destruct (c_ali w !! a) as [l0|] eqn:Ea; [|done].
        intros [= <-] (y & -> & Hy)%elem_of_list_fmap. unfold renamed. case_decide as Hyo.
        * rewrite lookup_delete_ne, lookup_insert by done. eauto.
        * rewrite lookup_delete_ne by done. destruct (decide (y = new)) as [->|]; [rewrite lookup_insert; eauto|].
          rewrite lookup_insert_ne by done. by eauto.
    - destruct Hs as (_ & -> & ->). split; [done|]. split; [by intros ? ->|done].
    - destruct Hs as (p & _ & -> & ->). split; [|split; [by intros ? ->|done]]. intros a l x. cbn [c_ali c_idx]. intros Ha Hin.
      destruct (decide (x = n)) as [->|]; [rewrite lookup_insert; eauto|]. rewrite lookup_insert_ne by done. by eauto.
    - destruct Hs as (-> & ->). split; [|split; [by intros ? ->|done]]. intros a l x. cbn [c_ali c_idx].
      rewrite lookup_omap. destruct (c_ali w !! a) as [l0|] eqn:Ea; [|done]. simpl. unfold drop_from.
      intros Hd Hin. assert (Hx' : x ∈ without n l0) by (destruct (without n l0); [done|by injection Hd as <-]).
      apply without_in in Hx' as [Hx1 Hx2]. rewrite lookup_delete_ne by done. by eauto.
    - destruct (c_ali w !! a) as [l0|] eqn:Ea; destruct Hs as (-> & ->); (split; [|split; [by intros ? ->|done]]); [|done].
      intros a' l x. cbn [c_ali c_idx]. rewrite lookup_insert_Some. intros [[<- <-]|[Hne Ha]] Hin; [|by eauto].
      apply without_in in Hin as [Hin _]. by eauto.
    - done.
  Qed.

  Lemma dang_step l w l' w' : dang_inv l w -> cstep ckn tk (APool l w) (APool l' w') -> dang_inv l' w'.
  Proof.
    intros (H1 & H2 & H3 & H4) Hs. inversion Hs as [? ? i x b ? Hi Heff|? ? i b x Hi Hfin| |]; simplify_eq;
      (destruct (lookup_lt_is_Some_2 cs i) as [c Hc]; [rewrite <- H3; by eapply lookup_lt_Some|]);
      destruct (H4 _ _ _ Hi Hc) as [Hx Hg].
    - destruct (dang_section c x w b w') as [Hl' Hb]; try done; [by eapply elem_of_list_lookup_2|by apply Hx|].
      split_and!; [by eapply section_wf|done|by rewrite insert_length|].
      intros j t c' Hj Hc'. apply list_lookup_insert_Some in Hj as [(-> & <- & _)|[Hne Hj]]; [|by eauto].
      rewrite Hc in Hc'. by simplify_eq.
    - split_and!; [done..|by rewrite insert_length|].
      intros j t c' Hj Hc'. apply list_lookup_insert_Some in Hj as [(-> & <- & _)|[Hne Hj]]; [|by eauto].
      rewrite Hc in Hc'. simplify_eq. split; [|done]. intros ? ->. by apply Hx.
  Qed.

  Lemma dang_start w : wfC w -> listed w -> dang_inv (cstart cs) w.
  Proof.
    intros H1 H2. split_and!; [done..|unfold cstart; by rewrite fmap_length|].
    intros i t c Hi Hc. unfold cstart in Hi. rewrite list_lookup_fmap, Hc in Hi. simpl in Hi. simplify_eq.
    split; [by intros ? ->|done].
  Qed.

  Lemma dang_crash l w :
    dang_inv l w -> cstep ckn tk (APool l w) ACrashed ->
    exists n q e reqs, CSearch n q e ∈ cs /\ search_docs ckn tk reqs q e = Panic.
  Proof.
    intros (H1 & H2 & H3 & H4) Hs. inversion Hs as [| |? ? i x Hi Hd|? ? i b Hi Hd]; simplify_eq;
      (destruct (lookup_lt_is_Some_2 cs i) as [c Hc]; [rewrite <- H3; by eapply lookup_lt_Some|]);
      destruct (H4 _ _ _ Hi Hc) as [Hx Hg].
    - specialize (Hx _ eq_refl). destruct x as [|? ? [ps|]| | |]; try done.
    - destruct b as [|outs]; [done|]. destruct (Hg _ eq_refl Hd) as (n & q & e & reqs & -> & Hp).
      exists n, q, e, reqs. split; [|done]. by eapply elem_of_list_lookup_2.
  Qed.
End dangling.

(** ** Puts into an index that stays *)
Section puts.
  Context (ckn : bool) (tk : Tokenizer) (cs : list call) (n : string) (p : nat) (old : list DocRequest).
  Context (Hdrop : forall m, CDrop m ∉ cs) (Hren : forall m m', CRename m m' ∉ cs).

  (** The documents of the calls [js], all of them Puts into [m] with [P m]. *)
  Definition puts_of (P : string -> Prop) (js : list nat) (ds : list DocRequest) : Prop :=
    Forall2 (fun j d => exists m, P m /\ cs !! j = Some (CPut m d)) js ds.

  Definition put_done (t : cthr) : Prop := ends t (Answered (Returned OUnit)).

  (** What is known about a call at some stage. *)
  Definition put_sane (c : call) (x : stage) : Prop :=
    match x with
    | Todo c' => c' = c
    | PutAt m d t => c = CPut m d /\ (m = n -> t = Some [Some p])
    | DropAt _ => False
    | UnAliasAt a i => c = CUnAlias a i
    | Answered a => match c with CPut _ _ => a = Returned OUnit | _ => True end
    end.

  Record put_inv (l : list cthr) (w : cview) : Prop := {
    pu_wf : wfC w;
    pu_idx : c_idx w !! n = Some p;
    pu_len : length l = length cs;
    pu_thr : forall i t c x, l !! i = Some t -> cs !! i = Some c -> ends t x -> put_sane c x;
    pu_docs : exists nm news js ds extra,
      c_obj w !! p = Some (nm, old ++ news) /\ news ≡ₚ ds ++ extra /\
      NoDup js /\ puts_of (fun m => m = n) js ds /\
      (forall i t d, l !! i = Some t -> cs !! i = Some (CPut n d) -> i ∈ js <-> put_done t) /\
      (forall d, d ∈ extra -> exists m, m <> n /\ CPut m d ∈ cs) }.

  Lemma put_inv_start w nm :
    wfC w -> c_idx w !! n = Some p -> c_obj w !! p = Some (nm, old) -> put_inv (cstart cs) w.
  Proof.
    intros Hw Hi Ho. split; [done|done|unfold cstart; by rewrite fmap_length|..].
    - intros i t c x Ht Hc. unfold cstart in Ht. rewrite list_lookup_fmap, Hc in Ht. simpl in Ht. simplify_eq. by intros ->.
    - exists nm, [], [], [], []. split_and!; [by rewrite app_nil_r|done|constructor|constructor| |set_solver].
      intros i t d Ht Hc. unfold cstart in Ht. rewrite list_lookup_fmap, Hc in Ht. simpl in Ht. simplify_eq.
      split; [by intros ?%elem_of_nil|]. intros [=].
  Qed.

  Lemma put_section c x w b w' :
    c ∈ cs -> wfC w -> c_idx w !! n = Some p -> put_sane c x -> section ckn tk x w b w' ->
    c_idx w' !! n = Some p /\ (forall y, leave b y -> put_sane c y) /\
    exists k d,
      c_obj w' !! p = (fun x : string * list DocRequest => (x.1, x.2 ++ replicate k d)) <$> c_obj w !! p /\
      (k <> 0 -> exists m, c = CPut m d) /\
      (forall d', c = CPut n d' -> (k = 1 /\ d = d' /\ leave b (Answered (Returned OUnit))) \/ (k = 0 /\ ~ leave b (Answered (Returned OUnit)))).
  Proof.
    intros Hc Hw Hn Hx Hs.
    assert (Hsame : forall o : option (string * list DocRequest), o = (fun x : string * list DocRequest => (x.1, x.2 ++ replicate 0 (NewDocRequest "" ""))) <$> o).
    { intros [[? ?]|]; [|done]. simpl. by rewrite app_nil_r. }
    assert (Hplain : (forall d, c <> CPut n d) -> c_idx w' = c_idx w \/ (exists m q, m <> n /\ c_idx w' = <[m := q]> (c_idx w)) ->
      c_obj w' !! p = c_obj w !! p -> (forall y, leave b y -> put_sane c y) ->
      c_idx w' !! n = Some p /\ (forall y, leave b y -> put_sane c y) /\
    exists k d,
      c_obj w' !! p = (fun x : string * list DocRequest => (x.1, x.2 ++ replicate k d)) <$> c_obj w !! p /\
      (k <> 0 -> exists m, c = CPut m d) /\
      (forall d', c = CPut n d' -> (k = 1 /\ d = d' /\ leave b (Answered (Returned OUnit))) \/ (k = 0 /\ ~ leave b (Answered (Returned OUnit))))).
    { intros Hne Hi Ho Hl. split_and!; [|done|].
      - destruct Hi as [->|(m & q & Hm & ->)]; [done|]. by rewrite lookup_insert_ne.
      - exists 0, (NewDocRequest "" ""). split_and!; [rewrite Ho; apply Hsame|done|]. intros d' ->. by destruct (Hne d'). }
    destruct x as [c'|m d [ps|]|m|a i|]; cbn [section] in Hs; try done.
    - simpl in Hx. subst c'.
      destruct c; repeat case_decide; try (by destruct (Hdrop index)); try (by destruct (Hren old0 new));
        try (destruct Hs as (? & _ & -> & ->); apply Hplain; [done|by left|done|by intros ? ->]);
        try (destruct Hs as (-> & ->); apply Hplain; [done|by left|done|by intros ? ->]).
      + destruct Hs as (-> & ->). split_and!; [done| |].
        * intros ? ->. simpl. split; [done|]. intros ->. unfold targets. by rewrite Hn.
        * exists 0, (NewDocRequest "" ""). split_and!; [apply Hsame|done|]. intros d' _. right. split; [done|]. intros [=].
      + destruct Hs as (-> & Hs). apply Hplain; [done|by left|done|]. destruct (targets w index) as [ps|]; [|subst b; by intros ? ->].
        assert (forall l y, leave (Gather l) y -> put_sane (CSearch index terms engine) y) by (by intros l y (? & ? & _ & _ & ->)).
        destruct ps as [|op [|op' ps]]; [subst b; eauto| |subst b; eauto].
        destruct (search_obj ckn tk w terms engine op); subst b; by intros ? ->.
    - destruct Hs as (_ & -> & ->), Hx as [-> Hm]. cbn [c_idx c_obj]. split_and!; [done|by intros ? ->|].
      rewrite put_objs_lookup. eexists _, d. split_and!; [done|by eauto|]. intros d' [= -> ->]. left.
      injection (Hm eq_refl) as ->. rewrite filter_cons, decide_True by done. done.
    - destruct Hs as (q & Hq & -> & ->), Hx as [-> Hm]. assert (m <> n) by (intros ->; by specialize (Hm eq_refl)).
      apply Hplain; cbn [c_idx c_obj]; [congruence|right; eauto| |by intros ? ->].
      destruct (wf_obj _ Hw _ _ Hn) as [y Hy]. rewrite lookup_insert_ne; [done|congruence].
    - destruct (c_ali w !! a); destruct Hs as (-> & ->); (apply Hplain; [simpl in Hx; congruence|by left|done|simpl in Hx; subst c; by intros ? ->]).
  Qed.

  Lemma put_inv_step l w l' w' : put_inv l w -> cstep ckn tk (APool l w) (APool l' w') -> put_inv l' w'.
  Proof.
    intros [H1 H2 H3 H4 (nm & news & js & ds & extra & Ho & Hp & Hnd & Hjs & Hiff & Hex)] Hs.
    inversion Hs as [? ? i x b ? Hi Heff|? ? i b x Hi Hfin| |]; simplify_eq;
      (destruct (lookup_lt_is_Some_2 cs i) as [c Hc]; [rewrite <- H3; by eapply lookup_lt_Some|]).
    - destruct (put_section c x w b w') as (Hn' & Hb & k & d & Ho' & Hk & Hd);
        [by eapply elem_of_list_lookup_2|done..|by apply (H4 _ _ _ _ Hi Hc)|done|].
      split; [by eapply section_wf|done|by rewrite insert_length|..].
      + intros j t c' y Hj Hc'. apply list_lookup_insert_Some in Hj as [(-> & <- & _)|[Hne Hj]]; [|by eauto].
        rewrite Hc in Hc'. injection Hc' as <-. apply Hb.
      + rewrite Ho in Ho'. simpl in Ho'. rewrite <- app_assoc in Ho'.
        assert (Hx : forall d', c = CPut n d' -> ~ put_done (Between x)).
        { intros d' -> E. simpl in E. by subst x. }
        assert (Hcase : (exists d', c = CPut n d') \/ forall d', c <> CPut n d').
        { destruct c as [| | | | | |m d0| | | |]; try (by right). destruct (decide (m = n)) as [->|]; [left; by eauto|right; congruence]. }
        destruct Hcase as [[d' ->]|Hne].
        * destruct (Hd _ eq_refl) as [(-> & -> & Hl)|[-> Hl]].
          -- exists nm, (news ++ [d']), (i :: js), (d' :: ds), extra. split_and!; [done|rewrite Hp; solve_Permutation| | | |done].
             ++ constructor; [|done]. intros Hin. apply (Hx _ eq_refl). by apply (Hiff _ _ _ Hi Hc).
             ++ constructor; [by eauto|done].
             ++ intros j t d0 Hj Hc'. apply list_lookup_insert_Some in Hj as [(-> & <- & _)|[Hne Hj]].
                { split; [intros _; exact Hl|intros _; by left]. }
                rewrite <- (Hiff _ _ _ Hj Hc'). rewrite elem_of_cons. split; [by intros [->|?]|by right].
          -- exists nm, news, js, ds, extra. simpl in Ho'. rewrite app_nil_r in Ho'. split_and!; [done..| |done].
             intros j t d0 Hj Hc'. apply list_lookup_insert_Some in Hj as [(-> & <- & _)|[Hne Hj]]; [|by eauto].
             rewrite (Hiff _ _ _ Hi Hc). split; [intros E; by destruct (Hx _ eq_refl)|intros E; by destruct Hl].
        * exists nm, (news ++ replicate k d), js, ds, (extra ++ replicate k d).
          split_and!; [done|rewrite Hp; solve_Permutation|done|done| |].
          -- intros j t d0 Hj Hc'. apply list_lookup_insert_Some in Hj as [(-> & <- & _)|[Hne' Hj]]; [|by eauto].
             rewrite Hc in Hc'. injection Hc' as ->. by destruct (Hne d0).
          -- intros d0 [Hin|Hin]%elem_of_app; [by apply Hex|]. apply elem_of_replicate in Hin as [-> Hk0].
             destruct (Hk Hk0) as [m ->]. exists m. split; [intros ->; by apply (Hne d)|by eapply elem_of_list_lookup_2].
    - split; [done..|by rewrite insert_length| |].
      + intros j t c' y Hj Hc'. apply list_lookup_insert_Some in Hj as [(-> & <- & _)|[Hne Hj]]; [|by eauto].
        rewrite Hc in Hc'. injection Hc' as <-. intros ->. by apply (H4 _ _ _ _ Hi Hc).
      + exists nm, news, js, ds, extra. split_and!; [done..| |done].
        intros j t d0 Hj Hc'. apply list_lookup_insert_Some in Hj as [(-> & <- & _)|[Hne Hj]]; [|by eauto].
        rewrite (Hiff _ _ _ Hi Hc'). unfold put_done. simpl. destruct b as [y|outs]; simpl in *; [by subst|].
        destruct Hfin as (? & ? & -> & _ & ->). split; [by intros (? & ? & _ & _ & [=])|intros [=]].
  Qed.
End puts.
