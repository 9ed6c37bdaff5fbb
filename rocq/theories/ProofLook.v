(** * Proofs for C92: the abstract machine seen from outside. *)
From Coq Require Import Lia.
From stdpp Require Import gmap list.
From Verif Require Import Entities Search SpecSearch ProofSearch ProofEngines Repo Sem RepoWp SpecRepo ProofRepo ProofTotal
  ProofReach ProofExact SpecLook.
Open Scope nat_scope.
Open Scope string_scope.
Open Scope list_scope.

(** ** Experiences of the abstract machine *)
Definition saw (o : out) : seen :=
  match o with ODone b _ => SawValue b | OPanic _ => SawPanic | OCrash => SawCrash | OBlock => SawHang end.
Inductive sexp (ckn : bool) (tk : Tokenizer) : view -> list (call * seen) -> Prop :=
| SX_nil v : sexp ckn tk v []
| SX_value v c b v' l : spec ckn tk c v (ODone b v') -> sexp ckn tk v' l -> sexp ckn tk v ((c, SawValue b) :: l)
| SX_panic v c v' l : spec ckn tk c v (OPanic v') -> sexp ckn tk v' l -> sexp ckn tk v ((c, SawPanic) :: l)
| SX_crash v c : spec ckn tk c v OCrash -> sexp ckn tk v [(c, SawCrash)]
| SX_hang v c : spec ckn tk c v OBlock -> sexp ckn tk v [(c, SawHang)].

Lemma no_String_cons c x l : no_String ((c, x) :: l) -> (forall show, c <> CString show) /\ no_String l.
Proof.
  intros H. split.
  - intros show ->. apply (H show x). left.
  - intros show y Hin. apply (H show y). by right.
Qed.

Lemma experience_sexp ckn tk s l : experience s l -> forall v, tracks ckn tk s v -> sexp ckn tk v l.
Proof.
  induction 1 as [s|s c r s' l Hc Hl IH|s c s' l Hc Hl IH|s c Hc|s c Hc]; intros v Ht;
    [constructor|pose proof (reach_call _ _ _ _ _ _ _ Ht I Hc) as Hx; simpl in Hx..].
  - destruct Hx as (v' & Hx & Ht'). eapply SX_value; eauto.
  - destruct Hx as (v' & Hx & Ht'). eapply SX_panic; eauto.
  - by constructor.
  - by constructor.
Qed.
Lemma sexp_experience ckn tk v l : sexp ckn tk v l -> no_String l -> forall s, tracks ckn tk s v -> experience s l.
Proof.
  induction 1 as [v|v c b v' l Hc Hl IH|v c v' l Hc Hl IH|v c Hc|v c Hc]; intros Hn s Ht; [constructor|..];
    apply no_String_cons in Hn as [Hs Hn];
    pose proof (spec_exact ckn tk c s v _ Hs (reach_shape _ _ _ _ _ Ht) Hc) as Hx; simpl in Hx.
  - destruct Hx as (r & s' & H1 & H2 & _). subst b. apply X_value; [done|]. apply IH; [done|]. by eapply R_done.
  - destruct Hx as (s' & H1 & _). eapply X_panic; [done|]. apply IH; [done|]. by eapply R_panic.
  - by constructor.
  - by constructor.
Qed.

(** ** Documents that no search tells apart *)
Lemma same_doc_positions tk t r1 r2 : Forall2 (same_doc tk) r1 r2 -> forall i, positions tk t i r1 = positions tk t i r2.
Proof.
  induction 1 as [|a b r1 r2 (_ & _ & H) _ IH]; intros i; simpl; [done|]. rewrite IH. f_equal.
  unfold contains. by rewrite (bool_decide_ext _ _ (H t)).
Qed.
Lemma same_doc_docs tk r1 r2 : Forall2 (same_doc tk) r1 r2 -> map doc_of r1 = map doc_of r2.
Proof.
  induction 1 as [|a b r1 r2 (H1 & H2 & _) _ IH]; simpl; [done|]. rewrite IH. f_equal.
  unfold doc_of. by rewrite H1, H2.
Qed.
Lemma same_doc_search ckn tk r1 r2 q e : Forall2 (same_doc tk) r1 r2 -> search_docs ckn tk r1 q e = search_docs ckn tk r2 q e.
Proof.
  intros H. unfold search_docs.
  pose proof (rep_index_after "" tk r1) as [T1 D1 I1]. pose proof (rep_index_after "" tk r2) as [T2 D2 I2].
  assert (E : indexer_of ckn (index_after "" tk r1) = indexer_of ckn (index_after "" tk r2)).
  { unfold indexer_of, Len, Indexed, Document. rewrite D1, D2, (same_doc_docs _ _ _ H).
    assert (mi_Inverted (index_after "" tk r1) = mi_Inverted (index_after "" tk r2)) as ->; [|done].
    apply map_eq. intros t. by rewrite I1, I2, (same_doc_positions _ t _ _ H). }
  unfold mi_Search. by rewrite T1, T2, E.
Qed.
Lemma same_doc_refl tk r : same_doc tk r r.
Proof. done. Qed.

(** ** Similar views *)
Definition isim tk (i1 i2 : gmap string (list DocRequest)) : Prop := forall n,
  match i1 !! n, i2 !! n with
  | Some reqs1, Some reqs2 => Forall2 (same_doc tk) reqs1 reqs2
  | None, None => True
  | _, _ => False
  end.
Lemma isim_none tk i1 i2 n : isim tk i1 i2 -> i1 !! n = None <-> i2 !! n = None.
Proof. intros H. specialize (H n). by destruct (i1 !! n), (i2 !! n). Qed.
Lemma isim_some tk i1 i2 n : isim tk i1 i2 -> is_Some (i1 !! n) <-> is_Some (i2 !! n).
Proof. intros H. apply (isim_none _ _ _ n) in H. rewrite <- !not_eq_None_Some. tauto. Qed.
Lemma isim_keys tk i1 i2 : isim tk i1 i2 -> (map_to_list i1).*1 ≡ₚ (map_to_list i2).*1.
Proof.
  intros H. apply NoDup_Permutation; [apply NoDup_fst_map_to_list..|]. intros n.
  rewrite !elem_of_list_fmap. split; intros ([? r] & -> & Hin%elem_of_map_to_list); simpl in *.
  - destruct (proj1 (isim_some _ _ _ s H)) as [r' Hr']; [eauto|]. exists (s, r'). by rewrite elem_of_map_to_list.
  - destruct (proj2 (isim_some _ _ _ s H)) as [r' Hr']; [eauto|]. exists (s, r'). by rewrite elem_of_map_to_list.
Qed.
Lemma isim_insert tk i1 i2 n r1 r2 : isim tk i1 i2 -> Forall2 (same_doc tk) r1 r2 -> isim tk (<[n := r1]> i1) (<[n := r2]> i2).
Proof.
  intros H Hr m. destruct (decide (n = m)) as [->|Hne]; [by rewrite !lookup_insert|].
  rewrite !lookup_insert_ne by done. apply H.
Qed.
Lemma isim_delete tk i1 i2 n : isim tk i1 i2 -> isim tk (delete n i1) (delete n i2).
Proof.
  intros H m. destruct (decide (n = m)) as [->|Hne]; [by rewrite !lookup_delete|].
  rewrite !lookup_delete_ne by done. apply H.
Qed.
Lemma isim_put2 tk d1 d2 l i1 i2 : isim tk i1 i2 -> same_doc tk d1 d2 -> isim tk (put_each d1 l i1) (put_each d2 l i2).
Proof.
  unfold put_each. intros H Hd. induction l as [|x l IH]; simpl; [done|]. intros n.
  destruct (decide (x = n)) as [->|Hne].
  - rewrite !lookup_alter. specialize (IH n).
    destruct (foldr _ i1 l !! n), (foldr _ i2 l !! n); simpl; try done.
    apply Forall2_app; [done|]. by constructor.
  - rewrite !lookup_alter_ne by done. apply IH.
Qed.
Lemma isim_put tk d l i1 i2 : isim tk i1 i2 -> isim tk (put_each d l i1) (put_each d l i2).
Proof. intros H. by apply isim_put2. Qed.
Lemma isim_name ckn tk i1 i2 q e n : isim tk i1 i2 -> search_name ckn tk i1 q e n = search_name ckn tk i2 q e n.
Proof.
  intros H. specialize (H n). unfold search_name. destruct (i1 !! n), (i2 !! n); try done. by apply same_doc_search.
Qed.
Lemma similar_sym tk v1 v2 : similar tk v1 v2 -> similar tk v2 v1.
Proof.
  intros [H1 H2 H3 H4]. split; [|by symmetry|done|intros E; symmetry; apply H4; congruence].
  intros n. specialize (H1 n). destruct (v_idx v1 !! n), (v_idx v2 !! n); try done.
  apply Forall2_flip. eapply Forall2_impl; [done|]. intros a b (?&?&H). split_and!; [done..|]. intros t. by rewrite H.
Qed.
Definition osim tk (o o' : out) : Prop :=
  match o, o' with
  | ODone b v, ODone b' v' => b = b' /\ similar tk v v'
  | OPanic v, OPanic v' => similar tk v v'
  | OCrash, OCrash | OBlock, OBlock => True
  | _, _ => False
  end.

Lemma spec_cong ckn tk c v w o : similar tk v w -> spec ckn tk c v o -> exists o', spec ckn tk c w o' /\ osim tk o o'.
Proof.
  intros Hv. pose proof Hv as Hv'. destruct v as [i1 ali1 l1 la1], w as [i2 ali2 l2 la].
  destruct Hv as [Hi Hl Ha Hali]; simpl in *; subst la1.
  fold (isim tk i1 i2) in Hi. set (v := MkView i1 ali1 l1 la) in *. set (w := MkView i2 ali2 l2 la) in *.
  assert (Tb : o = OBlock -> exists o', o' = OBlock /\ osim tk o o') by (intros ->; by exists OBlock).
  assert (Tc : o = OCrash -> exists o', o' = OCrash /\ osim tk o o') by (intros ->; by exists OCrash).
  assert (Tp : o = OPanic v -> exists o', o' = OPanic w /\ osim tk o o') by (intros ->; by exists (OPanic w)).
  assert (T : forall b v1 w1, similar tk v1 w1 -> o = ODone b v1 -> exists o', o' = ODone b w1 /\ osim tk o o')
    by (intros b v1 w1 ? ->; by exists (ODone b w1)).
  assert (N : forall n, i1 !! n = None <-> i2 !! n = None) by (intros; by eapply isim_none).
  assert (Tidx : forall j1 j2, isim tk j1 j2 -> similar tk (MkView j1 ali1 l1 la) (MkView j2 ali2 l2 la)) by done.
  destruct c as [| |n|a|a i|a i|n d|n q e|old new|n|show]; simpl.
  - intros (l & Hl' & ->). exists (ODone (ONames l) w). split; [|done]. exists l. by rewrite <- (isim_keys _ _ _ Hi).
  - destruct la; [done|]. rewrite (Hali eq_refl) in *. intros (l & Hl' & ->). exists (ODone (ORows l) w). split; [by exists l|done].
  - rewrite (bool_decide_ext _ _ (isim_some _ _ _ n Hi)). by apply T.
  - destruct la; [done|]. rewrite (Hali eq_refl) in *. by apply T.
  - destruct (decide (i1 !! i = None)) as [H1|H1], (decide (i2 !! i = None)) as [H2|H2]; try (by rewrite N in H1); [by apply T|].
    destruct la; [done|]. assert (ali1 = ali2) as -> by (by apply Hali). destruct (decide _); by apply T.
  - destruct (decide (i = _)).
    { destruct la; [done|]. assert (ali1 = ali2) as -> by (by apply Hali). by apply T. }
    destruct (decide (i1 !! i = None)) as [H1|H1], (decide (i2 !! i = None)) as [H2|H2]; try (by rewrite N in H1); [by apply T|].
    destruct la; [done|]. assert (ali1 = ali2) as -> by (by apply Hali). destruct (ali2 !! a); by apply T.
  - pose proof (Hi n) as En.
    destruct (i1 !! n), (i2 !! n); try done.
    + destruct (decide (l1 <> 0)) as [E1|E1], (decide (l2 <> 0)) as [E2|E2]; [done|tauto|tauto|]. apply T, Tidx. exact (isim_put tk d [n] _ _ Hi).
    + destruct la; [done|]. assert (ali1 = ali2) as -> by (by apply Hali).
      destruct (decide (l1 <> 0)) as [E1|E1], (decide (l2 <> 0)) as [E2|E2]; [done|tauto|tauto|]. destruct (ali2 !! n) as [l|].
      * destruct (decide (Exists (fun x => i1 !! x = None) l)) as [H1|H1], (decide (Exists (fun x => i2 !! x = None) l)) as [H2|H2].
        -- done.
        -- destruct H2. apply Exists_exists in H1 as (x & ? & ?). apply Exists_exists. exists x. by rewrite <- N.
        -- destruct H1. apply Exists_exists in H2 as (x & ? & ?). apply Exists_exists. exists x. by rewrite N.
        -- apply T, Tidx. by apply isim_put.
      * apply T, Tidx. apply isim_insert; [done|]. by repeat constructor.
  - pose proof (Hi n) as En. destruct (i1 !! n) as [x|], (i2 !! n) as [y|]; try done.
    + rewrite (same_doc_search ckn tk _ _ q e En). destruct (search_docs _ _ _ _ _); [by apply T|done].
    + destruct la; [done|]. assert (ali1 = ali2) as -> by (by apply Hali). destruct (ali2 !! n) as [l|]; [|by apply T].
      assert (Hm : search_many ckn tk i1 q e l o v -> exists o', search_many ckn tk i2 q e l o' w /\ osim tk o o').
      { unfold search_many. assert (search_name ckn tk i1 q e <$> l = search_name ckn tk i2 q e <$> l) as ->.
        { apply list_fmap_ext. intros i m _. by apply isim_name. }
        intros [(bs & bs' & H1 & H2 & ->)|[H1 ->]].
        - exists (ODone (OResults (concat bs')) w). split; [|done]. left. by exists bs, bs'.
        - exists OCrash. split; [|done]. by right. }
      destruct l as [|x [|y l]]; [done| |done]. rewrite (isim_name ckn tk _ _ q e x Hi).
      destruct (search_name _ _ _ _ _ _); [by apply T|done].
  - destruct (decide (l1 <> 0)) as [E1|E1], (decide (l2 <> 0)) as [E2|E2]; [done|tauto|tauto|]. pose proof (Hi old) as En.
    destruct (i1 !! old) as [x|], (i2 !! old) as [y|]; try done; apply T; [|done].
    split; simpl; [|done|done|intros E; by rewrite (Hali E)]. apply isim_delete. by apply isim_insert.
  - destruct (decide (i1 !! n = None)) as [H1|H1], (decide (i2 !! n = None)) as [H2|H2]; try (by rewrite N in H1); [by apply T|].
    destruct (decide (l1 <> 0)) as [E1|E1], (decide (l2 <> 0)) as [E2|E2]; [done|tauto|tauto|].
    destruct la; [done|]. assert (ali1 = ali2) as -> by (by apply Hali). apply T. split; [|done..]. simpl. by apply isim_delete.
  - intros (t & ->). exists (ODone (OText t) w). split; [by exists t|done].
Qed.

Lemma similar_sexp ckn tk v l : sexp ckn tk v l -> forall w, similar tk v w -> sexp ckn tk w l.
Proof.
  induction 1 as [v|v c b v' l Hc Hl IH|v c v' l Hc Hl IH|v c Hc|v c Hc]; intros w Hw; [constructor|..];
    destruct (spec_cong ckn tk c v w _ Hw Hc) as ([b' w'|w'| |] & H1 & H2); try done; simpl in H2.
  - destruct H2 as [<- H2]. eapply SX_value; eauto.
  - eapply SX_panic; eauto.
  - by constructor.
  - by constructor.
Qed.
