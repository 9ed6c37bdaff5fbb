(** * The machine of SpecAny.v seen through the encoding of ProofAny.v. *)
From Coq Require Import Lia.
From stdpp Require Import gmap list countable.
From Verif Require Import Entities Search SpecSearch Repo Sem RepoWp SpecRepo SpecConc SpecLin ProofRepo ProofTotal Locks
  AnyIndex SpecAny ProofAny.
Open Scope nat_scope.

(** Reading an encoded log back. *)
Definition dlog (ds : list DocRequest) : list entry := (fun d => dec (doc_of d)) <$> ds.
Definition dco (ds : list DocRequest) : string * list DocRequest := (hd ""%string (dlog ds).*1, (dlog ds).*2).
Definition gof (v : view) : gview := MkGView (dco <$> v_idx v) (v_ali v) (v_leakI v) (v_leakA v).
(** No index is empty. *)
Definition solid (v : view) : Prop := forall n ds, v_idx v !! n = Some ds -> ds <> [].
Definition oof (o : out) : gout :=
  match o with ODone b v => GODone b (gof v) | OPanic v => GOPanic (gof v) | OCrash => GOCrash | OBlock => GOBlock end.
Definition solid_out (o : out) : Prop := match o with ODone _ v | OPanic v => solid v | _ => True end.

Lemma dlog_enc log : dlog (enc <$> log) = log.
Proof.
  unfold dlog. rewrite <- list_fmap_compose. transitivity (id <$> log); [|by rewrite list_fmap_id].
  apply list_fmap_ext. intros i x _. apply dec_enc.
Qed.
Lemma dco_snoc ds m d : ds <> [] -> dco (ds ++ [enc (m, d)]) = ((dco ds).1, (dco ds).2 ++ [d]).
Proof.
  intros Hd. unfold dco, dlog. rewrite !fmap_app. simpl. rewrite dec_enc. destruct ds; [done|]. done.
Qed.
Lemma dco_one m d : dco [enc (m, d)] = (m, [d]).
Proof. unfold dco, dlog. simpl. by rewrite dec_enc. Qed.

Lemma solid_put d l idx :
  (forall n (ds : list DocRequest), idx !! n = Some ds -> ds <> []) ->
  forall n ds, put_each d l idx !! n = Some ds -> ds <> [].
Proof.
  intros Hs. unfold put_each. induction l as [|x l IH]; simpl; [done|]. intros n ds.
  destruct (decide (x = n)) as [->|Hne].
  - rewrite lookup_alter. intros H. apply fmap_Some in H as (ds' & _ & ->). by destruct ds'.
  - rewrite lookup_alter_ne by done. apply IH.
Qed.
Lemma gput_put m d l idx :
  (forall n (ds : list DocRequest), idx !! n = Some ds -> ds <> []) ->
  gput_each d l (dco <$> idx) = dco <$> put_each (enc (m, d)) l idx.
Proof.
  intros Hs. unfold gput_each, put_each. induction l as [|x l IH]; simpl; [done|]. rewrite IH.
  apply map_eq. intros n. rewrite lookup_fmap. destruct (decide (x = n)) as [->|Hne].
  - rewrite !lookup_alter, lookup_fmap.
    destruct (foldr _ idx l !! n) as [ds|] eqn:E; simpl; [|done]. f_equal. symmetry. apply dco_snoc.
    by eapply (solid_put (enc (m, d)) l idx).
  - rewrite !lookup_alter_ne by done. by rewrite lookup_fmap.
Qed.
Lemma names_gof (idx : gmap string (list DocRequest)) :
  (map_to_list (dco <$> idx)).*1 ≡ₚ (map_to_list idx).*1.
Proof.
  rewrite (map_to_list_fmap dco idx), <- list_fmap_compose. apply reflexive_eq.
  by apply list_fmap_ext.
Qed.
Lemma None_gof (idx : gmap string (list DocRequest)) n : (dco <$> idx) !! n = None <-> idx !! n = None.
Proof. rewrite lookup_fmap. by destruct (idx !! n). Qed.

Section Any.
Context (im : implementation).

Lemma search_wrap ds q e :
  ds <> [] -> search_docs true tk0 ds q (wrap im q e) = im_search im (object im (dco ds)) q e.
Proof.
  intros Hd. unfold search_docs, mi_Search, wrap. rewrite docs_of_index, docs_index_after.
  destruct ds as [|d ds]; [done|]. simpl. unfold dco, dlog. simpl.
  do 4 f_equal. by rewrite <- !list_fmap_compose.
Qed.
Lemma search_name_wrap (idx : gmap string (list DocRequest)) q e n :
  (forall n (ds : list DocRequest), idx !! n = Some ds -> ds <> []) ->
  search_name true tk0 idx q (wrap im q e) n = gsearch_name im (dco <$> idx) q e n.
Proof.
  intros Hs. unfold search_name, gsearch_name. rewrite lookup_fmap. destruct (idx !! n) as [ds|] eqn:E; [|done].
  simpl. apply search_wrap. by eapply Hs.
Qed.
Lemma search_many_wrap (idx : gmap string (list DocRequest)) q e l o v :
  (forall n (ds : list DocRequest), idx !! n = Some ds -> ds <> []) ->
  search_many true tk0 idx q (wrap im q e) l o v -> gsearch_many im (dco <$> idx) q e l (oof o) (gof v) /\ (solid v -> solid_out o).
Proof.
  intros Hs. unfold search_many, gsearch_many.
  assert (search_name true tk0 idx q (wrap im q e) <$> l = gsearch_name im (dco <$> idx) q e <$> l) as E.
  { apply list_fmap_ext. intros i n _. by apply search_name_wrap. }
  rewrite E. intros [(bs & bs' & H1 & H2 & ->)|[H1 ->]]; (split; [|done]); [left; exists bs, bs'|right]; done.
Qed.
Lemma search_many_unwrap (idx : gmap string (list DocRequest)) q e l o' v :
  (forall n (ds : list DocRequest), idx !! n = Some ds -> ds <> []) ->
  gsearch_many im (dco <$> idx) q e l o' (gof v) ->
  exists o, search_many true tk0 idx q (wrap im q e) l o v /\ oof o = o'.
Proof.
  intros Hs. unfold search_many, gsearch_many.
  assert (search_name true tk0 idx q (wrap im q e) <$> l = gsearch_name im (dco <$> idx) q e <$> l) as E.
  { apply list_fmap_ext. intros i n _. by apply search_name_wrap. }
  rewrite E. intros [(bs & bs' & H1 & H2 & ->)|[H1 ->]].
  - exists (ODone (OResults (concat bs')) v). split; [|done]. left. by exists bs, bs'.
  - exists OCrash. split; [|done]. by right.
Qed.


Lemma gof_drop v n : gof (MkView (delete n (v_idx v)) (omap (drop_from n) (v_ali v)) (v_leakI v) (v_leakA v)) =
  MkGView (delete n (dco <$> v_idx v)) (omap (drop_from n) (v_ali v)) (v_leakI v) (v_leakA v).
Proof. unfold gof. simpl. by rewrite fmap_delete. Qed.

Lemma spec_iff c v o' :
  solid v -> gspec im c (gof v) o' <-> exists o, spec true tk0 (encc im c) v o /\ oof o = o'.
Proof.
  intros Hs. unfold solid in Hs. destruct v as [idx ali li la]. simpl in Hs.
  assert (T : forall o1 : out, (o' = oof o1) <-> exists o, o = o1 /\ oof o = o') by (intros; naive_solver).
  destruct c as [| |n|a|a i|a i|n d|n q e|old new|n|show]; simpl; rewrite ?lookup_fmap.
  - split.
    + intros (l & Hl & ->). exists (ODone (ONames l) (MkView idx ali li la)). split; [|done]. exists l. by rewrite <- names_gof.
    + intros (o & (l & Hl & ->) & <-). exists l. by rewrite names_gof.
  - destruct la; [by apply (T OBlock)|]. split.
    + intros (l & Hl & ->). exists (ODone (ORows l) (MkView idx ali li false)). split; [|done]. by exists l.
    + intros (o & (l & Hl & ->) & <-). by exists l.
  - rewrite <- T. by rewrite (bool_decide_ext _ _ (fmap_is_Some dco (idx !! n))).
  - by destruct la; rewrite <- T.
  - destruct (idx !! i) as [ds|]; cbn [fmap option_fmap option_map].
    + destruct (decide (Some (dco ds) = None)) as [?|_]; [done|]. destruct (decide (Some ds = None)) as [?|_]; [done|]. by destruct la; [|destruct (decide _)]; rewrite <- T.
    + destruct (decide (@None (string * list DocRequest) = None)) as [_|?]; [|done].
      destruct (decide (@None (list DocRequest) = None)) as [_|?]; [|done].
      by rewrite <- T.
  - destruct (decide (i = _)); [by destruct la; rewrite <- T|].
    destruct (idx !! i) as [ds|]; cbn [fmap option_fmap option_map].
    + destruct (decide (Some (dco ds) = None)) as [?|_]; [done|]. destruct (decide (Some ds = None)) as [?|_]; [done|].
      destruct la; [by rewrite <- T|]. by destruct (ali !! a); rewrite <- T.
    + destruct (decide (@None (string * list DocRequest) = None)) as [_|?]; [|done].
      destruct (decide (@None (list DocRequest) = None)) as [_|?]; [|done].
      by rewrite <- T.
  - destruct (idx !! n) as [ds|] eqn:En; simpl.
    + destruct (decide _); rewrite <- T; [done|]. unfold oof, gof. simpl.
      pose proof (gput_put n d [n] idx Hs) as E0. simpl in E0. by rewrite E0.
    + destruct la; [by rewrite <- T|]. destruct (decide _); [by rewrite <- T|].
      destruct (ali !! n) as [l|].
      * assert (Exists (fun x => (dco <$> idx) !! x = None) l <-> Exists (fun x => idx !! x = None) l) as E.
        { rewrite !Exists_exists. by setoid_rewrite None_gof. }
        destruct (decide (Exists (fun x => (dco <$> idx) !! x = None) l)) as [H1|H1];
          destruct (decide (Exists (fun x => idx !! x = None) l)) as [H2|H2]; try tauto; rewrite <- T; [done|].
        unfold oof, gof. simpl. pose proof (gput_put n d l idx Hs) as E0. simpl in E0. by rewrite E0.
      * rewrite <- T. unfold oof, gof. simpl. by rewrite fmap_insert, dco_one.
  - destruct (idx !! n) as [ds|] eqn:En; simpl.
    + rewrite search_wrap by (by eapply Hs). by destruct (im_search _ _ _ _); rewrite <- T.
    + destruct la; [by rewrite <- T|]. destruct (ali !! n) as [l|]; [|by rewrite <- T].
      assert (gsearch_many im (dco <$> idx) q e l o' (gof (MkView idx ali li false)) <->
        exists o, search_many true tk0 idx q (wrap im q e) l o (MkView idx ali li false) /\ oof o = o') as Hm.
      { split; [by apply search_many_unwrap|]. intros (o & Ho & <-). by apply search_many_wrap. }
      destruct l as [|x [|y l]]; [done| |done].
      rewrite search_name_wrap by done. by destruct (gsearch_name _ _ _ _ _); rewrite <- T.
  - destruct (decide _); [by rewrite <- T|]. destruct (idx !! old) as [ds|]; simpl; rewrite <- T; [|done].
    unfold oof, gof. simpl. by rewrite fmap_delete, fmap_insert.
  - destruct (idx !! n) as [ds|]; cbn [fmap option_fmap option_map].
    + destruct (decide (Some (dco ds) = None)) as [?|_]; [done|]. destruct (decide (Some ds = None)) as [?|_]; [done|].
      destruct (decide _); [by rewrite <- T|]. destruct la; rewrite <- T; [done|].
      unfold oof, gof. simpl. by rewrite fmap_delete.
    + destruct (decide (@None (string * list DocRequest) = None)) as [_|?]; [|done].
      destruct (decide (@None (list DocRequest) = None)) as [_|?]; [|done].
      by rewrite <- T.
  - split.
    + intros (t & ->). exists (ODone (OText t) (MkView idx ali li la)). split; [by exists t|done].
    + intros (o & (t & ->) & <-). by exists t.
Qed.

Lemma spec_solid c v o : solid v -> spec true tk0 (encc im c) v o -> solid_out o.
Proof.
  intros Hs. pose proof Hs as Hs'. unfold solid in Hs. destruct v as [idx ali li la]. simpl in Hs.
  destruct c as [| |n|a|a i|a i|n d|n q e|old new|n|show]; simpl.
  1,2,11: repeat case_match; naive_solver.
  1,2,3,4: repeat case_match; intros ->; done.
  - destruct (idx !! n) as [ds|] eqn:En.
    + destruct (decide _); intros ->; [done|]. intros m ds'. by apply (solid_put (enc (n, d)) [n] idx).
    + destruct la; [by intros ->|]. destruct (decide _); [by intros ->|]. destruct (ali !! n) as [l|].
      * destruct (decide _); intros ->; [done|]. intros m ds'. by apply (solid_put (enc (n, d)) l idx).
      * intros ->. intros m ds' Hm. simpl in Hm. apply lookup_insert_Some in Hm as [[_ <-]|[_ Hm]]; [done|by eapply Hs].
  - assert (forall l, search_many true tk0 idx q (wrap im q e) l o (MkView idx ali li la) -> solid_out o) as Hm.
    { by intros l [(bs & bs' & _ & _ & ->)|[_ ->]]. }
    destruct (idx !! n) as [ds|]; [by case_match; intros ->|]. destruct la; [by intros ->|].
    destruct (ali !! n) as [[|x [|y l]]|]; [apply Hm|by case_match; intros ->|apply Hm|by intros ->].
  - destruct (decide _); [by intros ->|]. destruct (idx !! old) as [ds|] eqn:Eo; intros ->; [|done].
    intros m ds' Hm. simpl in Hm. apply lookup_delete_Some in Hm as [_ Hm].
    apply lookup_insert_Some in Hm as [[_ <-]|[_ Hm]]; by eapply Hs.
  - destruct (decide _); [by intros ->|]. destruct (decide _); [by intros ->|]. destruct la; intros ->; [done|].
    intros m ds' Hm. simpl in Hm. apply lookup_delete_Some in Hm as [_ Hm]. by eapply Hs.
Qed.

Lemma spec_fwd c v o :
  solid v -> spec true tk0 (encc im c) v o -> gspec im c (gof v) (oof o) /\ solid_out o.
Proof. intros Hs Ho. split; [|by eapply spec_solid]. apply spec_iff; [done|]. by exists o. Qed.

(** The next state is determined by how the call ends. *)
Lemma gspec_det c v ob v1 v2 : gspec im c v (GODone ob v1) -> gspec im c v (GODone ob v2) -> v1 = v2.
Proof.
  destruct c as [| |n|a|a i|a i|n d|n q e|old new|n|show]; simpl; unfold gsearch_many;
    repeat case_match; naive_solver.
Qed.
Lemma gspec_det_panic c v v1 v2 : gspec im c v (GOPanic v1) -> gspec im c v (GOPanic v2) -> v1 = v2.
Proof.
  destruct c as [| |n|a|a i|a i|n d|n q e|old new|n|show]; simpl; unfold gsearch_many;
    repeat case_match; naive_solver.
Qed.
Lemma gspec_text c v t t' v1 : gspec im c v (GODone (OText t) v1) -> gspec im c v (GODone (OText t') v1).
Proof.
  destruct c as [| |n|a|a i|a i|n d|n q e|old new|n|show]; simpl; unfold gsearch_many;
    repeat case_match; naive_solver.
Qed.

(** ** Views and memory *)
Lemma gforget_gof v : gforget (gof v) = gof (forget v).
Proof. done. Qed.
Lemma explained_fwd c a vb va :
  solid vb -> explained true tk0 (encc im c) a vb va -> gexplained im c a (gof vb) (gof va) /\ solid va.
Proof.
  intros Hs. destruct a as [o|]; simpl; intros (v1 & H1 & ->);
    destruct (spec_fwd _ _ _ Hs H1) as [H2 H3]; (split; [|done]); by exists (gof v1).
Qed.
Lemma tolerates_fwd v c c' : tolerates (plain (gof v)) c c' -> tolerates v (encc im c) (encc im c').
Proof.
  destruct v as [idx ali li la]. unfold tolerates, plain, gof. simpl.
  destruct c; simpl; try (by destruct c').
  rewrite !lookup_fmap. destruct (idx !! index); simpl; [by destruct c'|].
  destruct (ali !! index); [|by destruct c'].
  destruct c'; try done. simpl. intros H Hin. specialize (H Hin). rewrite !lookup_fmap, !fmap_is_Some in H. done.
Qed.
Lemma calm_fwd v cs : calm (plain (gof v)) cs -> calm v (encc im <$> cs).
Proof.
  intros H i j c c' Hne Hi Hj. rewrite list_lookup_fmap in Hi, Hj.
  apply fmap_Some in Hi as (c0 & Hi & ->), Hj as (c1 & Hj & ->). apply tolerates_fwd. by eapply H.
Qed.

Lemma orel_read x nm reqs : orel im x (index_after nm tk0 reqs) -> reqs <> [] -> x = object im (dco reqs).
Proof.
  intros (nm' & log & E & -> & Hh) Hd.
  assert (doc_of <$> reqs = doc_of <$> (enc <$> log)) as E1.
  { by rewrite <- (docs_index_after nm tk0), <- (docs_index_after nm' tk0), E. }
  assert (dlog reqs = log) as <-.
  { rewrite <- (dlog_enc log). unfold dlog.
    transitivity (dec <$> (doc_of <$> reqs)); [by rewrite <- list_fmap_compose|]. rewrite E1. by rewrite <- list_fmap_compose. }
  unfold dco. f_equal. f_equal. destruct reqs as [|d reqs]; [done|]. symmetry. exact (Hh _ _ eq_refl).
Qed.

Lemma shows_fwd gs s v : rel im gs s -> solid v -> shows tk0 s v -> gshows im gs (gof v).
Proof.
  intros [[E1 E2 E3 E4 E5 E6] EA _ _] Hs (w & <- & [Hm Ho] & Ha).
  assert (forall n, match c_idx w !! n with
    | Some p => exists x nm reqs, gi_heap im (g_I im gs) !! p = Some x /\ c_obj w !! p = Some (nm, reqs) /\ x = object im (dco reqs)
    | None => True end) as K.
  { intros n. destruct (c_idx w !! n) as [p|] eqn:Hn; [|done]. destruct (Ho n p Hn) as (nm & reqs & Hp & Hh).
    specialize (E6 p). rewrite Hh in E6. destruct (gi_heap im _ !! p) as [x|] eqn:Hx; [|done].
    exists x, nm, reqs. split_and!; [done..|]. eapply orel_read; [done|]. apply (Hs n). simpl.
    rewrite lookup_omap, Hn. simpl. by rewrite Hp. }
  split; [| |by rewrite EA].
  - intros n. rewrite E1, Hm. simpl. rewrite lookup_fmap, lookup_omap. specialize (K n).
    destruct (c_idx w !! n) as [p|]; [|done]. destruct K as (x & nm & reqs & H1 & H2 & H3). simpl. rewrite H1, H2. simpl.
    by rewrite H3.
  - intros n. rewrite E1, Hm. simpl. rewrite lookup_fmap, lookup_omap. specialize (K n).
    destruct (c_idx w !! n) as [p|]; [|by split; intros []]. destruct K as (x & nm & reqs & H1 & H2 & H3). simpl. rewrite H2. simpl.
    by split; eauto.
Qed.

(** ** Views with the same objects *)
Record veq (v w : gview) : Prop := {
  ve_idx : object im <$> gv_idx v = object im <$> gv_idx w;
  ve_ali : gv_ali v = gv_ali w;
  ve_leakI : gv_leakI v = gv_leakI w;
  ve_leakA : gv_leakA v = gv_leakA w }.
Definition oeq (o o' : gout) : Prop :=
  match o, o' with
  | GODone b v, GODone b' v' => b = b' /\ veq v v'
  | GOPanic v, GOPanic v' => veq v v'
  | GOCrash, GOCrash | GOBlock, GOBlock => True
  | _, _ => False
  end.
Lemma veq_refl v : veq v v.
Proof. done. Qed.
Lemma veq_sym v w : veq v w -> veq w v.
Proof. intros []. by split. Qed.
Lemma veq_trans u v w : veq u v -> veq v w -> veq u w.
Proof. intros [] []. split; congruence. Qed.

Definition same (i1 i2 : gmap string (string * list DocRequest)) : Prop := object im <$> i1 = object im <$> i2.
Lemma same_lookup i1 i2 n : same i1 i2 -> object im <$> i1 !! n = object im <$> i2 !! n.
Proof. intros H. by rewrite <- !lookup_fmap, H. Qed.
Lemma same_none i1 i2 n : same i1 i2 -> i1 !! n = None <-> i2 !! n = None.
Proof. intros H. apply (same_lookup _ _ n) in H. by destruct (i1 !! n), (i2 !! n). Qed.
Lemma same_some i1 i2 n : same i1 i2 -> is_Some (i1 !! n) <-> is_Some (i2 !! n).
Proof. intros H. apply (same_none _ _ n) in H. rewrite <- !not_eq_None_Some. tauto. Qed.
Lemma same_put d l i1 i2 : same i1 i2 -> same (gput_each d l i1) (gput_each d l i2).
Proof.
  unfold gput_each. induction l as [|x l IH]; intros H; simpl; [done|]. specialize (IH H).
  apply map_eq. intros n. rewrite !lookup_fmap. destruct (decide (x = n)) as [->|Hne].
  - rewrite !lookup_alter. apply (same_lookup _ _ n) in IH.
    destruct (foldr _ i1 l !! n) as [[a b]|], (foldr _ i2 l !! n) as [[a' b']|]; simplify_eq/=; [|done].
    rewrite !object_snoc. congruence.
  - rewrite !lookup_alter_ne by done. by apply same_lookup.
Qed.
Lemma same_name i1 i2 q e n : same i1 i2 -> gsearch_name im i1 q e n = gsearch_name im i2 q e n.
Proof.
  intros H. apply (same_lookup _ _ n) in H. unfold gsearch_name. by destruct (i1 !! n), (i2 !! n); simplify_eq/=; [congruence|].
Qed.
Lemma same_keys i1 i2 : same i1 i2 -> (map_to_list i1).*1 ≡ₚ (map_to_list i2).*1.
Proof.
  intros H. assert (forall i : gmap string (string * list DocRequest), (map_to_list (object im <$> i)).*1 ≡ₚ (map_to_list i).*1) as E.
  { intros i. rewrite (map_to_list_fmap (object im) i), <- list_fmap_compose. apply reflexive_eq. by apply list_fmap_ext. }
  by rewrite <- (E i1), H, E.
Qed.
Lemma same_many i1 i2 q e l o v w : same i1 i2 -> veq v w -> gsearch_many im i1 q e l o v ->
  exists o', gsearch_many im i2 q e l o' w /\ oeq o o'.
Proof.
  intros H Hv. unfold gsearch_many.
  assert (gsearch_name im i1 q e <$> l = gsearch_name im i2 q e <$> l) as ->.
  { apply list_fmap_ext. intros i n _. by apply same_name. }
  intros [(bs & bs' & H1 & H2 & ->)|[H1 ->]].
  - exists (GODone (OResults (concat bs')) w). split; [|done]. left. by exists bs, bs'.
  - exists GOCrash. split; [|done]. by right.
Qed.

Lemma gspec_cong c v w o : veq v w -> gspec im c v o -> exists o', gspec im c w o' /\ oeq o o'.
Proof.
  intros Hv. pose proof Hv as Hv'. destruct v as [i1 ali li la], w as [i2 ali2 li2 la2]. destruct Hv as [Hi ? ? ?]; simplify_eq/=.
  fold (same i1 i2) in Hi. set (v := MkGView i1 ali2 li2 la2) in *. set (w := MkGView i2 ali2 li2 la2) in *.
  assert (Tb : o = GOBlock -> exists o', o' = GOBlock /\ oeq o o') by (intros ->; by exists GOBlock).
  assert (Tc : o = GOCrash -> exists o', o' = GOCrash /\ oeq o o') by (intros ->; by exists GOCrash).
  assert (Tp : o = GOPanic v -> exists o', o' = GOPanic w /\ oeq o o') by (intros ->; by exists (GOPanic w)).
  assert (T : forall b v1 w1, veq v1 w1 -> o = GODone b v1 -> exists o', o' = GODone b w1 /\ oeq o o')
    by (intros b v1 w1 ? ->; by exists (GODone b w1)).
  assert (N : forall n, i1 !! n = None <-> i2 !! n = None) by (intros; by apply same_none).
  assert (Tali : forall a' l1 l2, veq (MkGView i1 a' l1 l2) (MkGView i2 a' l1 l2)) by done.
  destruct c as [| |n|a|a i|a i|n d|n q e|old new|n|show]; simpl.
  - intros (l & Hl & ->). exists (GODone (ONames l) w). split; [|done]. exists l. by rewrite <- (same_keys _ _ Hi).
  - destruct la2; [done|]. intros (l & Hl & ->). exists (GODone (ORows l) w). split; [by exists l|done].
  - rewrite (bool_decide_ext _ _ (same_some _ _ n Hi)). by apply T.
  - destruct la2; [done|]. by apply T.
  - destruct (decide (i1 !! i = None)) as [H1|H1], (decide (i2 !! i = None)) as [H2|H2]; try (by rewrite N in H1); [by apply T|].
    destruct la2; [done|]. destruct (decide _); by apply T.
  - destruct (decide (i = _)); [destruct la2; [done|by apply T]|].
    destruct (decide (i1 !! i = None)) as [H1|H1], (decide (i2 !! i = None)) as [H2|H2]; try (by rewrite N in H1); [by apply T|].
    destruct la2; [done|]. destruct (ali2 !! a); by apply T.
  - pose proof (same_lookup _ _ n Hi) as En. destruct (i1 !! n), (i2 !! n); simplify_eq/=.
    + destruct (decide _); [done|]. apply T. split; [|done..]. apply (same_put d [n] _ _ Hi).
    + destruct la2; [done|]. destruct (decide _); [done|]. destruct (ali2 !! n) as [l|].
      * destruct (decide (Exists (fun x => i1 !! x = None) l)) as [H1|H1], (decide (Exists (fun x => i2 !! x = None) l)) as [H2|H2].
        -- done.
        -- destruct H2. apply Exists_exists in H1 as (x & ? & ?). apply Exists_exists. exists x. by rewrite <- N.
        -- destruct H1. apply Exists_exists in H2 as (x & ? & ?). apply Exists_exists. exists x. by rewrite N.
        -- apply T. split; [|done..]. by apply same_put.
      * apply T. split; [|done..]. simpl. rewrite !fmap_insert. by rewrite Hi.
  - pose proof (same_lookup _ _ n Hi) as En. destruct (i1 !! n) as [x|], (i2 !! n) as [y|]; simplify_eq/=.
    + replace (object im y) with (object im x) by congruence. destruct (im_search _ _ _ _); [by apply T|done].
    + destruct la2; [done|]. destruct (ali2 !! n) as [l|]; [|by apply T].
      assert (Hm : gsearch_many im i1 q e l o v -> exists o', gsearch_many im i2 q e l o' w /\ oeq o o') by (by apply same_many).
      destruct l as [|x [|y l]]; [done| |done]. rewrite (same_name _ _ q e x Hi).
      destruct (gsearch_name _ _ _ _ _); [by apply T|done].
  - destruct (decide _); [done|]. pose proof (same_lookup _ _ old Hi) as En.
    destruct (i1 !! old) as [x|], (i2 !! old) as [y|]; simplify_eq/=; apply T; [|done].
    split; [|done..]. simpl. rewrite !fmap_delete, !fmap_insert, Hi. by replace (object im y) with (object im x) by congruence.
  - destruct (decide (i1 !! n = None)) as [H1|H1], (decide (i2 !! n = None)) as [H2|H2]; try (by rewrite N in H1); [by apply T|].
    destruct (decide _); [done|]. destruct la2; [done|]. apply T. split; [|done..]. simpl. by rewrite !fmap_delete, Hi.
  - intros (t & ->). exists (GODone (OText t) w). split; [by exists t|done].
Qed.

Lemma gexplained_cong c a vb va wb : veq vb wb -> gexplained im c a vb va -> exists wa, gexplained im c a wb wa /\ veq va wa.
Proof.
  intros Hv. destruct a as [o|]; simpl; intros (v1 & H1 & ->); destruct (gspec_cong _ _ _ _ Hv H1) as ([b w1|w1| |] & H2 & H3); try done.
  - destruct H3 as [<- H3]. exists (gforget w1). split; [by exists w1|]. destruct H3. by split.
  - exists (gforget w1). split; [by exists w1|]. destruct H3. by split.
Qed.
Lemma gshows_cong gs v w : veq v w -> gshows im gs v -> gshows im gs w.
Proof.
  intros [H1 H2 _ _] [S1 S2 S3]. fold (same (gv_idx v) (gv_idx w)) in H1. split.
  - intros n. by rewrite S1, (same_lookup _ _ n H1).
  - intros n. by rewrite S2, (same_some _ _ n H1).
  - by rewrite S3.
Qed.
Lemma gshows_veq gs v w : gshows im gs v -> gshows im gs w -> gv_leakI v = gv_leakI w -> gv_leakA v = gv_leakA w -> veq v w.
Proof.
  intros [S1 S2 S3] [T1 T2 T3] E1 E2. split; [|by rewrite <- S3, T3|done..].
  apply map_eq. intros n. by rewrite !lookup_fmap, <- S1, T1.
Qed.
Lemma gchain_cong (P : nat -> call -> answer -> Prop) v0 log v1 : gchain v0 log v1 -> forall w0, veq v0 w0 ->
  (forall i vb va, (i, vb, va) ∈ log -> exists c a, P i c a /\ gexplained im c a vb va) ->
  exists log' w1, gchain w0 log' w1 /\ veq v1 w1 /\ log'.*1.*1 = log.*1.*1 /\
    forall i vb va, (i, vb, va) ∈ log' -> exists c a, P i c a /\ gexplained im c a vb va.
Proof.
  induction 1 as [v|i v v1 log v2 Hc IH]; intros w0 Hv HP.
  - exists [], w0. split_and!; [constructor|done|done|]. by intros ? ? ? ?%elem_of_nil.
  - destruct (HP i v v1) as (c & a & H1 & H2); [left|]. destruct (gexplained_cong _ _ _ _ _ Hv H2) as (wa & H3 & H4).
    destruct (IH wa H4) as (log' & w1 & I1 & I2 & I3 & I4).
    { intros j vb va Hin. apply HP. by right. }
    exists ((i, w0, wa) :: log'), w1. split_and!; [by constructor|done|by apply (f_equal (cons i)) in I3|].
    intros j vb va [?|Hin]%elem_of_cons; simplify_eq; [by exists c, a|by apply I4].
Qed.
Lemma veq_calm v w cs : veq v w -> calm (plain v) cs -> calm (plain w) cs.
Proof.
  intros [H1 H2 _ _] Hc i j c c' Hne Hi Hj. specialize (Hc i j c c' Hne Hi Hj). revert Hc.
  fold (same (gv_idx v) (gv_idx w)) in H1.
  assert (K : forall n, (v_idx (plain v) !! n = None <-> v_idx (plain w) !! n = None)).
  { intros n. simpl. rewrite !lookup_fmap. pose proof (same_none _ _ n H1).
    by destruct (gv_idx v !! n), (gv_idx w !! n); simpl; split; intros; try done; naive_solver. }
  assert (K' : forall n, (is_Some (v_idx (plain v) !! n) -> is_Some (v_idx (plain w) !! n))).
  { intros n. rewrite <- !not_eq_None_Some. by rewrite K. }
  unfold tolerates. destruct c; try done. change (v_ali (plain v)) with (gv_ali v). change (v_ali (plain w)) with (gv_ali w). rewrite <- H2.
  specialize (K index). destruct (v_idx (plain v) !! index), (v_idx (plain w) !! index); try done; try (by destruct K as [K1 K2]; (discriminate (K1 eq_refl) || discriminate (K2 eq_refl))).
  destruct (gv_ali v !! index); [|done]. destruct c'; try done. intros H Hin. destruct (H Hin) as [?|?]; [left; by apply K'|by right].
Qed.
End Any.
