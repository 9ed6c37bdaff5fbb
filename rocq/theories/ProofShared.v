(** * Proofs about builders that hand out objects they made before. *)
From Coq Require Import Lia.
From stdpp Require Import gmap list.
From Verif Require Import Entities Search SpecSearch Repo Sem RepoWp SpecRepo ProofRepo ProofTotal Fault ProofFault
  Locks Shared SpecShared.
Open Scope string_scope. Open Scope list_scope. Open Scope nat_scope.

Section shared.
  Context (give : string -> option ptr).

(** ** The builder matters to Put only *)

Lemma scan_speq s i n index k k' :
  (forall b, peq (share give (k b)) (k' b)) -> peq (share give (scan_loop s i n index k)) (scan_loop s i n index k').
Proof.
  intros H. revert i. induction n as [|n IH]; intros i; simpl; [done|]. constructor. intros x. case_decide; [done|apply IH].
Qed.
Lemma filter_speq s i n index acc k k' :
  (forall x, peq (share give (k x)) (k' x)) -> peq (share give (filter_loop s i n index acc k)) (filter_loop s i n index acc k').
Proof.
  intros H. revert i acc. induction n as [|n IH]; intros i acc; simpl; [done|]. constructor. intros x.
  case_decide; [apply IH|]. simpl. constructor. intros. apply IH.
Qed.
Lemma rename_elems_speq s i n old new k k' :
  peq (share give k) k' -> peq (share give (rename_elems s i n old new k)) (rename_elems s i n old new k').
Proof.
  intros H. revert i. induction n as [|n IH]; intros i; simpl; [done|]. constructor. intros x.
  case_decide; [simpl; constructor|]; apply IH.
Qed.
Lemma rename_loop_speq l old new k k' :
  peq (share give k) k' -> peq (share give (rename_loop l old new k)) (rename_loop l old new k').
Proof.
  intros H. induction l as [|a l IH]; simpl; [done|]. constructor. intros [x|]; [|apply IH]. by apply rename_elems_speq.
Qed.
Lemma resolve_speq s i n acc k k' :
  (forall x, peq (share give (k x)) (k' x)) -> peq (share give (resolve_loop s i n acc k)) (resolve_loop s i n acc k').
Proof.
  intros H. revert i acc. induction n as [|n IH]; intros i acc; simpl; [done|]. constructor. intros x.
  constructor. intros. apply IH.
Qed.
Lemma drop_speq l n k k' :
  peq (share give k) k' -> peq (share give (drop_loop l n k)) (drop_loop l n k').
Proof.
  intros H. induction l as [|a l IH]; simpl; [done|]. constructor. intros [x|]; [|apply IH].
  apply filter_speq. intros y. case_decide; [simpl; by constructor|]. case_decide; [done|]. simpl. by constructor.
Qed.
Lemma rows_speq l acc k k' :
  (forall x, peq (share give (k x)) (k' x)) -> peq (share give (rows_loop l acc k)) (rows_loop l acc k').
Proof.
  intros H. revert acc. induction l as [|a l IH]; intros acc; simpl; [done|]. constructor. intros [x|]; apply IH.
Qed.
Lemma string_speq show l acc k k' :
  (forall x, peq (share give (k x)) (k' x)) -> peq (share give (string_loop show l acc k)) (string_loop show l acc k').
Proof.
  intros H. revert acc. induction l as [|a l IH]; intros acc; simpl; [done|]. constructor. intros x. constructor. intros [y|]; apply IH.
Qed.

(** The calls without a text of the caller's are not affected. *)
Definition textless (c : call) : Prop :=
  match c with CPut _ _ | CSearch _ _ _ => False | _ => True end.

Lemma textless_speq c : textless c -> peq (share give (prog_of c)) (prog_of c).
Proof.
  destruct c; intros H; try done; cbn [prog_of].
  - unfold List_prog. cbn [share]. pq.
  - unfold ListAliases_prog. cbn [share]. constructor. constructor. intros l. apply rows_speq. intros x. cbn [share]. pq.
  - unfold Has_prog. cbn [share]. pq.
  - unfold HasAlias_prog. cbn [share]. pq.
  - unfold Alias_prog. cbn [share]. constructor. constructor. intros [p|]; cbn [share]; [|pq].
    constructor. constructor. intros [sl|]; cbn [share]; [|pq]. apply scan_speq. intros [|]; cbn [share]; pq.
  - unfold UnAlias_prog. destruct (decide (index = "")); cbn [share]; [pq|].
    constructor. constructor. intros [p|]; cbn [share]; [|pq]. do 3 constructor. intros [sl|]; cbn [share]; [|pq].
    apply filter_speq. intros x. case_decide; cbn [share]; pq.
  - unfold Rename_prog. cbn [share]. do 2 constructor. intros [p|]; cbn [share]; [|pq]. do 3 constructor. intros l.
    apply rename_loop_speq. cbn [share]. pq.
  - unfold Drop_prog. cbn [share]. do 2 constructor. intros [p|]; cbn [share]; [|pq]. do 4 constructor. intros l.
    apply drop_speq. cbn [share]. pq.
  - unfold String_prog. cbn [share]. do 2 constructor. intros l. apply string_speq. intros x. cbn [share]. pq.
Qed.

Lemma search_speq n q e : peq (share give (Search_prog n q e)) (Search_prog n q e).
Proof.
  assert (Ht : forall ps, peq (share give (search_tail ps q e)) (search_tail ps q e)).
  { intros [|p [|p' ps]]; cbn [search_tail share]; pq. }
  unfold Search_prog. cbn [share]. do 2 constructor. intros [p|]; [apply Ht|]. cbn [share]. do 2 constructor.
  intros [sl|]; cbn [share]; [|pq]. apply resolve_speq. intros x. cbn [share]. constructor. apply Ht.
Qed.
(** What Put becomes. *)
Definition sput (n : string) (d : DocRequest) : prog :=
  getIndices n (fun r =>
  Lock MI (
  match r with
  | None =>
      match give n with
      | Some p => SetIndex n p (IdxPut p d (Unlock MI (Ret RUnit)))
      | None => NewIndex n (fun p => SetIndex n p (IdxPut p d (Unlock MI (Ret RUnit))))
      end
  | Some indices => GoPut indices d (Unlock MI (Ret RUnit))
  end)).

Lemma put_speq n d : peq (share give (Put_prog n d)) (sput n d).
Proof.
  unfold Put_prog, sput, getIndices. cbn [share]. do 2 constructor. intros [p|]; cbn [share]; [pq|].
  do 2 constructor. intros [sl|]; cbn [share].
  - apply resolve_speq. intros x. cbn [share]. pq.
  - constructor. constructor. constructor. destruct (give n); pq.
Qed.

(** ** The invariant *)
  Context (ckn : bool) (tk : Tokenizer).

Record shJ (i : Ipart) (ds : list (list DocRequest)) : Prop := {
  shJ_builder : i_builder i = NewMemoryIndexBuilder tk;
  shJ_ckn : i_ckn i = ckn;
  shJ_len : length ds = i_next i;
  shJ_map : forall n p, i_map i !! n = Some p -> p < length ds;
  shJ_give : forall n p, give n = Some p -> p < length ds;
  shJ_docs : forall p reqs, ds !! p = Some reqs -> exists nm, i_heap i !! p = Some (index_after nm tk reqs) }.

Lemma shJ_fwd i ds : shJ i ds -> forall n p, i_map i !! n = Some p -> p < i_next i /\
  exists nm reqs, i_heap i !! p = Some (index_after nm tk reqs) /\ shown (i_map i) ds !! n = Some reqs.
Proof.
  intros H n p Hn. pose proof (shJ_map _ _ H _ _ Hn) as Hlt. split; [by rewrite <- (shJ_len _ _ H)|].
  destruct (lookup_lt_is_Some_2 ds p Hlt) as [reqs Hd]. destruct (shJ_docs _ _ H _ _ Hd) as [nm Hh].
  exists nm, reqs. split; [done|]. unfold shown. by rewrite lookup_omap, Hn.
Qed.
Lemma shJ_is_Some i ds n : shJ i ds -> is_Some (i_map i !! n) <-> is_Some (shown (i_map i) ds !! n).
Proof.
  intros H. destruct (i_map i !! n) as [p|] eqn:E.
  - destruct (shJ_fwd _ _ H _ _ E) as (_ & nm & reqs & _ & ->). split; eauto.
  - unfold shown. rewrite lookup_omap, E. simpl. split; intros []; done.
Qed.
Lemma shJ_None i ds n : shJ i ds -> i_map i !! n = None <-> shown (i_map i) ds !! n = None.
Proof. intros H. rewrite !eq_None_not_Some. by rewrite (shJ_is_Some i ds). Qed.
Lemma shJ_keys i ds : shJ i ds -> (map_to_list (i_map i)).*1 ≡ₚ (map_to_list (shown (i_map i) ds)).*1.
Proof.
  intros H. apply NoDup_Permutation; [apply NoDup_fst_map_to_list..|].
  intros a. rewrite (keys_elem (i_map i) _ a (Permutation_refl _)), (keys_elem (shown (i_map i) ds) _ a (Permutation_refl _)).
  by apply shJ_is_Some.
Qed.

Lemma shJ_put i ds p d :
  shJ i ds -> shJ (i_put p d i) (add_to d [p] ds).
Proof.
  intros H. split; simpl; try (rewrite ?alter_length; by apply H).
  intros q reqs Hq. destruct (decide (q = p)) as [->|Hne].
  - rewrite list_lookup_alter in Hq. apply fmap_Some in Hq as (reqs0 & Hq & ->).
    destruct (shJ_docs _ _ H _ _ Hq) as [nm Hh]. exists nm. rewrite lookup_alter, Hh. simpl.
    by rewrite index_after_snoc.
  - rewrite list_lookup_alter_ne in Hq by done. rewrite lookup_alter_ne by done. by apply H.
Qed.

Lemma shJ_set i ds n p : shJ i ds -> p < length ds -> shJ (i_set n p i) ds.
Proof.
  intros H Hp. split; simpl; try by apply H.
  intros n' p' Hn'. apply lookup_insert_Some in Hn' as [(<- & <-)|[_ Hn']]; [done|by eapply H].
Qed.

Lemma shJ_del i ds n : shJ i ds -> shJ (i_del n i) ds.
Proof.
  intros H. split; simpl; try by apply H. intros n' p' Hn'. apply lookup_delete_Some in Hn' as [_ Hn']. by eapply H.
Qed.

Lemma shJ_new i ds n d :
  shJ i ds -> shJ (i_put (i_next i) d (i_set n (i_next i) (i_new n i))) (ds ++ [[d]]).
Proof.
  intros H. pose proof (shJ_len _ _ H) as El. split; simpl.
  - apply H.
  - apply H.
  - rewrite app_length. simpl. lia.
  - intros n' p' Hn'. rewrite app_length. simpl.
    apply lookup_insert_Some in Hn' as [(<- & <-)|[_ Hn']]; [lia|]. apply H in Hn'. lia.
  - intros n' p' Hn'. rewrite app_length. apply H in Hn'. lia.
  - intros p reqs Hp. apply lookup_app_Some in Hp as [Hp|[Hge Hp]].
    + pose proof (lookup_lt_Some _ _ _ Hp). rewrite lookup_alter_ne, lookup_insert_ne by lia. by apply H.
    + apply list_lookup_singleton_Some in Hp as [Hp <-]. assert (p = i_next i) as -> by lia.
      exists n. rewrite lookup_alter, lookup_insert. simpl. by rewrite (shJ_builder _ _ H).
Qed.

Lemma add_to_perm d l l' ds : l ≡ₚ l' -> add_to d l ds = add_to d l' ds.
Proof.
  intros H. unfold add_to. revert ds. induction H; intros ds; simpl.
  - done.
  - by rewrite IHPermutation.
  - destruct (decide (x = y)) as [->|Hne]; [done|].
    by apply (list_alter_commute _ _ _ _ _ (not_eq_sym Hne)) || apply list_alter_commute.
  - by rewrite IHPermutation1.
Qed.
Lemma add_to_snoc d l p ds : add_to d (l ++ [p]) ds = add_to d l (add_to d [p] ds).
Proof. unfold add_to. by rewrite foldr_app. Qed.

Lemma sputs_spec i ds d ps i' :
  shJ i ds -> puts (Some <$> ps) d i = Some i' -> shJ i' (add_to d ps ds) /\ i_map i' = i_map i.
Proof.
  revert i ds. induction ps as [|p ps IH]; intros i ds H Hp; simpl in Hp.
  - by simplify_eq.
  - apply (IH _ (add_to d [p] ds)) in Hp as [Hp Hm]; [|by apply shJ_put]. split; [|done].
    rewrite <- add_to_snoc in Hp. erewrite add_to_perm; [exact Hp|]. by rewrite Permutation_app_comm.
Qed.

Lemma j_search_name i ds q e n :
  shJ i ds -> i_search (i_map i !! n) q e i = search_name ckn tk (shown (i_map i) ds) q e n.
Proof.
  intros H. destruct (i_map i !! n) as [p|] eqn:E.
  - destruct (shJ_fwd _ _ H _ _ E) as (_ & nm & reqs & Hh & Hm).
    set (i1 := MkI {[n := p]} (i_heap i) (S p) (i_builder i) (i_ckn i)).
    assert (shI ckn tk i1 {[n := reqs]}) as H1.
    { split; simpl; try by apply H.
      - by intros n1 n2 p0 [-> ->]%lookup_singleton_Some [-> _]%lookup_singleton_Some.
      - intros n1 p1 [-> ->]%lookup_singleton_Some. split; [lia|]. exists nm, reqs. by rewrite lookup_singleton.
      - intros n1 Hn1%lookup_singleton_None. by apply lookup_singleton_None. }
    pose proof (i_search_name _ _ _ _ q e n H1) as Hs. unfold search_name in *. simpl in Hs.
    rewrite !lookup_singleton in Hs. rewrite Hm. exact Hs.
  - apply (shJ_None _ _ _ H) in E. unfold search_name. by rewrite E.
Qed.

Record shapeS (s : repo) (w : world) : Prop := {
  ss_I : shJ (r_I s) (w_docs w);
  ss_A : shA (r_A s) (w_ali w);
  ss_imu : r_imu s = MkRW (w_leakI w) false false;
  ss_amu : r_amu s = MkRW 0 false (w_leakA w);
  ss_names : i_map (r_I s) = w_names w }.

Definition next_world (c : call) (w : world) (b : obs) (v : view) : world :=
  MkW (names_after c b (w_names w)) (w_docs w) (v_ali v) (v_leakI v) (v_leakA v).
Definition match_sout (c : call) (w : world) (res : result) (o : out) : Prop :=
  match res, o with
  | Done r s', ODone b v' => see s' r = b /\ shapeS s' (next_world c w b v')
  | Panicked s', OPanic v' => shapeS s' (next_world c w OUnit v')
  | Crashed, OCrash => True
  | Blocked, OBlock => True
  | _, _ => False
  end.
Definition post c w (res : result) : Prop :=
  exists o, spec ckn tk c (seen w) o /\ match_sout c w res o.

  Ltac start H s w :=
    destruct s as [I A im am], w as [ns ds ali lI lA], H as [HI HA E1 E2 Ens];
    cbn [w_names w_docs w_ali w_leakI w_leakA r_I r_A r_imu r_amu] in *; subst im am ns.
  Ltac ret o := exists o; split; [|split; [done|by split]].
  Ltac go := cbn [wp get_mu set_mu set_I set_A r_I r_A r_imu r_amu rw_readers rw_pending rw_writer orb].

  Lemma ref_List s w : shapeS s w -> wp List_prog s (post CList w).
  Proof.
    intros H. start H s w. unfold List_prog. go. intros names Hn. go.
    ret (ODone (ONames names) (MkView (shown (i_map I) ds) ali lI lA)). simpl. exists names. split; [|done].
    rewrite Hn. by eapply shJ_keys.
  Qed.

  Lemma ref_Has s w n : shapeS s w -> wp (Has_prog n) s (post (CHas n) w).
  Proof.
    intros H. start H s w. unfold Has_prog. go.
    eexists; split; [reflexivity|]. split; [|by split]. simpl. f_equal.
    apply bool_decide_ext. by eapply shJ_is_Some.
  Qed.

  Lemma ref_HasAlias s w n : shapeS s w -> wp (HasAlias_prog n) s (post (CHasAlias n) w).
  Proof.
    intros H. start H s w. unfold HasAlias_prog. go. destruct lA; go.
    - by exists OBlock.
    - eexists; split; [reflexivity|]. split; [|by split]. simpl. f_equal.
      apply bool_decide_ext. by eapply shA_is_Some.
  Qed.

  Lemma ref_Alias s w a i : shapeS s w -> wp (Alias_prog a i) s (post (CAlias a i) w).
  Proof.
    intros H. start H s w. unfold Alias_prog. go.
    destruct (i_map I !! i) as [p|] eqn:Ei; go.
    2:{ apply (shJ_None _ _ _ HI) in Ei. ret (ODone (OBool false) (MkView (shown (i_map I) ds) ali lI lA)).
        simpl. by rewrite decide_True. }
    assert ((shown (i_map I) ds) !! i <> None) as Ei' by (rewrite <- (shJ_None _ _ _ HI); congruence).
    destruct lA; go.
    { exists OBlock. split; [|done]. simpl. by rewrite decide_False. }
    destruct (a_map A !! a) as [sl|] eqn:Ea.
    - destruct (shA_fwd _ _ HA _ _ Ea) as [Hw Hm].
      apply wp_scan; [done|lia|]. rewrite drop_0. go.
      case_bool_decide as Hin; go.
      + ret (ODone (OBool false) (MkView (shown (i_map I) ds) ali lI false)). simpl.
        rewrite decide_False by done. rewrite Hm. simpl. by rewrite decide_True.
      + intros cap Hcap. destruct (a_append sl i cap A) as [x' sl'] eqn:E. cbn [fst snd]. go.
        exists (ODone (OBool true) (MkView (shown (i_map I) ds) (<[a := a_cont A sl ++ [i]]> ali) lI false)).
        split; [|split; [done|split; [done| |done..]]].
        * simpl. rewrite decide_False by done. rewrite Hm. simpl. by rewrite decide_False.
        * cbn. by eapply shA_append.
    - apply (shA_m_None _ _ _ HA) in Ea as Hm. go. cbn [a_alloc fst snd length]. 
      exists (ODone (OBool true) (MkView (shown (i_map I) ds) (<[a := [i]]> ali) lI false)).
      split; [|split; [done|split; [done| |done..]]].
      + simpl. rewrite decide_False by done. by rewrite Hm.
      + cbn. pose proof (shA_pos _ _ HA).
        set (x' := MkA (a_map A) (<[a_next A := [i] ]> (a_arr A)) (S (a_next A))).
        set (sl := MkSlice (a_next A) 1 1).
        assert (a_cont x' sl = [i]) as Hc.
        { unfold a_cont. simpl. by rewrite lookup_insert. }
        rewrite <- Hc.
        apply shA_set with A; [done|..].
        * split_and!; simpl; [done|lia|]. intros b Hb. apply lookup_insert_ne. lia.
        * right. simpl. split; [lia|]. exists [i]. by rewrite lookup_insert.
        * right. simpl. lia.
  Qed.

  Lemma ref_UnAlias s w a i : shapeS s w -> wp (UnAlias_prog a i) s (post (CUnAlias a i) w).
  Proof.
    intros H. start H s w. unfold UnAlias_prog. destruct (decide (i = "")) as [->|Hi]; go.
    - destruct lA; go; [by exists OBlock|].
      eexists; split; [reflexivity|]. split; [|split; [done| |done..]].
      + simpl. f_equal. apply bool_decide_ext. by eapply shA_is_Some.
      + cbn. by apply shA_del.
    - destruct (i_map I !! i) as [p|] eqn:Ei; go.
      2:{ apply (shJ_None _ _ _ HI) in Ei.
          ret (ODone (OBool false) (MkView (shown (i_map I) ds) ali (S lI) lA)).
          simpl. by rewrite decide_False, decide_True. }
      assert ((shown (i_map I) ds) !! i <> None) as Ei' by (rewrite <- (shJ_None _ _ _ HI); congruence).
      destruct lA; go.
      { exists OBlock. split; [|done]. simpl. by rewrite !decide_False. }
      destruct (a_map A !! a) as [sl|] eqn:Ea; go.
      + destruct (shA_fwd _ _ HA _ _ Ea) as [Hw Hm].
        pose proof (shA_bound _ _ _ _ HA Ea) as Hb. pose proof (shA_pos _ _ HA).
        apply wp_filter with (l0 := a_next A); [done|done|done|lia|by left|by left|].
        go. intros x' acc He Hw' Hp' Hc. rewrite cont_nil, drop_0 in Hc. simpl in Hc.
        exists (ODone (OBool true) (MkView (shown (i_map I) ds) (<[a := without i (a_cont A sl)]> ali) lI false)) || idtac.
        assert (spec ckn tk (CUnAlias a i) (MkView (shown (i_map I) ds) ali lI false)
                  (ODone (OBool true) (MkView (shown (i_map I) ds) (<[a := without i (a_cont A sl)]> ali) lI false))) as Hsp.
        { simpl. rewrite !decide_False by done. by rewrite Hm. }
        destruct (decide _) as [Heq|Hne]; go.
        * eexists. split; [exact Hsp|]. split; [done|]. split; [done| |done..]. cbn.
          rewrite without_same.
          -- rewrite insert_id by done. by apply (shA_ext A).
          -- rewrite <- Hc, !cont_length by done. done.
        * eexists. split; [exact Hsp|]. split; [done|]. split; [done| |done..]. cbn.
          rewrite <- Hc. by apply shA_set with A.
      + apply (shA_m_None _ _ _ HA) in Ea as Hm.
        exists (ODone (OBool false) (MkView (shown (i_map I) ds) ali lI true)). split; [|split; [done|by split]].
        simpl. rewrite !decide_False by done. by rewrite Hm.
  Qed.

  Lemma ref_Rename s w old new : shapeS s w -> wp (Rename_prog old new) s (post (CRename old new) w).
  Proof.
    intros H. start H s w. unfold Rename_prog. go. destruct lI as [|lI]; go.
    2:{ exists OBlock. split; [|done]. simpl. done. }
    destruct (i_map I !! old) as [p|] eqn:Eo; go.
    - destruct (shJ_fwd _ _ HI _ _ Eo) as (_ & nm & reqs & _ & Hm).
      intros names Hn. eapply wp_rename_loop.
      + exact HA.
      + by eapply keys_nodup.
      + intros a Ha. by eapply keys_elem in Ha.
      + intros x' m' Hx' _ Hm'. go.
        exists (ODone (OBool true) (MkView (delete old (<[new := reqs]> (shown (i_map I) ds))) (map (renamed old new) <$> ali) 0 lA)).
        split; [|split; [done|split; [| |done|done|]]].
        * simpl. rewrite Hm. done.
        * cbn. apply shJ_del, shJ_set; [done|by eapply HI].
        * cbn. assert (map (renamed old new) <$> ali = m') as ->; [|done].
          apply map_eq. intros a. rewrite lookup_fmap, Hm'.
          destruct (decide (a ∈ names)) as [Hin|Hin]; [done|].
          rewrite (keys_elem _ _ _ Hn), (shA_is_Some _ _ _ HA) in Hin.
          rewrite <- eq_None_not_Some in Hin. by rewrite Hin.
        * cbn. by rewrite Eo.
    - apply (shJ_None _ _ _ HI) in Eo. ret (ODone (OBool false) (MkView (shown (i_map I) ds) ali 0 lA)).
      simpl. by rewrite Eo.
  Qed.

  Lemma ref_Drop s w n : shapeS s w -> wp (Drop_prog n) s (post (CDrop n) w).
  Proof.
    intros H. start H s w. unfold Drop_prog. go.
    destruct (i_map I !! n) as [p|] eqn:En; go.
    2:{ apply (shJ_None _ _ _ HI) in En. ret (ODone (OBool false) (MkView (shown (i_map I) ds) ali lI lA)).
        simpl. by rewrite decide_True. }
    assert ((shown (i_map I) ds) !! n <> None) as En' by (rewrite <- (shJ_None _ _ _ HI); congruence).
    destruct lI as [|lI]; go.
    2:{ exists OBlock. split; [|done]. simpl. by rewrite decide_False. }
    destruct lA; go.
    { exists OBlock. split; [|done]. simpl. by rewrite decide_False. }
    intros names Hn. eapply wp_drop.
    - exact HA.
    - by eapply keys_nodup.
    - intros a Ha. by eapply keys_elem in Ha.
    - intros x' m' Hx' _ Hm'. go.
      exists (ODone (OBool true) (MkView (delete n (shown (i_map I) ds)) (omap (drop_from n) ali) 0 false)).
      split; [|split; [done|split; [| |done..]]].
      + simpl. by rewrite decide_False.
      + cbn. by apply shJ_del.
      + cbn. assert (omap (drop_from n) ali = m') as ->; [|done].
        apply map_eq. intros a. rewrite lookup_omap, Hm'.
        destruct (decide (a ∈ names)) as [Hin|Hin]; [done|].
        rewrite (keys_elem _ _ _ Hn), (shA_is_Some _ _ _ HA) in Hin.
        rewrite <- eq_None_not_Some in Hin. by rewrite Hin.
  Qed.

  Lemma ref_ListAliases s w : shapeS s w -> wp ListAliases_prog s (post CListAliases w).
  Proof.
    intros H. start H s w. unfold ListAliases_prog. go. destruct lA; go; [by exists OBlock|].
    intros names Hn. eapply wp_rows; [exact HA| |].
    { intros a Ha. by eapply keys_elem in Ha. }
    intros rows Hr1 Hr2. go. exists (ODone (ORows (map (fun row => (row.1, a_cont A row.2)) rows)) (MkView (shown (i_map I) ds) ali lI false)).
    split; [|split; [done|by split]]. simpl. eexists. split; [|reflexivity].
    apply NoDup_Permutation.
    - apply (NoDup_fmap_1 fst). rewrite <- list_fmap_compose. simpl.
      change (NoDup (fst <$> rows)). rewrite Hr1. by eapply keys_nodup.
    - apply NoDup_map_to_list.
    - intros [a l]. rewrite elem_of_map_to_list. split.
      + intros Hin. apply elem_of_list_fmap in Hin as ([a' sl] & E & Hin). simplify_eq/=.
        apply Hr2 in Hin. by apply (shA_fwd _ _ HA).
      + intros Ha. assert (is_Some (a_map A !! a)) as Hs by (eapply shA_is_Some; eauto).
        rewrite <- (keys_elem _ _ _ Hn), <- Hr1 in Hs.
        apply elem_of_list_fmap in Hs as ([a' sl] & E & Hin). simplify_eq/=.
        pose proof Hin as Hin'. apply Hr2 in Hin'. destruct (shA_fwd _ _ HA _ _ Hin') as [_ Hm].
        apply elem_of_list_fmap. exists (a', sl). simpl. split; [|done]. congruence.
  Qed.

  Lemma ref_String s w show : shapeS s w -> wp (String_prog show) s (post (CString show) w).
  Proof.
    intros H. start H s w. unfold String_prog. go. intros names _. apply wp_string. intros t. go.
    exists (ODone (OText t) (MkView (shown (i_map I) ds) ali lI lA)). split; [|split; [done|by split]]. simpl. eauto.
  Qed.

  Lemma ref_Search s w n q e : shapeS s w -> wp (Search_prog n q e) s (post (CSearch n q e) w).
  Proof.
    intros H. start H s w. unfold Search_prog. go.
    destruct (i_map I !! n) as [p|] eqn:En; go.
    - destruct (shJ_fwd _ _ HI _ _ En) as (_ & nm & reqs & _ & Hm).
      unfold search_tail. go. rewrite <- En, (j_search_name _ _ _ _ _ HI).
      unfold search_name. rewrite Hm. destruct (search_docs ckn tk reqs q e) as [sr|] eqn:E; go.
      + ret (ODone (OResults sr) (MkView (shown (i_map I) ds) ali lI lA)). simpl. by rewrite Hm, E.
      + exists (OPanic (MkView (shown (i_map I) ds) ali lI lA)). split; [simpl; by rewrite Hm, E|by split].
    - apply (shJ_None _ _ _ HI) in En as Hm. destruct lA; go.
      { exists OBlock. split; [|done]. simpl. by rewrite Hm. }
      destruct (a_map A !! n) as [sl|] eqn:Ea; go.
      + destruct (shA_fwd _ _ HA _ _ Ea) as [Hw Ham].
        apply wp_resolve; [done|lia|]. rewrite drop_0. go. simpl app.
        assert (search_all ((fun x => i_map I !! x) <$> a_cont A sl) q e I
                = (search_name ckn tk (shown (i_map I) ds) q e <$> a_cont A sl)) as Hall.
        { unfold search_all. rewrite <- list_fmap_compose. apply list_fmap_ext.
          intros _ x _. simpl. by apply j_search_name. }
        assert (forall l, a_cont A sl = l -> length l <> 1 ->
          wp (GoSearch ((fun x => i_map I !! x) <$> a_cont A sl) q e (fun result => RUnlock MI (Ret (RResults result))))
             (MkRepo I A (MkRW (S lI) false false) (MkRW 0 false false))
             (post (CSearch n q e) (MkW (i_map I) ds ali lI false))) as Hmany.
        { intros l Hl Hlen. go. rewrite Hall. rewrite <- Hl in Hlen.
          assert (forall o, search_many ckn tk (shown (i_map I) ds) q e (a_cont A sl) o (MkView (shown (i_map I) ds) ali lI false) ->
                            spec ckn tk (CSearch n q e) (MkView (shown (i_map I) ds) ali lI false) o) as Hsp.
          { intros o Ho. simpl. rewrite Hm, Ham. destruct (a_cont A sl) as [|? [|? ?]]; [done|simpl in Hlen; lia|done]. }
          split.
          - intros Hp. exists OCrash. split; [|done]. apply Hsp. by right.
          - intros bl bl' Hbl Hp. go. eexists. split; [apply Hsp; left; by eauto|]. split; [done|]. by split. }
        unfold search_tail.
        destruct (a_cont A sl) as [|x [|y l]] eqn:Ec; cbn [fmap list_fmap].
        * by apply (Hmany []).
        * go. rewrite (j_search_name _ _ _ _ _ HI).
          destruct (search_name ckn tk (shown (i_map I) ds) q e x) as [sr|] eqn:E; go.
          -- ret (ODone (OResults sr) (MkView (shown (i_map I) ds) ali lI false)). simpl. rewrite Hm, Ham. by rewrite E.
          -- exists (OPanic (MkView (shown (i_map I) ds) ali lI false)). split; [simpl; rewrite Hm, Ham; by rewrite E|by split].
        * by apply (Hmany (x :: y :: l)).
      + apply (shA_m_None _ _ _ HA) in Ea as Ham.
        eexists. split; [simpl; rewrite Hm, Ham; reflexivity|]. split; [done|by split].
  Qed.

Definition smatch (res : result) (o : sout) : Prop :=
  match res, o with
  | Done r s', SDone b w' => see s' r = b /\ shapeS s' w'
  | Panicked s', SPanic w' => shapeS s' w'
  | Crashed, SCrash => True
  | Blocked, SBlock => True
  | _, _ => False
  end.
Definition spost c w (res : result) : Prop := exists o, sspec give ckn tk c w o /\ smatch res o.

  Lemma ref_Put s w n d : shapeS s w -> wp (sput n d) s (spost (CPut n d) w).
  Proof.
    intros H. start H s w. unfold sput, getIndices. go.
    destruct (i_map I !! n) as [p|] eqn:En; go.
    - destruct lI as [|lI]; go.
      2:{ exists SBlock. split; [|done]. cbn. by rewrite En. }
      split.
      + intros Hin. apply elem_of_list_singleton in Hin. done.
      + intros ps' i' Hp Hi. apply Permutation_singleton_r in Hp as ->. go.
        eexists. split; [simpl; rewrite En; reflexivity|]. split; [done|].
        destruct (sputs_spec I ds d [p] i' HI Hi) as [HJ Hm]. by split.
    - destruct lA; go.
      { exists SBlock. split; [|done]. cbn. by rewrite En. }
      destruct (a_map A !! n) as [sl|] eqn:Ea; go.
      + destruct (shA_fwd _ _ HA _ _ Ea) as [Hw Ham].
        apply wp_resolve; [done|lia|]. rewrite drop_0. go.
        destruct lI as [|lI]; go.
        2:{ exists SBlock. split; [|done]. cbn. by rewrite En. }
        simpl app. split.
        * intros Hin. exists SCrash. split; [|done]. simpl. rewrite En, Ham. simpl.
          rewrite decide_True; [done|]. apply Exists_exists.
          apply elem_of_list_fmap in Hin as (x & Hx & Hin). by exists x.
        * intros ps' i' Hp Hi. go.
          assert (exists ps, ps' = Some <$> ps) as [ps ->].
          { apply puts_all_some in Hi. clear -Hi. induction Hi as [|x l [p ->] _ [ps ->]]; [by exists []|by exists (p :: ps)]. }
          assert (Hx : Forall is_Some ((fun x => i_map I !! x) <$> a_cont A sl)).
          { rewrite <- Hp. apply Forall_fmap, Forall_true. by eexists. }
          rewrite Forall_fmap in Hx.
          assert (Ho : ps ≡ₚ omap (fun x => i_map I !! x) (a_cont A sl)).
          { assert (E1 : forall l : list nat, omap id (Some <$> l) = l).
            { induction l as [|x l IH]; [done|]. cbn. f_equal. exact IH. }
            rewrite <- (E1 ps), Hp. clear. generalize (a_cont A sl). intros l.
            induction l as [|x l IH]; [done|]. simpl. destruct (i_map I !! x); simpl; by rewrite IH. }
          destruct (sputs_spec I ds d ps i' HI Hi) as [HJ Hm]. rewrite (add_to_perm _ _ _ _ Ho) in HJ.
          eexists. split; [simpl; rewrite En, Ham; simpl; rewrite decide_False; [reflexivity|]|split; [done|by split]].
          intros (x & Hin & Hn)%Exists_exists. rewrite Forall_forall in Hx. apply Hx in Hin. simpl in Hin.
          rewrite Hn in Hin. by destruct Hin.
      + apply (shA_m_None _ _ _ HA) in Ea as Ham. destruct lI as [|lI]; go.
        2:{ exists SBlock. split; [|done]. cbn. by rewrite En. }
        destruct (give n) as [p|] eqn:Eg; go.
        * eexists. split; [simpl; rewrite En, Ham; simpl; rewrite Eg; reflexivity|]. split; [done|]. split; [|done..]. cbn.
          apply shJ_put, shJ_set; [done|by eapply (shJ_give _ _ HI)].
        * eexists. split; [simpl; rewrite En, Ham; simpl; rewrite Eg; reflexivity|]. split; [done|]. split; [|done..|].
          -- cbn. by apply shJ_new.
          -- cbn. by rewrite (shJ_len _ _ HI).
  Qed.

  Definition is_put (c : call) : Prop := match c with CPut _ _ => True | _ => False end.

  Lemma wp_mono p s (P Q : result -> Prop) : (forall r, P r -> Q r) -> wp p s P -> wp p s Q.
  Proof.
    intros H. revert s. induction p; intros st; cbn [wp]; eauto; try (by repeat case_match; eauto).
    - intros [H1 H2]. split; eauto.
    - intros [H1 H2]. split; eauto.
  Qed.

  Lemma post_spost c w res : ~ is_put c -> post c w res -> spost c w res.
  Proof.
    intros Hc (o & Ho & Hm). unfold spost.
    exists (match o with
            | ODone b v => SDone b (next_world c w b v)
            | OPanic v => SPanic (next_world c w OUnit v)
            | OCrash => SCrash
            | OBlock => SBlock
            end). split.
    - destruct c; try (by destruct (Hc I)); exists o; split; try done.
    - destruct res, o; try done.
  Qed.

  Theorem ref_scall c s w : shapeS s w -> wp (share give (prog_of c)) s (spost c w).
  Proof.
    intros H. assert (is_put c \/ ~ is_put c) as [Hp|Hp] by (destruct c; simpl; tauto).
    - destruct c; try done. cbn [prog_of]. eapply wp_peq; [apply put_speq|]. by apply ref_Put.
    - eapply wp_mono; [intros r; by apply post_spost|].
      destruct c; try (by destruct (Hp I)); try (eapply wp_peq; [by apply textless_speq|]; simpl prog_of).
      + by apply ref_List. + by apply ref_ListAliases. + by apply ref_Has. + by apply ref_HasAlias.
      + by apply ref_Alias. + by apply ref_UnAlias.
      + cbn [prog_of]. eapply wp_peq; [apply search_speq|]. by apply ref_Search.
      + by apply ref_Rename. + by apply ref_Drop. + by apply ref_String.
  Qed.

  Theorem scall_refines c s w res :
    shapeS s w -> shared_result give c s res -> exists o, sspec give ckn tk c w o /\ smatch res o.
  Proof. intros H Hc. exact (wp_sound _ s (spost c w) _ (ref_scall c s w H) Hc). Qed.

  Lemma scall_total c s : exists res, shared_result give c s res.
  Proof. apply (acc_outcome (TRun (share give (prog_of c)), s)), run_acc. Qed.

  Lemma shapeS_new pool : gives give pool -> shapeS (pooled ckn tk pool) (new_world pool).
  Proof.
    intros Hg. split; [|split|done..]; simpl; try done; [|intros; try lia; rewrite lookup_empty in *; done..].
    split; simpl; try done.
    - by rewrite fmap_length.
    - intros n p Hn. rewrite fmap_length. by eapply Hg.
    - intros p reqs Hp. rewrite lookup_map_seq_0, list_lookup_fmap. apply list_lookup_fmap_inv in Hp as ([nm rs] & -> & ->).
      by exists nm.
  Qed.

  Lemma sspec_det_done c w b w1 w2 :
    sspec give ckn tk c w (SDone b w1) -> sspec give ckn tk c w (SDone b w2) -> w1 = w2.
  Proof.
    assert (is_put c \/ ~ is_put c) as [Hp|Hp] by (destruct c; simpl; tauto).
    - destruct c; try done. cbn [sspec]. intros H1 H2. repeat case_match; simplify_eq; done.
    - assert (forall w', sspec give ckn tk c w (SDone b w') -> exists v, spec ckn tk c (seen w) (ODone b v) /\ w' = next_world c w b v) as Hx.
      { intros w' Hs. assert (exists o', spec ckn tk c (seen w) o' /\ SDone b w' = match o' with
            | ODone b v => SDone b (next_world c w b v)
            | OPanic v => SPanic (next_world c w OUnit v)
            | OCrash => SCrash
            | OBlock => SBlock
            end) as (o' & Ho & E) by (destruct c; try (by destruct (Hp I)); exact Hs).
        destruct o'; simplify_eq. eauto. }
      intros (v1 & H1 & ->)%Hx (v2 & H2 & ->)%Hx. by rewrite (spec_det_done _ _ _ _ _ _ _ _ H1 H2).
  Qed.
  Lemma sspec_det_panic c w w1 w2 :
    sspec give ckn tk c w (SPanic w1) -> sspec give ckn tk c w (SPanic w2) -> w1 = w2.
  Proof.
    assert (is_put c \/ ~ is_put c) as [Hp|Hp] by (destruct c; simpl; tauto).
    - destruct c; try done. cbn [sspec]. intros H1 H2. repeat case_match; simplify_eq; done.
    - assert (forall w', sspec give ckn tk c w (SPanic w') -> exists v, spec ckn tk c (seen w) (OPanic v) /\ w' = next_world c w OUnit v) as Hx.
      { intros w' Hs. assert (exists o', spec ckn tk c (seen w) o' /\ SPanic w' = match o' with
            | ODone b v => SDone b (next_world c w b v)
            | OPanic v => SPanic (next_world c w OUnit v)
            | OCrash => SCrash
            | OBlock => SBlock
            end) as (o' & Ho & E) by (destruct c; try (by destruct (Hp I)); exact Hs).
        destruct o'; simplify_eq. eauto. }
      intros (v1 & H1 & ->)%Hx (v2 & H2 & ->)%Hx. by rewrite (spec_det_panic _ _ _ _ _ _ H1 H2).
  Qed.

  Lemma sreach_shape s w : sreach give ckn tk s w -> shapeS s w.
  Proof.
    induction 1 as [pool Hg|s w c r s' w' Hr IH Hc Hs|s w c s' w' Hr IH Hc Hs].
    - by apply shapeS_new.
    - destruct (scall_refines c s w _ IH Hc) as (o & Ho & Hm). destruct o; try done.
      destruct Hm as [<- Hsh]. by rewrite (sspec_det_done _ _ _ _ _ Hs Ho).
    - destruct (scall_refines c s w _ IH Hc) as (o & Ho & Hm). destruct o; try done.
      simpl in Hm. by rewrite (sspec_det_panic _ _ _ _ Hs Ho).
  Qed.

  (** ** Concurrent calls *)
  Lemma disc_share md L g h p : disc md L g h p -> disc md L g h (share give p).
  Proof. revert g h. induction p; intros g h; simpl; try done; try naive_solver. destruct (give n); simpl; naive_solver. Qed.

  Lemma spool_start md cs s :
    r_imu s = rw_free -> r_amu s = rw_free -> Forall (allowed md) cs ->
    pool_inv md (leaks_of cs) (replicate (length cs) (true, none_held)) (sstart give cs) s.
  Proof.
    intros E1 E2 Hc. split.
    - unfold sstart. by rewrite fmap_length, replicate_length.
    - intros i t g h Hi Hg. apply lookup_replicate in Hg as [? _]. simplify_eq. split; [|by left].
      unfold sstart in Hi. apply list_lookup_fmap_inv in Hi as (c & -> & Hi). simpl. apply disc_share.
      eapply disc_leak; [|apply disc_call; by eapply Forall_lookup_1]. intros r Hr. by exists c.
    - intros m. rewrite fmap_replicate. replace (get_h m _) with HN by (by destruct m).
      replace (get_mu m s) with rw_free by (by destruct m).
      split; simpl; rewrite ?cnt_replicate by done; done || lia.
  Qed.

  Lemma spool_reach md cs s p :
    r_imu s = rw_free -> r_amu s = rw_free -> Forall (allowed md) cs ->
    rtc pstep (Pool (sstart give cs) s) p ->
    match p with Pool ts s' => exists gh, pool_inv md (leaks_of cs) gh ts s' | PCrashed => True end.
  Proof.
    intros E1 E2 Hc Hp.
    refine (rtc_ind_r (R := pstep) (fun p => match p with Pool ts s' => exists gh, pool_inv md (leaks_of cs) gh ts s' | PCrashed => True end)
      (Pool (sstart give cs) s) _ _ p Hp).
    - eexists. by apply spool_start.
    - intros y z _ Hs IH. inversion Hs; simplify_eq; [|done]. destruct IH as [gh IH].
      by eapply pool_inv_step.
  Qed.
End shared.
