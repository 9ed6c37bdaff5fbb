(** * Proofs about panicking tokenizers and builders. *)
From Coq Require Import Lia.
From stdpp Require Import gmap list.
From Verif Require Import Entities Search SpecSearch Repo Sem RepoWp SpecRepo ProofRepo ProofTotal Fault SpecFault.
Open Scope nat_scope.

(** ** Programs equal up to pointwise equality of continuations *)
Inductive peq : prog -> prog -> Prop :=
| Q_Ret r : peq (Ret r) (Ret r)
| Q_Throw : peq Throw Throw
| Q_RLock m k k' : peq k k' -> peq (RLock m k) (RLock m k')
| Q_RUnlock m k k' : peq k k' -> peq (RUnlock m k) (RUnlock m k')
| Q_Lock m k k' : peq k k' -> peq (Lock m k) (Lock m k')
| Q_Unlock m k k' : peq k k' -> peq (Unlock m k) (Unlock m k')
| Q_GetIndex n k k' : (forall x, peq (k x) (k' x)) -> peq (GetIndex n k) (GetIndex n k')
| Q_SetIndex n p k k' : peq k k' -> peq (SetIndex n p k) (SetIndex n p k')
| Q_DelIndex n k k' : peq k k' -> peq (DelIndex n k) (DelIndex n k')
| Q_RangeIndices k k' : (forall x, peq (k x) (k' x)) -> peq (RangeIndices k) (RangeIndices k')
| Q_GetAlias n k k' : (forall x, peq (k x) (k' x)) -> peq (GetAlias n k) (GetAlias n k')
| Q_SetAlias n p k k' : peq k k' -> peq (SetAlias n p k) (SetAlias n p k')
| Q_DelAlias n k k' : peq k k' -> peq (DelAlias n k) (DelAlias n k')
| Q_RangeAliases k k' : (forall x, peq (k x) (k' x)) -> peq (RangeAliases k) (RangeAliases k')
| Q_LoadElem s i k k' : (forall x, peq (k x) (k' x)) -> peq (LoadElem s i k) (LoadElem s i k')
| Q_StoreElem s i v k k' : peq k k' -> peq (StoreElem s i v k) (StoreElem s i v k')
| Q_Append s v k k' : (forall x, peq (k x) (k' x)) -> peq (Append s v k) (Append s v k')
| Q_MakeSlice l k k' : (forall x, peq (k x) (k' x)) -> peq (MakeSlice l k) (MakeSlice l k')
| Q_NewIndex n k k' : (forall x, peq (k x) (k' x)) -> peq (NewIndex n k) (NewIndex n k')
| Q_IdxPut p d k k' : peq k k' -> peq (IdxPut p d k) (IdxPut p d k')
| Q_IdxSearch p q e k k' kp kp' :
    (forall x, peq (k x) (k' x)) -> peq kp kp' -> peq (IdxSearch p q e k kp) (IdxSearch p q e k' kp')
| Q_IdxRead p k k' : (forall x, peq (k x) (k' x)) -> peq (IdxRead p k) (IdxRead p k')
| Q_GoPut ps d k k' : peq k k' -> peq (GoPut ps d k) (GoPut ps d k')
| Q_GoSearch ps q e k k' : (forall x, peq (k x) (k' x)) -> peq (GoSearch ps q e k) (GoSearch ps q e k').

Lemma wp_peq p p' s Q : peq p p' -> wp p' s Q -> wp p s Q.
Proof.
  intros Hp. revert s. induction Hp; intros st Hw; cbn [wp] in *; eauto; try (by repeat case_match; eauto).
  - destruct Hw as [H1 H2]. split; [done|]. eauto.
  - destruct Hw as [H1 H2]. split; [done|]. eauto.
Qed.

Ltac pq := repeat first [apply Q_Ret|apply Q_Throw|progress (constructor; intros)].

Lemma scan_peq f s i n index k k' :
  (forall b, peq (faulty f (k b)) (k' b)) -> peq (faulty f (scan_loop s i n index k)) (scan_loop s i n index k').
Proof.
  intros H. revert i. induction n as [|n IH]; intros i; simpl; [done|]. constructor. intros x. case_decide; [done|apply IH].
Qed.
Lemma filter_peq f s i n index acc k k' :
  (forall x, peq (faulty f (k x)) (k' x)) -> peq (faulty f (filter_loop s i n index acc k)) (filter_loop s i n index acc k').
Proof.
  intros H. revert i acc. induction n as [|n IH]; intros i acc; simpl; [done|]. constructor. intros x.
  case_decide; [apply IH|]. simpl. constructor. intros. apply IH.
Qed.
Lemma rename_elems_peq f s i n old new k k' :
  peq (faulty f k) k' -> peq (faulty f (rename_elems s i n old new k)) (rename_elems s i n old new k').
Proof.
  intros H. revert i. induction n as [|n IH]; intros i; simpl; [done|]. constructor. intros x.
  case_decide; [simpl; constructor|]; apply IH.
Qed.
Lemma rename_loop_peq f l old new k k' :
  peq (faulty f k) k' -> peq (faulty f (rename_loop l old new k)) (rename_loop l old new k').
Proof.
  intros H. induction l as [|a l IH]; simpl; [done|]. constructor. intros [x|]; [|apply IH]. by apply rename_elems_peq.
Qed.
Lemma resolve_peq f s i n acc k k' :
  (forall x, peq (faulty f (k x)) (k' x)) -> peq (faulty f (resolve_loop s i n acc k)) (resolve_loop s i n acc k').
Proof.
  intros H. revert i acc. induction n as [|n IH]; intros i acc; simpl; [done|]. constructor. intros x.
  constructor. intros. apply IH.
Qed.
Lemma drop_peq f l n k k' :
  peq (faulty f k) k' -> peq (faulty f (drop_loop l n k)) (drop_loop l n k').
Proof.
  intros H. induction l as [|a l IH]; simpl; [done|]. constructor. intros [x|]; [|apply IH].
  apply filter_peq. intros y. case_decide; [simpl; by constructor|]. case_decide; [done|]. simpl. by constructor.
Qed.
Lemma rows_peq f l acc k k' :
  (forall x, peq (faulty f (k x)) (k' x)) -> peq (faulty f (rows_loop l acc k)) (rows_loop l acc k').
Proof.
  intros H. revert acc. induction l as [|a l IH]; intros acc; simpl; [done|]. constructor. intros [x|]; apply IH.
Qed.
Lemma string_peq f show l acc k k' :
  (forall x, peq (faulty f (k x)) (k' x)) -> peq (faulty f (string_loop show l acc k)) (string_loop show l acc k').
Proof.
  intros H. revert acc. induction l as [|a l IH]; intros acc; simpl; [done|]. constructor. intros x. constructor. intros [y|]; apply IH.
Qed.

(** The calls without a text of the caller's are not affected. *)
Definition textless (c : call) : Prop :=
  match c with CPut _ _ | CSearch _ _ _ => False | _ => True end.

Lemma textless_peq f c : textless c -> peq (faulty f (prog_of c)) (prog_of c).
Proof.
  destruct c; intros H; try done; cbn [prog_of].
  - unfold List_prog. cbn [faulty]. pq.
  - unfold ListAliases_prog. cbn [faulty]. constructor. constructor. intros l. apply rows_peq. intros x. cbn [faulty]. pq.
  - unfold Has_prog. cbn [faulty]. pq.
  - unfold HasAlias_prog. cbn [faulty]. pq.
  - unfold Alias_prog. cbn [faulty]. constructor. constructor. intros [p|]; cbn [faulty]; [|pq].
    constructor. constructor. intros [sl|]; cbn [faulty]; [|pq]. apply scan_peq. intros [|]; cbn [faulty]; pq.
  - unfold UnAlias_prog. destruct (decide (index = "")); cbn [faulty]; [pq|].
    constructor. constructor. intros [p|]; cbn [faulty]; [|pq]. do 3 constructor. intros [sl|]; cbn [faulty]; [|pq].
    apply filter_peq. intros x. case_decide; cbn [faulty]; pq.
  - unfold Rename_prog. cbn [faulty]. do 2 constructor. intros [p|]; cbn [faulty]; [|pq]. do 3 constructor. intros l.
    apply rename_loop_peq. cbn [faulty]. pq.
  - unfold Drop_prog. cbn [faulty]. do 2 constructor. intros [p|]; cbn [faulty]; [|pq]. do 4 constructor. intros l.
    apply drop_peq. cbn [faulty]. pq.
  - unfold String_prog. cbn [faulty]. do 2 constructor. intros l. apply string_peq. intros x. cbn [faulty]. pq.
Qed.

Lemma search_peq f n q e : peq (faulty f (Search_prog n q e)) (Search_prog n q (f_engine f q e)).
Proof.
  assert (Ht : forall ps, peq (faulty f (search_tail ps q e)) (search_tail ps q (f_engine f q e))).
  { intros [|p [|p' ps]]; cbn [search_tail faulty]; pq. }
  unfold Search_prog. cbn [faulty]. do 2 constructor. intros [p|]; [apply Ht|]. cbn [faulty]. do 2 constructor.
  intros [sl|]; cbn [faulty]; [|pq]. apply resolve_peq. intros x. cbn [faulty]. constructor. apply Ht.
Qed.

(** What Put becomes. *)
Definition fput (f : fault) (n : string) (d : DocRequest) : prog :=
  getIndices n (fun r =>
  Lock MI (
  match r with
  | None =>
      if f_build f n then Throw
      else NewIndex n (fun p => SetIndex n p (
           if f_text f (req_statement d) then Throw else IdxPut p d (Unlock MI (Ret RUnit))))
  | Some indices =>
      GoPut (if f_text f (req_statement d) then match indices with [] => [] | _ => [None] end else indices) d
        (Unlock MI (Ret RUnit))
  end)).

Lemma put_peq f n d : peq (faulty f (Put_prog n d)) (fput f n d).
Proof.
  unfold Put_prog, fput, getIndices. cbn [faulty]. do 2 constructor. intros [p|]; cbn [faulty]; [pq|].
  do 2 constructor. intros [sl|]; cbn [faulty].
  - apply resolve_peq. intros x. cbn [faulty]. pq.
  - constructor. constructor. constructor. destruct (f_build f n); [constructor|]. constructor. intros p. constructor.
    destruct (f_text f _); pq.
Qed.

(** ** The invariant *)
Record fshape (ckn : bool) (tk : Tokenizer) (s : repo) (v : view) (dead : bool) : Prop := {
  fs_I : shI ckn tk (r_I s) (v_idx v);
  fs_A : shA (r_A s) (v_ali v);
  fs_imu : r_imu s = MkRW (v_leakI v) false dead;
  fs_amu : r_amu s = MkRW 0 false (v_leakA v) }.

Lemma fshape_alive ckn tk s v : fshape ckn tk s v false <-> shape ckn tk s v.
Proof. split; intros []; by split. Qed.

Definition fmatch ckn tk (res : result) (o : out) (b : bool) : Prop :=
  match res, o with
  | Done r s', ODone x v' => see s' r = x /\ fshape ckn tk s' v' b
  | Panicked s', OPanic v' => fshape ckn tk s' v' b
  | Crashed, OCrash => True
  | Blocked, OBlock => True
  | _, _ => False
  end.
Definition fpost f ckn tk c v b (res : result) : Prop :=
  exists o b', fspec f ckn tk c v b o b' /\ fmatch ckn tk res o b'.

Lemma shI_new_empty ckn tk i m n :
  shI ckn tk i m -> shI ckn tk (i_set n (i_next i) (i_new n i)) (<[n := []]> m).
Proof.
  intros H. split; simpl; [apply H|apply H|..].
  - intros n1 n2 p H1 H2.
    apply lookup_insert_Some in H1 as [(<- & <-)|[Hne1 H1]];
    apply lookup_insert_Some in H2 as [(<- & Hp)|[Hne2 H2]]; try done.
    + apply H in H2 as [? _]. lia.
    + subst p. apply H in H1 as [? _]. lia.
    + by eapply H.
  - intros n' p' Hp'. apply lookup_insert_Some in Hp' as [(<- & <-)|[Hne Hp']].
    + split; [lia|]. exists n, []. rewrite !lookup_insert. rewrite (shI_builder _ _ _ _ H). done.
    + destruct (shI_fwd _ _ _ _ H _ _ Hp') as (Hlt & nm & reqs & Hh & Hm). split; [lia|].
      exists nm, reqs. rewrite !lookup_insert_ne by (done || lia). done.
  - intros n' Hn'. apply lookup_insert_None in Hn' as [Hn' Hne]. rewrite lookup_insert_ne by done. by apply H.
Qed.

Section faults.
  Context (f : fault) (ckn : bool) (tk : Tokenizer).

  Ltac go := cbn [wp get_mu set_mu set_I set_A r_I r_A r_imu r_amu rw_readers rw_pending rw_writer orb].

  Lemma post_fpost c v res :
    (forall o, spec ckn tk c v o -> fspec f ckn tk c v false o false) ->
    post ckn tk c v res -> fpost f ckn tk c v false res.
  Proof.
    intros H (o & Ho & Hm). exists o, false. split; [by apply H|].
    destruct res, o; simpl in *; try done; [destruct Hm; split; [done|]|]; by apply fshape_alive.
  Qed.

  Lemma ref_fput s v n d : fshape ckn tk s v false -> wp (fput f n d) s (fpost f ckn tk (CPut n d) v false).
  Proof.
    intros H%fshape_alive.
    destruct (f_text f (req_statement d)) eqn:Et.
    2: destruct (f_build f n) eqn:Eb.
    3: { (* no fault *)
      eapply wp_mono; [apply (wp_peq _ (Put_prog n d)); [|by apply ref_Put]|].
      - unfold fput, Put_prog. rewrite Et, Eb. unfold getIndices. do 2 constructor. intros [p|]; [pq|]. do 2 constructor.
        intros [sl|]; [|pq]. generalize (@nil (option ptr)). generalize 0. generalize (sl_len sl).
        intros k. induction k as [|k IH]; intros i l; simpl; [pq|]. constructor. intros x. constructor. intros. apply IH.
      - intros res. apply post_fpost. intros o. cbn [fspec]. rewrite Et, Eb. cbn [spec].
        destruct (v_idx v !! n) eqn:E1; [by destruct (decide (v_leakI v <> 0))|].
        destruct (v_leakA v) eqn:EA; [done|]. destruct (decide (v_leakI v <> 0)); [done|].
        destruct (v_ali v !! n) as [[|x l]|]; [|done|done].
        rewrite decide_False by (intros HE; by inversion HE). cbn [put_each foldr]. intros ->. split; [|done].
        destruct v; simpl in *; by subst. }
    all: destruct s as [I A im am], v as [idx ali lI lA], H as [HI HA E1 E2];
      cbn [v_idx v_ali v_leakI v_leakA r_I r_A r_imu r_amu] in *; subst im am;
      unfold fput, getIndices; rewrite Et; go;
      (destruct (i_map I !! n) as [p|] eqn:En; go;
      [destruct (shI_fwd _ _ _ _ HI _ _ En) as (_ & nm & reqs & _ & Hm)
      |apply (shI_None _ _ _ _ _ HI) in En as Hm]).
    - (* bad text, index *)
      destruct lI as [|lI]; go.
      2:{ exists OBlock, false. split; [|done]. cbn [fspec v_idx v_leakI]. rewrite Hm. done. }
      split.
      + intros _. exists OCrash, false. split; [|done]. cbn [fspec v_idx v_leakI]. rewrite Hm, Et. done.
      + intros ps' i' Hp Hi. apply Permutation_singleton_r in Hp as ->. done.
    - destruct lA; go.
      { exists OBlock, false. split; [|done]. cbn [fspec v_idx v_leakI v_leakA]. by rewrite Hm. }
      destruct (a_map A !! n) as [sl|] eqn:Ea; go.
      + destruct (shA_fwd _ _ HA _ _ Ea) as [Hw Ham].
        apply wp_resolve; [done|lia|]. rewrite drop_0. go.
        destruct lI as [|lI]; go.
        2:{ exists OBlock, false. split; [|done]. cbn [fspec v_idx v_leakI v_leakA]. by rewrite Hm. }
        simpl app. destruct (a_cont A sl) as [|x l] eqn:Ec; cbn [fmap list_fmap].
        * split; [intros Hin; by apply elem_of_nil in Hin|]. intros ps' i' Hp Hi. apply Permutation_nil_r in Hp as ->.
          injection Hi as <-. go. eexists _, false. split; [cbn [fspec v_idx v_leakI v_leakA v_ali]; rewrite Hm, Ham; by split|].
          split; [done|]. by split.
        * split.
          -- intros _. exists OCrash, false. split; [|done]. cbn [fspec v_idx v_leakI v_leakA v_ali]. by rewrite Hm, Ham, Et.
          -- intros ps' i' Hp Hi. apply Permutation_singleton_r in Hp as ->. done.
      + apply (shA_m_None _ _ _ HA) in Ea as Ham. destruct lI as [|lI]; go.
        2:{ exists OBlock, false. split; [|done]. cbn [fspec v_idx v_leakI v_leakA]. by rewrite Hm. }
        destruct (f_build f n) eqn:Eb; go.
        * eexists _, true. split; [cbn [fspec v_idx v_leakI v_leakA v_ali]; rewrite Hm, Ham, Eb; by split|]. by split.
        * eexists _, true. split; [cbn [fspec v_idx v_leakI v_leakA v_ali]; rewrite Hm, Ham, Eb, Et; by split|].
          split; [|done..]. cbn. by apply shI_new_empty.
    - (* bad name, index *)
      destruct lI as [|lI]; go.
      2:{ exists OBlock, false. split; [|done]. cbn [fspec v_idx v_leakI]. rewrite Hm. done. }
      split; [intros Hin; by apply elem_of_list_singleton in Hin|].
      intros ps' i' Hp Hi. apply Permutation_singleton_r in Hp as ->. go.
      eexists _, false. split; [cbn [fspec v_idx v_leakI]; rewrite Hm, Et; cbn [spec v_idx]; rewrite Hm; split; reflexivity|].
      split; [done|]. split; [|done..]. cbn. apply (puts_spec ckn tk I idx d [n]); [done| |simpl; by rewrite En].
      intros x ->%elem_of_list_singleton. eauto.
    - destruct lA; go.
      { exists OBlock, false. split; [|done]. cbn [fspec v_idx v_leakI v_leakA]. by rewrite Hm. }
      destruct (a_map A !! n) as [sl|] eqn:Ea; go.
      + destruct (shA_fwd _ _ HA _ _ Ea) as [Hw Ham].
        apply wp_resolve; [done|lia|]. rewrite drop_0. go.
        destruct lI as [|lI]; go.
        2:{ exists OBlock, false. split; [|done]. cbn [fspec v_idx v_leakI v_leakA]. by rewrite Hm. }
        simpl app.
        assert (Hsp : forall o, spec ckn tk (CPut n d) (MkView idx ali 0 false) o ->
                  fspec f ckn tk (CPut n d) (MkView idx ali 0 false) false o false).
        { intros o Ho. cbn [fspec v_idx v_leakI v_leakA v_ali]. rewrite Hm, Ham, Et. destruct (a_cont A sl) eqn:Ec; [|done].
          cbn [spec v_idx v_leakI v_leakA v_ali] in Ho. rewrite Hm, Ham in Ho.
          rewrite decide_False in Ho by (intros E; by apply E). rewrite decide_False in Ho by (intros HE; by inversion HE). done. }
        split.
        * intros Hin. exists OCrash, false. split; [|done]. apply Hsp. simpl. rewrite Hm, Ham. simpl.
          rewrite decide_True; [done|]. apply Exists_exists.
          apply elem_of_list_fmap in Hin as (x & Hx & Hin). exists x. split; [done|].
          by apply (shI_None _ _ _ _ _ HI).
        * intros ps' i' Hp Hi. go.
          assert (exists l', ps' = ((fun x => i_map I !! x) <$> l') /\ a_cont A sl ≡ₚ l') as (l' & -> & Hl').
          { destruct (Permutation_map_inv _ _ Hp) as (l' & -> & Hl'). eauto. }
          assert (forall x, x ∈ a_cont A sl -> is_Some (i_map I !! x)) as Hall.
          { assert (forall x, x ∈ l' -> is_Some (i_map I !! x)) as Hx.
            { intros x Hx. apply puts_all_some in Hi. rewrite Forall_fmap, Forall_forall in Hi. by apply Hi. }
            intros x. rewrite Hl'. apply Hx. }
          eexists _, false. split; [apply Hsp; simpl; rewrite Hm, Ham; simpl; rewrite decide_False; [reflexivity|]|].
          -- intros (x & Hx & Hn)%Exists_exists. apply Hall in Hx. apply (shI_None _ _ _ _ _ HI) in Hn.
             rewrite Hn in Hx. by destruct Hx.
          -- split; [done|]. split; [|done..]. cbn. rewrite (put_each_perm _ _ _ _ Hl').
             apply (puts_spec ckn tk I idx d l'); [done| |done].
             intros x Hx. apply Hall. by rewrite Hl'.
      + apply (shA_m_None _ _ _ HA) in Ea as Ham. destruct lI as [|lI]; go.
        2:{ exists OBlock, false. split; [|done]. cbn [fspec v_idx v_leakI v_leakA]. by rewrite Hm. }
        rewrite Eb. go.
        eexists _, true. split; [cbn [fspec v_idx v_leakI v_leakA v_ali]; rewrite Hm, Ham, Eb; by split|]. by split.
  Qed.

  Lemma boom_many idx q l o v :
    l <> [] -> search_many ckn tk idx q boom l o v -> o = OCrash.
  Proof.
    intros Hl [(bl & bl' & H1 & H2 & H3)|[_ ->]]; [|done]. exfalso.
    destruct l as [|x l]; [done|]. destruct bl as [|b bl]; [done|]. simpl in H1. injection H1 as H1 _.
    unfold search_name in H1. by destruct (idx !! x).
  Qed.

  Lemma ref_fsearch s v n q e :
    fshape ckn tk s v false -> wp (faulty f (Search_prog n q e)) s (fpost f ckn tk (CSearch n q e) v false).
  Proof.
    intros H%fshape_alive. eapply wp_peq; [apply search_peq|].
    eapply wp_mono; [by apply (ref_Search ckn tk)|]. intros res (o & Ho & Hm).
    exists o, false. split.
    2:{ destruct res, o; simpl in *; try done; [destruct Hm; split; [done|]|]; by apply fshape_alive. }
    cbn [fspec]. split; [done|]. unfold f_engine in Ho. destruct (f_text f q); [|done]. cbn [spec] in Ho |- *.
    destruct (v_idx v !! n); [by simpl in Ho|]. destruct (v_leakA v); [done|].
    destruct (v_ali v !! n) as [[|x [|y l]]|]; try done.
    - destruct Ho as [(bl & bl' & H1 & H2 & H3)|[Hin _]]; [|by apply elem_of_nil in Hin].
      destruct bl; [|done]. apply Permutation_nil_r in H2 as ->. done.
    - unfold search_name in Ho. by destruct (v_idx v !! x).
    - eapply boom_many; [|exact Ho]; done.
  Qed.

  (** With the index table locked. *)
  Lemma ref_dead c s v : fshape ckn tk s v true -> wp (faulty f (prog_of c)) s (fpost f ckn tk c v true).
  Proof.
    intros [HI HA E1 E2]. destruct s as [I A im am], v as [idx ali lI lA].
    cbn [v_idx v_ali v_leakI v_leakA r_I r_A r_imu r_amu] in *. subst im am.
    assert (Hb : ~ alias_only c -> fpost f ckn tk c (MkView idx ali lI lA) true Blocked).
    { intros Hc. exists OBlock, true. cbn [fspec]. rewrite decide_False by done. done. }
    destruct c; try (cbn [prog_of]; unfold List_prog, Has_prog, Alias_prog, Put_prog, getIndices, Search_prog, Rename_prog, Drop_prog, String_prog;
      cbn [faulty]; go; apply Hb; by intros []).
    - cbn [prog_of]. eapply wp_peq; [by apply (textless_peq f CListAliases)|]. cbn [prog_of].
      unfold ListAliases_prog. go. destruct lA; go; [by exists OBlock, true|].
      intros names Hn. eapply wp_rows; [exact HA| |].
      { intros a Ha. by eapply keys_elem in Ha. }
      intros rows Hr1 Hr2. go.
      exists (ODone (ORows (map (fun row => (row.1, a_cont A row.2)) rows)) (MkView idx ali lI false)), true.
      split; [|split; [done|by split]]. cbn [fspec]. split; [done|]. rewrite decide_True by done. simpl. eexists. split; [|reflexivity].
      apply NoDup_Permutation.
      + apply (NoDup_fmap_1 fst). rewrite <- list_fmap_compose. simpl.
        change (NoDup (fst <$> rows)). rewrite Hr1. by eapply keys_nodup.
      + apply NoDup_map_to_list.
      + intros [a l]. rewrite elem_of_map_to_list. split.
        * intros Hin. apply elem_of_list_fmap in Hin as ([a' sl] & E & Hin). simplify_eq/=.
          apply Hr2 in Hin. by apply (shA_fwd _ _ HA).
        * intros Ha. assert (is_Some (a_map A !! a)) as Hs by (eapply shA_is_Some; eauto).
          rewrite <- (keys_elem _ _ _ Hn), <- Hr1 in Hs.
          apply elem_of_list_fmap in Hs as ([a' sl] & E & Hin). simplify_eq/=.
          pose proof Hin as Hin'. apply Hr2 in Hin'. destruct (shA_fwd _ _ HA _ _ Hin') as [_ Hm].
          apply elem_of_list_fmap. exists (a', sl). simpl. split; [|done]. congruence.
    - cbn [prog_of]. unfold HasAlias_prog. cbn [faulty]. go. destruct lA; go.
      + by exists OBlock, true.
      + eexists _, true. split; [cbn [fspec]; split; [done|]; rewrite decide_True by done; reflexivity|]. split; [|by split]. simpl. f_equal.
        apply bool_decide_ext. by eapply shA_is_Some.
    - cbn [prog_of]. unfold UnAlias_prog. destruct (decide (index = ""%string)) as [->|Hi]; cbn [faulty]; go.
      2:{ apply Hb. done. }
      destruct lA; go; [by exists OBlock, true|].
      eexists _, true. split; [cbn [fspec]; split; [done|]; rewrite decide_True by done; reflexivity|]. split; [|split; [done| |done..]].
      + simpl. f_equal. apply bool_decide_ext. by eapply shA_is_Some.
      + cbn. by apply shA_del.
  Qed.

  Lemma ref_fcall c s v b : fshape ckn tk s v b -> wp (faulty f (prog_of c)) s (fpost f ckn tk c v b).
  Proof.
    destruct b; [apply ref_dead|]. intros H.
    assert (Ht : textless c -> wp (faulty f (prog_of c)) s (fpost f ckn tk c v false)).
    { intros Hc. eapply wp_peq; [by apply textless_peq|]. apply fshape_alive in H.
      eapply wp_mono; [by apply (ref_call ckn tk)|]. intros res. apply post_fpost. intros o Ho. by destruct c. }
    destruct c; try (by apply Ht).
    - eapply wp_peq; [apply put_peq|by apply ref_fput].
    - by apply ref_fsearch.
  Qed.

  Lemma fcall_refines c s v b res :
    fshape ckn tk s v b -> faulty_result f c s res -> exists o b', fspec f ckn tk c v b o b' /\ fmatch ckn tk res o b'.
  Proof. intros H Hc. refine (wp_sound _ _ (fpost f ckn tk c v b) _ _ Hc). by apply ref_fcall. Qed.

  Lemma fcall_total c s : exists res, faulty_result f c s res.
  Proof. apply (acc_outcome (TRun (faulty f (prog_of c)), s)), run_acc. Qed.

  (** The machine moves deterministically. *)
  Lemma fspec_det_done c v b o1 v1 b1 o2 v2 b2 :
    fspec f ckn tk c v b (ODone o1 v1) b1 -> fspec f ckn tk c v b (ODone o2 v2) b2 -> v1 = v2 /\ b1 = b2.
  Proof.
    destruct b; cbn [fspec].
    - intros [-> H1] [-> H2]. case_decide; [|done]. split; [by eapply spec_det_done|done].
    - assert (Hx : forall c1, b1 = false /\ spec ckn tk c1 v (ODone o1 v1) -> b2 = false /\ spec ckn tk c1 v (ODone o2 v2) -> v1 = v2 /\ b1 = b2).
      { intros c1 [-> ?] [-> ?]. split; [by eapply spec_det_done|done]. }
      destruct c; try apply Hx.
      + destruct (v_idx v !! index) eqn:E.
        * intros [-> H1] [-> H2]. case_decide; [done|]. destruct (f_text f _); [done|]. split; [by eapply spec_det_done|done].
        * destruct (v_leakA v); [by intros []|]. case_decide; [by intros []|].
          destruct (v_ali v !! index) as [[|x l]|] eqn:Ea.
          -- intros [? ->] [? ->]. by simplify_eq.
          -- intros [-> H1] [-> H2]. destruct (f_text f _); [done|]. split; [by eapply spec_det_done|done].
          -- destruct (f_build f _); [by intros []|]. destruct (f_text f _); [by intros []|].
             intros [H1 ->] [H2 ->]. split; [by eapply spec_det_done|done].
      + intros [-> H1] [-> H2]. split; [|done]. destruct (f_text f _); [|by eapply spec_det_done].
        destruct (v_idx v !! index) eqn:E; [done|]. destruct (v_leakA v) eqn:EA; [done|].
        destruct (v_ali v !! index) as [[|x [|y l]]|] eqn:Ea; try done; [by simplify_eq|by eapply spec_det_done].
  Qed.
  Lemma fspec_det_panic c v b v1 b1 v2 b2 :
    fspec f ckn tk c v b (OPanic v1) b1 -> fspec f ckn tk c v b (OPanic v2) b2 -> v1 = v2 /\ b1 = b2.
  Proof.
    destruct b; cbn [fspec].
    - intros [-> H1] [-> H2]. case_decide; [|done]. split; [by eapply spec_det_panic|done].
    - assert (Hx : forall c1, b1 = false /\ spec ckn tk c1 v (OPanic v1) -> b2 = false /\ spec ckn tk c1 v (OPanic v2) -> v1 = v2 /\ b1 = b2).
      { intros c1 [-> ?] [-> ?]. split; [by eapply spec_det_panic|done]. }
      destruct c; try apply Hx.
      + destruct (v_idx v !! index) eqn:E.
        * intros [-> H1] [-> H2]. case_decide; [done|]. destruct (f_text f _); [done|]. split; [by eapply spec_det_panic|done].
        * destruct (v_leakA v); [by intros []|]. case_decide; [by intros []|].
          destruct (v_ali v !! index) as [[|x l]|] eqn:Ea.
          -- intros [? ->] [? ->]. by simplify_eq.
          -- intros [-> H1] [-> H2]. destruct (f_text f _); [done|]. split; [by eapply spec_det_panic|done].
          -- destruct (f_build f _); [intros [? ->] [? ->]; by simplify_eq|].
             destruct (f_text f _); [intros [? ->] [? ->]; by simplify_eq|].
             intros [H1 ->] [H2 ->]. split; [by eapply spec_det_panic|done].
      + intros [-> H1] [-> H2]. split; [|done]. destruct (f_text f _); [|by eapply spec_det_panic].
        destruct (v_idx v !! index) eqn:E; [by simplify_eq|]. destruct (v_leakA v) eqn:EA; [done|].
        destruct (v_ali v !! index) as [[|x [|y l]]|] eqn:Ea; try done; [by simplify_eq|by eapply spec_det_panic].
  Qed.

  Lemma freach_shape s v b : freach f ckn tk s v b -> fshape ckn tk s v b.
  Proof.
    induction 1 as [|s v b c r s' v' b' Hr IH Hc Hs|s v b c s' v' b' Hr IH Hc Hs].
    - apply fshape_alive, shape_new.
    - destruct (fcall_refines c s v b _ IH Hc) as (o & b1 & Ho & Hm). destruct o; try done.
      destruct Hm as [<- Hsh]. by destruct (fspec_det_done _ _ _ _ _ _ _ _ _ Hs Ho) as [-> ->].
    - destruct (fcall_refines c s v b _ IH Hc) as (o & b1 & Ho & Hm). destruct o; try done.
      simpl in Hm. by destruct (fspec_det_panic _ _ _ _ _ _ _ Hs Ho) as [-> ->].
  Qed.
End faults.
