(** * Every section of every call is atomic. *)
From Coq Require Import Lia.
From stdpp Require Import list gmap.
From Verif Require Import Entities Search SpecSearch Repo Sem RepoWp SpecRepo ProofRepo ProofTotal
  SpecConc Locks Race ProofRace Reduce.
Open Scope nat_scope.

Lemma string_app_nil (a : string) : (a ++ "")%string = a.
Proof. induction a as [|c a IH]; [done|]. change (String c (append a "") = String c a). f_equal. exact IH. Qed.
Lemma string_app_assoc (a b c : string) : ((a ++ b) ++ c)%string = (a ++ b ++ c)%string.
Proof. induction a as [|x a IH]; [done|]. change (String x (append (append a b) c) = String x (append a (append b c))). f_equal. exact IH. Qed.

(** ** Loops *)
Section loops.
  Context {B : Type} (CM : B -> data -> Prop) (FIN : B -> prog -> data -> Prop)
    (CR : option B -> Prop) (st : bool) (WR : nat -> nat -> Prop) (lin : option B).
  Notation WP p s := (wpx CM FIN CR st WR p lin s).

  Lemma wpx_scan sl n i index k s :
    wf_slice (r_A s) sl -> i + n = sl_len sl ->
    WP (k (bool_decide (index ∈ drop i (a_cont (r_A s) sl)))) s ->
    WP (scan_loop sl i n index k) s.
  Proof.
    intros Hw. revert i. induction n as [|n IH]; intros i Hi H; simpl.
    - rewrite drop_ge in H by (rewrite cont_length by done; lia).
      by rewrite bool_decide_eq_false_2 in H by (by apply not_elem_of_nil).
    - rewrite wf_drop in H by (done || lia).
      destruct (decide _) as [E|Hne].
      + rewrite bool_decide_eq_true_2 in H; [done|]. rewrite E. left.
      + apply IH; [lia|]. erewrite bool_decide_ext; [exact H|].
        rewrite elem_of_cons. naive_solver.
  Qed.

  Lemma wpx_filter l0 sl n i index acc k s :
    wf_slice (r_A s) sl -> sl_arr sl < l0 -> 0 < l0 <= a_next (r_A s) -> i + n = sl_len sl ->
    wf_slice (r_A s) acc -> priv l0 acc -> lin = None -> (forall arr i, l0 <= arr -> WR arr i) ->
    (forall x' acc', ext l0 (r_A s) x' -> wf_slice x' acc' -> priv l0 acc' ->
       a_cont x' acc' = a_cont (r_A s) acc ++ without index (drop i (a_cont (r_A s) sl)) ->
       WP (k acc') (set_A x' s)) ->
    WP (filter_loop sl i n index acc k) s.
  Proof.
    revert i acc s. induction n as [|n IH]; intros i acc s Hw Hsl Hl Hi Hacc Hp Hlin HW H; simpl.
    - specialize (H (r_A s) acc). rewrite set_A_id in H. apply H; [apply ext_refl|done..|].
      rewrite drop_ge by (rewrite cont_length by done; lia). by rewrite app_nil_r.
    - rewrite wf_drop in H by (done || lia). unfold without in H. rewrite filter_cons in H.
      destruct (decide (a_load sl i (r_A s) = index)) as [E|Hne].
      + apply IH; [done..|lia|done|done|done|done|].
        intros x' acc' He Hw' Hp' Hc. apply H; [done..|].
        rewrite Hc. destruct (decide _); [done|]. done.
      + split; [intros Hlt; split; [done|]; apply HW; destruct Hp as [->|?]; [simpl in Hlt; lia|done]|].
        intros cap Hcap. destruct (a_append acc _ cap (r_A s)) as [x1 acc1] eqn:E. simpl.
        destruct (append_spec l0 _ _ _ _ _ _ Hacc Hp Hl Hcap E) as (He & Hw1 & Hp1 & Hc1 & _).
        apply IH; simpl.
        * by eapply ext_wf.
        * done.
        * destruct He as (_ & ? & _). lia.
        * lia.
        * done.
        * done.
        * done.
        * done.
        * intros x' acc' He' Hw' Hp' Hc. change (set_A x' (set_A x1 s)) with (set_A x' s).
          apply H; [by eapply ext_trans|done..|]. rewrite Hc, Hc1.
          destruct (decide _); [|done]. rewrite <- app_assoc. simpl.
          by rewrite (ext_cont l0 _ _ sl He) by done.
  Qed.

  Lemma wpx_resolve sl n i acc k s :
    wf_slice (r_A s) sl -> i + n = sl_len sl ->
    WP (k (acc ++ ((fun x => i_map (r_I s) !! x) <$> drop i (a_cont (r_A s) sl)))) s ->
    WP (resolve_loop sl i n acc k) s.
  Proof.
    intros Hw. revert i acc. induction n as [|n IH]; intros i acc Hi H; simpl.
    - rewrite drop_ge in H by (rewrite cont_length by done; lia). simpl in H. by rewrite app_nil_r in H.
    - apply IH; [lia|]. rewrite wf_drop in H by (done || lia).
      rewrite <- app_assoc. done.
  Qed.

  Lemma wpx_drop n keys k s m :
    shA (r_A s) m -> NoDup keys -> (forall a, a ∈ keys -> is_Some (a_map (r_A s) !! a)) ->
    lin = None -> (forall arr i, a_next (r_A s) <= arr -> WR arr i) ->
    (forall x' m', shA x' m' -> stable (r_A s) x' ->
       (forall a, m' !! a = if decide (a ∈ keys) then m !! a ≫= drop_from n else m !! a) ->
       WP k (set_A x' s)) ->
    WP (drop_loop keys n k) s.
  Proof.
    revert s m. induction keys as [|a keys IH]; intros s m Hs Hnd Hk Hlin HW H; simpl.
    - specialize (H (r_A s) m). rewrite set_A_id in H. apply H; [done|done|].
      intros b. by rewrite decide_False by (by apply not_elem_of_nil).
    - apply NoDup_cons in Hnd as [Hni Hnd].
      destruct (Hk a) as [sl Ha]; [left|]. rewrite Ha.
      destruct (shA_fwd _ _ Hs _ _ Ha) as [Hw Hm].
      pose proof (shA_bound _ _ _ _ Hs Ha) as Hb. pose proof (shA_pos _ _ Hs).
      apply wpx_filter with (l0 := a_next (r_A s)); [done|done|lia|lia|by left|by left|done|done|].
      intros x1 acc He Hw1 Hp1 Hc. rewrite cont_nil in Hc. simpl in Hc. rewrite drop_0 in Hc.
      assert (length (without n (a_cont (r_A s) sl)) = sl_len acc) as Hlen.
      { rewrite <- Hc. by apply cont_length. }
      pose proof He as (Em & En & Ea).
      assert (forall b, b ∈ keys -> is_Some (a_map (r_A s) !! b)) as Hk' by (intros; apply Hk; by right).
      assert (forall (mm : gmap string (list string)) (b : string), b <> a ->
         (forall b, mm !! b = if decide (b ∈ keys) then m !! b ≫= drop_from n else m !! b) ->
         mm !! b = if decide (b ∈ a :: keys) then m !! b ≫= drop_from n else m !! b) as Hcons.
      { intros mm b Hba Hmm. rewrite Hmm. destruct (decide (b ∈ keys)) as [Hin|Hin], (decide (b ∈ a :: keys)) as [Hin2|Hin2]; try done.
        - exfalso. apply Hin2. by right.
        - exfalso. apply elem_of_cons in Hin2 as [?|?]; done. }
      destruct (decide (sl_len acc < 1)) as [Hlt|Hge].
      + simpl. eapply IH with (m := delete a m); [simpl; by apply shA_del, (shA_ext (r_A s))|done| |done|simpl; intros arr j Hj; apply HW; lia|].
        * intros b Hbk. simpl. rewrite Em, lookup_delete_ne; [by apply Hk'|]. by intros ->.
        * intros x' m' Hs' Hst Hm'. change (set_A x' (set_A _ (set_A x1 s))) with (set_A x' s).
          apply H with m'; [done|by eapply stable_trans; [|exact Hst]; simpl; eauto using stable_ext, stable_set, stable_trans, stable_del|]. intros b. destruct (decide (b = a)) as [->|Hba].
          -- rewrite Hm'. rewrite decide_False by done. rewrite lookup_delete.
             rewrite decide_True by left. rewrite Hm. simpl. unfold drop_from.
             destruct (without n _); [done|simpl in Hlen; lia].
          -- rewrite Hm'. destruct (decide (b ∈ keys)) as [Hin|Hin], (decide (b ∈ a :: keys)) as [Hin2|Hin2];
               rewrite ?lookup_delete_ne by done; try done.
             ++ exfalso. apply Hin2. by right.
             ++ exfalso. apply elem_of_cons in Hin2 as [?|?]; done.
      + assert (m !! a ≫= drop_from n = Some (without n (a_cont (r_A s) sl))) as Hda.
        { rewrite Hm. simpl. unfold drop_from. destruct (without n _) eqn:E; [simpl in Hlen; lia|done]. }
        destruct (decide (sl_len acc = sl_len sl)) as [Heq|Hneq].
        * (* unchanged *)
          assert (without n (a_cont (r_A s) sl) = a_cont (r_A s) sl) as Hsame.
          { apply without_same. rewrite Hlen, cont_length by done. lia. }
          eapply IH with (m := m); [simpl; by apply (shA_ext (r_A s))|done| |done|simpl; intros arr j Hj; apply HW; lia|].
          -- intros b Hbk. simpl. rewrite Em. by apply Hk'.
          -- intros x' m' Hs' Hst Hm'. change (set_A x' (set_A x1 s)) with (set_A x' s).
             apply H with m'; [done|by eapply stable_trans; [|exact Hst]; simpl; eauto using stable_ext, stable_set, stable_trans, stable_del|]. intros b. destruct (decide (b = a)) as [->|Hba]; [|by apply Hcons].
             rewrite Hm'. rewrite decide_False by done. rewrite decide_True by left.
             by rewrite Hda, Hsame, Hm.
        * eapply IH with (m := <[a := a_cont x1 acc]> m); [simpl; by apply (shA_set (r_A s))|done| |done|simpl; intros arr j Hj; apply HW; lia|].
          -- intros b Hbk. simpl. rewrite Em, lookup_insert_ne; [by apply Hk'|]. by intros ->.
          -- intros x' m' Hs' Hst Hm'. change (set_A x' (set_A _ (set_A x1 s))) with (set_A x' s).
             apply H with m'; [done|by eapply stable_trans; [|exact Hst]; simpl; eauto using stable_ext, stable_set, stable_trans, stable_del|]. intros b. destruct (decide (b = a)) as [->|Hba].
             ++ rewrite Hm'. rewrite decide_False by done. rewrite decide_True by left.
                rewrite lookup_insert, Hda. by rewrite Hc.
             ++ rewrite Hm'. destruct (decide (b ∈ keys)) as [Hin|Hin], (decide (b ∈ a :: keys)) as [Hin2|Hin2];
                 rewrite ?lookup_insert_ne by done; try done.
                ** exfalso. apply Hin2. by right.
                ** exfalso. apply elem_of_cons in Hin2 as [?|?]; done.
  Qed.

  Lemma wpx_rename_elems sl n i old new k s m a :
    shA (r_A s) m -> a_map (r_A s) !! a = Some sl -> i + n = sl_len sl ->
    lin = None -> (forall arr i, WR arr i) ->
    (forall x', shA x' (<[a := take i (a_cont (r_A s) sl) ++ map (renamed old new) (drop i (a_cont (r_A s) sl))]> m) ->
       a_map x' = a_map (r_A s) ->
       WP k (set_A x' s)) ->
    WP (rename_elems sl i n old new k) s.
  Proof.
    revert i s m. induction n as [|n IH]; intros i s m Hs Ha Hi Hlin HW H; simpl.
    - destruct (shA_fwd _ _ Hs _ _ Ha) as [Hw Hm].
      specialize (H (r_A s)). rewrite set_A_id in H. apply H; [|done].
      rewrite drop_ge, take_ge by (rewrite cont_length by done; lia). simpl. rewrite app_nil_r.
      by rewrite insert_id.
    - destruct (shA_fwd _ _ Hs _ _ Ha) as [Hw Hm].
      rewrite wf_drop in H by (done || lia). simpl in H.
      pose proof (wf_load _ _ i Hw ltac:(lia)) as Hload.
      unfold renamed in H at 1.
      destruct (decide (a_load sl i (r_A s) = old)) as [E|Hne].
      + destruct Hw as [->|(Hr & l & Hl & Hc & Hx)]; [simpl in Hi; lia|].
        assert (sl <> nil_slice) as Hnn by (intros ->; simpl in Hr; lia).
        pose proof (shA_array (r_A s) m a sl (<[i := new]> l) l Hs Ha Hnn Hl ltac:(by rewrite insert_length)) as H1.
        assert (a_store sl i new (r_A s) = MkA (a_map (r_A s)) (<[sl_arr sl := <[i := new]> l]> (a_arr (r_A s))) (a_next (r_A s))) as Est.
        { unfold a_store. f_equal. apply map_eq. intros j. destruct (decide (j = sl_arr sl)) as [->|Hj].
          - by rewrite lookup_alter, lookup_insert, Hl.
          - by rewrite lookup_alter_ne, lookup_insert_ne. }
        cbn [wpx]. split; [by auto|]. rewrite Est. set (x1 := MkA _ _ _) in *.
        assert (a_cont x1 sl = <[i := new]> (a_cont (r_A s) sl)) as Hc1.
        { unfold a_cont, x1. simpl. rewrite lookup_insert, Hl. simpl. apply take_insert_lt. lia. }
        assert (i < length (a_cont (r_A s) sl)) as Hlen by (by eapply lookup_lt_Some).
        eapply IH with (m := <[a := _]> m); [exact H1|done|lia|done|done|].
        intros x' Hx' Em. change (set_A x' (set_A x1 s)) with (set_A x' s). apply H; [|done].
        simpl in Hx'. rewrite insert_insert, Hc1 in Hx'.
        rewrite (take_S_r _ _ new) in Hx' by (apply list_lookup_insert; lia).
        rewrite take_insert in Hx' by lia. rewrite drop_insert_gt in Hx' by lia.
        rewrite <- app_assoc in Hx'. exact Hx'.
      + eapply IH; [done|done|lia|done|done|]. intros x' Hx' Em. apply H; [|done].
        rewrite (take_S_r _ _ _ Hload), <- app_assoc in Hx'. exact Hx'.
  Qed.

  Lemma wpx_rename_loop keys old new k s m :
    shA (r_A s) m -> NoDup keys -> (forall a, a ∈ keys -> is_Some (a_map (r_A s) !! a)) ->
    lin = None -> (forall arr i, WR arr i) ->
    (forall x' m', shA x' m' -> a_map x' = a_map (r_A s) ->
       (forall a, m' !! a = if decide (a ∈ keys) then map (renamed old new) <$> m !! a else m !! a) ->
       WP k (set_A x' s)) ->
    WP (rename_loop keys old new k) s.
  Proof.
    revert s m. induction keys as [|a keys IH]; intros s m Hs Hnd Hk Hlin HW H; simpl.
    - specialize (H (r_A s) m). rewrite set_A_id in H. apply H; [done|done|].
      intros b. by rewrite decide_False by (by apply not_elem_of_nil).
    - apply NoDup_cons in Hnd as [Hni Hnd].
      destruct (Hk a) as [sl Ha]; [left|]. rewrite Ha.
      destruct (shA_fwd _ _ Hs _ _ Ha) as [Hw Hm].
      eapply wpx_rename_elems; [done|done|lia|done|done|]. intros x1 Hx1 Em. rewrite drop_0 in Hx1. simpl in Hx1.
      eapply IH; [exact Hx1|done| |done|done|].
      + intros b Hb. simpl. rewrite Em. apply Hk. by right.
      + intros x' m' Hs' Em' Hm'. change (set_A x' (set_A x1 s)) with (set_A x' s). eapply H; [done|simpl in Em'; congruence|].
        intros b. rewrite Hm'. destruct (decide (b = a)) as [->|Hba].
        * rewrite decide_False by done. rewrite decide_True by left. by rewrite lookup_insert, Hm.
        * rewrite lookup_insert_ne by done.
          destruct (decide (b ∈ keys)) as [Hin|Hin], (decide (b ∈ a :: keys)) as [Hin2|Hin2]; try done.
          -- exfalso. apply Hin2. by right.
          -- exfalso. apply elem_of_cons in Hin2 as [?|?]; done.
  Qed.

  Lemma wpx_rows keys acc k s m :
    shA (r_A s) m -> (forall a, a ∈ keys -> is_Some (a_map (r_A s) !! a)) ->
    (forall rows, rows.*1 = keys -> (forall a sl, (a, sl) ∈ rows -> a_map (r_A s) !! a = Some sl) ->
       WP (k (acc ++ rows)) s) ->
    WP (rows_loop keys acc k) s.
  Proof.
    intros Hs. revert acc. induction keys as [|a keys IH]; intros acc Hk H; simpl.
    - specialize (H []). rewrite app_nil_r in H. apply H; [done|]. intros ? ? Hx. by apply elem_of_nil in Hx.
    - destruct (Hk a) as [sl Ha]; [left|]. rewrite Ha. apply IH; [intros; apply Hk; by right|].
      intros rows E Hr. rewrite <- app_assoc. apply (H ((a, sl) :: rows)); [by rewrite fmap_cons, E|].
      intros b sb Hb. apply elem_of_cons in Hb as [Hb|Hb]; [by simplify_eq|by apply Hr].
  Qed.

  Lemma wpx_string show names acc k s f :
    (forall n, n ∈ names -> exists mi, i_map (r_I s) !! n ≫= (fun p => i_heap (r_I s) !! p) = Some mi /\ f n = show mi) ->
    WP (k (acc ++ foldr (fun n t => f n ++ String (ascii_of_N 10) "" ++ t) "" names)%string) s ->
    WP (string_loop show names acc k) s.
  Proof.
    revert acc. induction names as [|n names IH]; intros acc Hf H; simpl.
    - simpl in H. by rewrite string_app_nil in H.
    - destruct (Hf n) as (mi & E & En); [left|]. rewrite E. apply IH.
      + intros n' Hn'. apply Hf. by right.
      + simpl in H. rewrite En in H. by rewrite !string_app_assoc.
  Qed.
End loops.

Lemma search_any_name ckn nm nm' tk reqs q e :
  mi_Search ckn (index_after nm tk reqs) q e = mi_Search ckn (index_after nm' tk reqs) q e.
Proof.
  assert (forall nm, mi_tokenizer (index_after nm tk reqs) = tk) as Ht.
  { intros n. unfold index_after. rewrite <- (rev_involutive reqs).
    induction (rev reqs) as [|r rs IH]; [done|]. simpl. by rewrite fold_left_app. }
  assert (mi_Inverted (index_after nm tk reqs) = mi_Inverted (index_after nm' tk reqs) /\
          mi_Docs (index_after nm tk reqs) = mi_Docs (index_after nm' tk reqs)) as [E1 E2].
  { clear Ht. unfold index_after. rewrite <- (rev_involutive reqs).
    assert (mi_tokenizer (fold_left Put (rev (rev reqs)) (NewMemoryIndex nm tk)) =
            mi_tokenizer (fold_left Put (rev (rev reqs)) (NewMemoryIndex nm' tk)) /\
      mi_Inverted (fold_left Put (rev (rev reqs)) (NewMemoryIndex nm tk)) = mi_Inverted (fold_left Put (rev (rev reqs)) (NewMemoryIndex nm' tk)) /\
      mi_Docs (fold_left Put (rev (rev reqs)) (NewMemoryIndex nm tk)) = mi_Docs (fold_left Put (rev (rev reqs)) (NewMemoryIndex nm' tk))) as (_ & ? & ?); [|done].
    induction (rev reqs) as [|r rs (I1 & I2 & I3)]; [done|]. simpl. rewrite !fold_left_app. simpl.
    rewrite I1, I2, I3. done. }
  unfold mi_Search. rewrite !Ht. f_equal. unfold indexer_of, Len, Indexed, Document. by rewrite E1, E2.
Qed.

(** ** The abstract state *)
Record shC (strict ckn : bool) (tk : Tokenizer) (D : data) (w : cview) : Prop := {
  sc_builder : i_builder (d_I D) = NewMemoryIndexBuilder tk;
  sc_ckn : i_ckn (d_I D) = ckn;
  sc_map : i_map (d_I D) = c_idx w;
  sc_heap : forall p nm reqs, c_obj w !! p = Some (nm, reqs) ->
    p < i_next (d_I D) /\ i_heap (d_I D) !! p = Some (index_after nm tk reqs);
  sc_obj : forall n p, c_idx w !! n = Some p -> is_Some (c_obj w !! p);
  sc_inj : forall n1 n2 p, c_idx w !! n1 = Some p -> c_idx w !! n2 = Some p -> n1 = n2;
  sc_ali : shA (d_A D) (c_ali w);
  sc_strict : strict = true -> forall a l, c_ali w !! a = Some l ->
    NoDup l /\ forall x, x ∈ l -> is_Some (c_idx w !! x) }.

Definition rows_of (x : Apart) (rows : list (string * slice)) : list (string * list string) :=
  (fun row => (row.1, a_cont x row.2)) <$> rows.

(** The value [r] returned by the code stands for [o]. *)
Definition reads (md : mode) (x : Apart) (r : ret) (o : obs) : Prop :=
  match r, o with
  | RRows rows, ORows l =>
      rows.*1 = l.*1 /\ (md = NoRename -> Forall (fun row => snap x row.2) rows /\ rows_of x rows = l)
  | RRows _, _ => False
  | _, _ => forall s, see s r = o
  end.

Section sections.
  Context (md : mode) (strict ckn : bool) (tk : Tokenizer).
  Context (Hstrict : strict = true -> md = NoRename).

  Definition put_code (n : string) (d : DocRequest) (t : option (list (option ptr))) : prog :=
    Lock MI (match t with
             | None => NewIndex n (fun p => SetIndex n p (IdxPut p d (Unlock MI (Ret RUnit))))
             | Some ps => GoPut ps d (Unlock MI (Ret RUnit))
             end).
  Definition drop_code (n : string) : prog :=
    Lock MI (Lock MA (RangeAliases (fun aliases =>
      drop_loop aliases n (DelIndex n (Unlock MI (Unlock MA (Ret (RBool true)))))))).
  Definition unalias_code (a i : string) : prog :=
    Lock MA (GetAlias a (fun os =>
      match os with
      | None => Ret (RBool false)
      | Some indices =>
          filter_loop indices 0 (sl_len indices) i nil_slice (fun newIndices =>
          if decide (sl_len newIndices = sl_len indices)
          then Unlock MA (Ret (RBool true))
          else SetAlias a newIndices (Unlock MA (Ret (RBool true))))
      end)).

  Definition linkC (x : stage) (p : prog) (D : data) : Prop :=
    match x with
    | Todo c => p = prog_of c /\ allowed md c
    | PutAt n d t => p = put_code n d t /\ (strict = true -> NoDup (default [] t))
    | DropAt n => p = drop_code n
    | UnAliasAt a i => p = unalias_code a i
    | Answered (Returned o) => exists r, p = Ret r /\ reads md (d_A D) r o
    | Answered Threw => p = Throw
    end.
  (** Unless indices are renamed, only elements that no row of ListAliases shows are
      written. *)
  Definition wrtC (D : data) (arr i : nat) : Prop :=
    md = NoRename -> forall sl, snap (d_A D) sl -> sl_arr sl = arr -> sl_len sl <= i.
  Lemma wrtC_new I A arr i : 0 < a_next A -> a_next A <= arr -> wrtC (MkD I A) arr i.
  Proof. intros Hp Ha _ sl [->|[[H1 H2] _]] E; simpl in *; lia. Qed.

  Definition GC (D D' : data) : Prop := md = NoRename -> stable (d_A D) (d_A D').

  Lemma GC_refl D : GC D D.
  Proof. intros _. apply stable_refl. Qed.
  Lemma GC_trans D D' D'' : GC D D' -> GC D' D'' -> GC D D''.
  Proof. intros H1 H2 E. eapply stable_trans; eauto. Qed.
  Lemma linkC_G x p D D' : linkC x p D -> GC D D' -> linkC x p D'.
  Proof.
    intros Hl HG. destruct x as [| | | |[o|]]; try done. destruct Hl as (r & -> & Hr). exists r. split; [done|].
    destruct r; try done. destruct o; try done. destruct Hr as [E H]. split; [done|].
    intros Hm. destruct (H Hm) as [H1 H2]. specialize (HG Hm). split.
    - eapply Forall_impl; [exact H1|]. intros row Hrow. by apply HG.
    - rewrite <- H2. unfold rows_of. apply list_fmap_ext. intros i row Hi. f_equal. apply HG.
      by eapply Forall_lookup_1 in H1.
  Qed.
  Lemma linkC_any x p D D' : ~ finished (TRun p) -> linkC x p D -> linkC x p D'.
  Proof.
    intros Hf Hl. destruct x as [| | | |[o|]]; try done. destruct Hl as (r & -> & Hr). by destruct Hf.
  Qed.

  Notation CM := (CMx (section ckn tk) (shC strict ckn tk) GC).
  Notation FIN := (FINx leave linkC).
  Notation CR := (CRx dies_before dies_inside).

  Ltac go := cbn [wpx commits ends alone rw_of d_I d_A fst snd get_mu set_mu set_I set_A r_I r_A r_imu r_amu
                  rw_readers rw_pending rw_writer dat].

  Lemma alone_none D : alone D none_held = MkRepo (d_I D) (d_A D) rw_free rw_free.
  Proof. done. Qed.

  (** A section that only reads. *)
  Lemma cm_same x D w b : shC strict ckn tk D w -> section ckn tk x w b w -> CM x D w b D.
  Proof. intros H He. exists w. split_and!; [done|done|apply GC_refl]. Qed.

  Lemma fin_ret o r D b : leave b (Answered (Returned o)) -> reads md (d_A D) r o -> FIN b (Ret r) D.
  Proof. intros Hb Hr. exists (Answered (Returned o)). split; [done|]. by exists r. Qed.

  Lemma sc_None D w n : shC strict ckn tk D w -> i_map (d_I D) !! n = None <-> c_idx w !! n = None.
  Proof. intros H. by rewrite (sc_map _ _ _ _ _ H). Qed.

  Lemma sec_List D w : shC strict ckn tk D w ->
    wpx (CM (Todo CList) D w) FIN (CR (Todo CList) w) strict (wrtC D) List_prog None (alone D none_held).
  Proof.
    intros H. rewrite alone_none. unfold List_prog. go. intros _ _ names Hn.
    exists (ret_obs (ONames names)). destruct D as [I A]. go. split.
    - apply cm_same; [done|]. exists names. split_and!; [|done..]. rewrite Hn.
      by rewrite (sc_map _ _ _ _ _ H).
    - intros n [= <-]. by eapply fin_ret.
  Qed.
  Lemma sec_Has D w n : shC strict ckn tk D w ->
    wpx (CM (Todo (CHas n)) D w) FIN (CR (Todo (CHas n)) w) strict (wrtC D) (Has_prog n) None (alone D none_held).
  Proof.
    intros H. rewrite alone_none. unfold Has_prog. destruct D as [I A]. go. intros _ _.
    rewrite (sc_map _ _ _ _ _ H : i_map I = _).
    eexists. split; [by apply cm_same|]. intros k [= <-]. by eapply fin_ret.
  Qed.

  Lemma sec_HasAlias D w n : shC strict ckn tk D w ->
    wpx (CM (Todo (CHasAlias n)) D w) FIN (CR (Todo (CHasAlias n)) w) strict (wrtC D) (HasAlias_prog n) None (alone D none_held).
  Proof.
    intros H. rewrite alone_none. unfold HasAlias_prog. destruct D as [I A]. go. intros _ _.
    assert (bool_decide (is_Some (a_map A !! n)) = bool_decide (is_Some (c_ali w !! n))) as ->.
    { apply bool_decide_ext. apply (shA_is_Some _ _ _ (sc_ali _ _ _ _ _ H)). }
    eexists. split; [by apply cm_same|]. intros k [= <-]. by eapply fin_ret.
  Qed.

  Lemma sec_ListAliases D w : shC strict ckn tk D w ->
    wpx (CM (Todo CListAliases) D w) FIN (CR (Todo CListAliases) w) strict (wrtC D) ListAliases_prog None (alone D none_held).
  Proof.
    intros H. rewrite alone_none. unfold ListAliases_prog. destruct D as [I A]. go. intros _ _ names Hn.
    pose proof (sc_ali _ _ _ _ _ H) as HA. cbn [d_A] in HA.
    eapply wpx_rows; [exact HA|intros a Ha; by eapply keys_elem in Ha|].
    intros rows Hr1 Hr2. go.
    exists (ret_obs (ORows (rows_of A rows))). split.
    - apply cm_same; [done|]. eexists. split_and!; [|done..]. unfold rows_of.
      apply NoDup_Permutation.
      + apply (NoDup_fmap_1 fst). rewrite <- list_fmap_compose.
        change (NoDup (fst <$> rows)). rewrite Hr1. by eapply keys_nodup.
      + apply NoDup_map_to_list.
      + intros [a l]. rewrite elem_of_map_to_list. split.
        * intros Hin. apply elem_of_list_fmap in Hin as ([a' sl] & E & Hin). simplify_eq/=.
          apply Hr2 in Hin. by apply (shA_fwd _ _ HA).
        * intros Ha. assert (is_Some (a_map A !! a)) as Hs by (eapply shA_is_Some; eauto).
          rewrite <- (keys_elem _ _ _ Hn), <- Hr1 in Hs.
          apply elem_of_list_fmap in Hs as ([a' sl] & E & Hin). simplify_eq/=.
          pose proof Hin as Hin'. apply Hr2 in Hin'. destruct (shA_fwd _ _ HA _ _ Hin') as [_ Hm].
          apply elem_of_list_fmap. exists (a', sl). simpl. split; [|done]. congruence.
    - intros k [= <-]. eapply fin_ret; [done|]. simpl. split.
      + unfold rows_of. rewrite <- list_fmap_compose. done.
      + intros _. split; [|done]. apply Forall_forall. intros [a sl] Hin. apply Hr2 in Hin. by eapply shA_snap.
  Qed.

  Lemma sec_String D w show : shC strict ckn tk D w ->
    wpx (CM (Todo (CString show)) D w) FIN (CR (Todo (CString show)) w) strict (wrtC D) (String_prog show) None (alone D none_held).
  Proof.
    intros H. rewrite alone_none. unfold String_prog. destruct D as [I A]. go. intros _ _ names Hn.
    pose proof (sc_map _ _ _ _ _ H) as Hm. cbn [d_I] in Hm.
    apply (wpx_string _ _ _ _ _ _ _ _ _ _ _ (fun n => match c_idx w !! n ≫= (fun p => c_obj w !! p) with
      | Some (nm, reqs) => show (index_after nm tk reqs) | None => "<nil>"%string end)).
    - intros n Hin. cbn [r_I]. rewrite Hm.
      rewrite Hm in Hn. apply (keys_elem _ _ _ Hn) in Hin as [p Hp].
      destruct (sc_obj _ _ _ _ _ H _ _ Hp) as [[nm reqs] Ho].
      destruct (sc_heap _ _ _ _ _ H _ _ _ Ho) as [_ Hh]. cbn [d_I] in Hh.
      exists (index_after nm tk reqs). rewrite Hp. simpl. by rewrite Ho, Hh.
    - go. exists (ret_obs (OText (text_of tk show w names))). split.
      + apply cm_same; [done|]. exists names. split_and!; [|done..]. by rewrite Hn, Hm.
      + intros k [= <-]. eapply fin_ret; [done|]. simpl. intros _. f_equal.
        clear. induction names as [|n names IH]; [done|]. cbn [foldr text_of]. by rewrite <- IH.
  Qed.

  Lemma sec_Alias D w a i : shC strict ckn tk D w ->
    wpx (CM (Todo (CAlias a i)) D w) FIN (CR (Todo (CAlias a i)) w) strict (wrtC D) (Alias_prog a i) None (alone D none_held).
  Proof.
    intros H. rewrite alone_none. unfold Alias_prog. destruct D as [I A]. go. intros _ _.
    pose proof (sc_map _ _ _ _ _ H) as Hm. pose proof (sc_ali _ _ _ _ _ H) as HA. cbn [d_I d_A] in Hm, HA.
    rewrite Hm. destruct (c_idx w !! i) as [p|] eqn:Ei; go.
    2:{ eexists. split.
        - apply cm_same; [done|]. simpl. rewrite decide_True by (by left). done.
        - intros k [= <-]. by eapply fin_ret. }
    intros _ _ _. destruct (a_map A !! a) as [sl|] eqn:Ea.
    - destruct (shA_fwd _ _ HA _ _ Ea) as [Hw Hal].
      apply wpx_scan; [done|lia|]. rewrite drop_0. go.
      case_bool_decide as Hin; go.
      + eexists. split.
        * apply cm_same; [done|]. simpl. rewrite Hal. rewrite decide_True by (by right). done.
        * intros _ k [= <-]. by eapply fin_ret.
      + split.
        { intros Hlt. split; [done|]. intros _ s0 [->|[H1 H2]] E; [simpl; lia|]. by eapply H2. }
        intros cap Hcap. destruct (a_append sl i cap A) as [x' sl'] eqn:E. cbn [fst snd]. go.
        exists (ret_obs (OBool true)). split.
        * exists (MkC (c_idx w) (c_obj w) (<[a := a_cont A sl ++ [i]]> (c_ali w))). split_and!.
          -- split; try apply H; cbn.
             ++ by eapply shA_append.
             ++ intros Hst b l Hb. apply lookup_insert_Some in Hb as [(<- & <-)|[Hne Hb]]; [|by eapply (sc_strict _ _ _ _ _ H)].
                destruct (sc_strict _ _ _ _ _ H Hst _ _ Hal) as [Hnd Hex]. split.
                ** apply NoDup_app. split_and!; [done| |apply NoDup_singleton].
                   intros y Hy ->%elem_of_list_singleton. done.
                ** intros y [Hy| ->%elem_of_list_singleton]%elem_of_app; [by apply Hex|by eauto].
          -- simpl. rewrite Hal. rewrite decide_False; [done|]. simpl. by intros [?|?]; [congruence|].
          -- intros _. cbn. by eapply stable_append.
        * intros _ k [= <-]. by eapply fin_ret.
    - assert (c_ali w !! a = None) as Hal by (by apply (shA_none _ _ HA)). go. cbn [a_alloc fst snd length]. go.
      exists (ret_obs (OBool true)). split.
      + set (x' := MkA (a_map A) (<[a_next A := [i] ]> (a_arr A)) (S (a_next A))).
        set (sl := MkSlice (a_next A) 1 1).
        assert (a_cont x' sl = [i]) as Hc by (unfold a_cont; simpl; by rewrite lookup_insert).
        pose proof (shA_pos _ _ HA).
        assert (ext (a_next A) A x') as He.
        { split_and!; simpl; [done|lia|]. intros b Hb. apply lookup_insert_ne. lia. }
        exists (MkC (c_idx w) (c_obj w) (<[a := [i]]> (c_ali w))). split_and!.
        * split; try apply H; cbn.
          -- assert (shA (a_set a sl x') (<[a := a_cont x' sl]> (c_ali w))) as Hset; [|by rewrite Hc in Hset].
             apply shA_set with A; [done|done| |right; simpl; lia].
             right. simpl. split; [lia|]. exists [i]. by rewrite lookup_insert.
          -- intros Hst b l Hb. apply lookup_insert_Some in Hb as [(<- & <-)|[Hne Hb]]; [|by eapply (sc_strict _ _ _ _ _ H)].
             split; [apply NoDup_singleton|]. intros y ->%elem_of_list_singleton. by eauto.
        * simpl. rewrite Hal. simpl. rewrite decide_False; [done|]. intros [?|?%elem_of_nil]; congruence.
        * intros _. cbn. apply stable_set; [done|]. right. simpl. lia.
      + intros _ k [= <-]. by eapply fin_ret.
  Qed.

  Lemma sc_ali_upd I A A' w ali' :
    shC strict ckn tk (MkD I A) w -> shA A' ali' ->
    (strict = true -> forall a l, ali' !! a = Some l -> NoDup l /\ forall x, x ∈ l -> is_Some (c_idx w !! x)) ->
    shC strict ckn tk (MkD I A') (MkC (c_idx w) (c_obj w) ali').
  Proof. intros H HA Hs. split; try apply H; done. Qed.

  Lemma without_elem n l x : x ∈ without n l -> x ∈ l.
  Proof. unfold without. by intros [_ ?]%elem_of_list_filter. Qed.

  Lemma sec_UnAlias D w a i : shC strict ckn tk D w ->
    wpx (CM (Todo (CUnAlias a i)) D w) FIN (CR (Todo (CUnAlias a i)) w) strict (wrtC D) (UnAlias_prog a i) None (alone D none_held).
  Proof.
    intros H. rewrite alone_none. unfold UnAlias_prog. destruct D as [I A].
    pose proof (sc_map _ _ _ _ _ H) as Hm. pose proof (sc_ali _ _ _ _ _ H) as HA. cbn [d_I d_A] in Hm, HA.
    destruct (decide (i = ""%string)) as [->|Hi]; go.
    - intros _ _ _. exists (ret_obs (OBool (bool_decide (is_Some (c_ali w !! a))))). split.
      + exists (MkC (c_idx w) (c_obj w) (delete a (c_ali w))). split_and!.
        * eapply sc_ali_upd; [done|by apply shA_del|]. intros Hst b l Hb.
          apply lookup_delete_Some in Hb as [_ Hb]. by eapply (sc_strict _ _ _ _ _ H).
        * simpl. done.
        * intros _. apply stable_del.
      + intros _. eapply fin_ret; [done|]. simpl. intros _. f_equal. apply bool_decide_ext. by apply shA_is_Some.
    - intros _ _. rewrite Hm. destruct (c_idx w !! i) as [p|] eqn:Ei; go.
      + exists (Next (UnAliasAt a i)). split.
        * apply cm_same; [done|]. simpl. rewrite !decide_False by congruence. done.
        * intros k [= <-]. exists (UnAliasAt a i). by split.
      + exists (ret_obs (OBool false)). split.
        * apply cm_same; [done|]. simpl. rewrite decide_False, decide_True by done. done.
        * by eapply fin_ret.
  Qed.

  Lemma sec_UnAliasAt D w a i : shC strict ckn tk D w ->
    wpx (CM (UnAliasAt a i) D w) FIN (CR (UnAliasAt a i) w) strict (wrtC D) (unalias_code a i) None (alone D none_held).
  Proof.
    intros H. rewrite alone_none. unfold unalias_code. destruct D as [I A].
    pose proof (sc_ali _ _ _ _ _ H) as HA. cbn [d_I d_A] in HA.
    go. intros _ _ _. destruct (a_map A !! a) as [sl|] eqn:Ea; go.
    - destruct (shA_fwd _ _ HA _ _ Ea) as [Hw Hal].
      pose proof (shA_bound _ _ _ _ HA Ea) as Hb. pose proof (shA_pos _ _ HA).
      apply wpx_filter with (l0 := a_next A); [done|done|done|lia|by left|by left|done|intros; apply wrtC_new; [lia|done]|].
      go. intros x' acc He Hw' Hp' Hc. rewrite cont_nil, drop_0 in Hc. simpl in Hc.
      assert (section ckn tk (UnAliasAt a i) w (ret_obs (OBool true))
                (MkC (c_idx w) (c_obj w) (<[a := without i (a_cont A sl)]> (c_ali w)))) as Hsp.
      { simpl. by rewrite Hal. }
      assert (strict = true -> forall b l, <[a := without i (a_cont A sl)]> (c_ali w) !! b = Some l ->
        NoDup l /\ forall x, x ∈ l -> is_Some (c_idx w !! x)) as Hs.
      { intros Hst b l Hbl. apply lookup_insert_Some in Hbl as [(<- & <-)|[Hne Hbl]]; [|by eapply (sc_strict _ _ _ _ _ H)].
        destruct (sc_strict _ _ _ _ _ H Hst _ _ Hal) as [Hnd Hex]. split; [by apply NoDup_filter|].
        intros x Hx. apply Hex. by eapply without_elem. }
      destruct (decide _) as [Heq|Hne]; go.
      + exists (ret_obs (OBool true)). split.
        * eexists. split_and!; [|exact Hsp|].
          -- eapply sc_ali_upd; [done| |done]. rewrite without_same.
             ++ rewrite insert_id by done. by apply (shA_ext A).
             ++ rewrite <- Hc, !cont_length by done. done.
          -- intros _. by apply stable_ext.
        * intros _. by eapply fin_ret.
      + exists (ret_obs (OBool true)). split.
        * eexists. split_and!; [|exact Hsp|].
          -- eapply sc_ali_upd; [done| |done]. rewrite <- Hc. by apply shA_set with A.
          -- intros _. by apply stable_set.
        * intros _. by eapply fin_ret.
    - assert (c_ali w !! a = None) as Hal by (by apply (shA_none _ _ HA)).
      exists (ret_obs (OBool false)). split.
      + apply cm_same; [done|]. simpl. by rewrite Hal.
      + by eapply fin_ret.
  Qed.

  Lemma sec_Rename D w old new : md <> NoRename -> shC strict ckn tk D w ->
    wpx (CM (Todo (CRename old new)) D w) FIN (CR (Todo (CRename old new)) w) strict (wrtC D) (Rename_prog old new) None (alone D none_held).
  Proof.
    intros Hmd H. rewrite alone_none. unfold Rename_prog. destruct D as [I A].
    pose proof (sc_map _ _ _ _ _ H) as Hm. pose proof (sc_ali _ _ _ _ _ H) as HA. cbn [d_I d_A] in Hm, HA.
    go. intros _ _ _. rewrite Hm. destruct (c_idx w !! old) as [p|] eqn:Eo; go.
    - intros names Hn. eapply wpx_rename_loop; [exact HA|by eapply keys_nodup|intros a Ha; by eapply keys_elem in Ha|done|by intros ???|].
      intros x' m' Hx' _ Hm'. go. exists (ret_obs (OBool true)). split.
      + eexists. split_and!; [|simpl; rewrite Eo; done|done].
        split; cbn.
        * apply H. * apply H. * by rewrite Hm. * apply H.
        * intros n q Hq. apply lookup_delete_Some in Hq as [_ Hq].
          apply lookup_insert_Some in Hq as [(<- & <-)|[Hne Hq]]; by eapply (sc_obj _ _ _ _ _ H).
        * intros n1 n2 p0 H1 H2. apply lookup_delete_Some in H1 as [Hd1 H1]. apply lookup_delete_Some in H2 as [Hd2 H2].
          apply lookup_insert_Some in H1 as [(<- & <-)|[Hne1 H1]];
          apply lookup_insert_Some in H2 as [(<- & Hp)|[Hne2 H2]]; try done.
          -- exfalso. apply Hd2. by eapply (sc_inj _ _ _ _ _ H).
          -- subst p0. exfalso. apply Hd1. by eapply (sc_inj _ _ _ _ _ H).
          -- by eapply (sc_inj _ _ _ _ _ H).
        * assert (map (renamed old new) <$> c_ali w = m') as ->; [|done].
          apply map_eq. intros a. rewrite lookup_fmap, Hm'.
          destruct (decide (a ∈ names)) as [Hin|Hin]; [done|].
          rewrite (keys_elem _ _ _ Hn), (shA_is_Some _ _ _ HA) in Hin.
          rewrite <- eq_None_not_Some in Hin. by rewrite Hin.
        * intros Hst. by apply Hstrict in Hst.
      + intros _. by eapply fin_ret.
    - exists (ret_obs (OBool false)). split.
      + apply cm_same; [done|]. simpl. by rewrite Eo.
      + intros _. by eapply fin_ret.
  Qed.

  Lemma sec_Drop D w n : shC strict ckn tk D w ->
    wpx (CM (Todo (CDrop n)) D w) FIN (CR (Todo (CDrop n)) w) strict (wrtC D) (Drop_prog n) None (alone D none_held).
  Proof.
    intros H. rewrite alone_none. unfold Drop_prog. destruct D as [I A].
    pose proof (sc_map _ _ _ _ _ H) as Hm. cbn [d_I d_A] in Hm.
    go. intros _ _. rewrite Hm. destruct (c_idx w !! n) as [p|] eqn:En; go.
    - exists (Next (DropAt n)). split.
      + apply cm_same; [done|]. simpl. rewrite decide_False by congruence. done.
      + intros k [= <-]. by exists (DropAt n).
    - exists (ret_obs (OBool false)). split.
      + apply cm_same; [done|]. simpl. rewrite decide_True by done. done.
      + intros k [= <-]. by eapply fin_ret.
  Qed.

  Lemma sec_DropAt D w n : shC strict ckn tk D w ->
    wpx (CM (DropAt n) D w) FIN (CR (DropAt n) w) strict (wrtC D) (drop_code n) None (alone D none_held).
  Proof.
    intros H. rewrite alone_none. unfold drop_code. destruct D as [I A].
    pose proof (sc_map _ _ _ _ _ H) as Hm. pose proof (sc_ali _ _ _ _ _ H) as HA. cbn [d_I d_A] in Hm, HA.
    go. intros _ _ _ _ _ _ names Hn.
    eapply wpx_drop; [exact HA|by eapply keys_nodup|intros a Ha; by eapply keys_elem in Ha|done|intros; apply wrtC_new; [by eapply shA_pos|done]|].
    intros x' m' Hx' Hst Hm'. go. exists (ret_obs (OBool true)). split.
    - eexists. split_and!; [|done|by intros _].
      assert (omap (drop_from n) (c_ali w) = m') as E.
      { apply map_eq. intros a. rewrite lookup_omap, Hm'.
        destruct (decide (a ∈ names)) as [Hin|Hin]; [done|].
        rewrite (keys_elem _ _ _ Hn), (shA_is_Some _ _ _ HA) in Hin.
        rewrite <- eq_None_not_Some in Hin. by rewrite Hin. }
      split; cbn.
      + apply H. + apply H. + by rewrite Hm. + apply H.
      + intros n' q Hq. apply lookup_delete_Some in Hq as [_ Hq]. by eapply (sc_obj _ _ _ _ _ H).
      + intros n1 n2 p0 H1 H2. apply lookup_delete_Some in H1 as [_ H1]. apply lookup_delete_Some in H2 as [_ H2].
        by eapply (sc_inj _ _ _ _ _ H).
      + by rewrite E.
      + intros Hstr a l Hl. rewrite lookup_omap in Hl. destruct (c_ali w !! a) as [l0|] eqn:El; [|done].
        simpl in Hl. unfold drop_from in Hl.
        destruct (sc_strict _ _ _ _ _ H Hstr _ _ El) as [Hnd Hex].
        assert (l = without n l0) as ->. { destruct (without n l0); [done|congruence]. }
        split; [by apply NoDup_filter|]. intros x Hx. unfold without in Hx.
        apply elem_of_list_filter in Hx as [Hne Hx]. rewrite lookup_delete_ne by done. by apply Hex.
    - intros _ _. by eapply fin_ret.
  Qed.

  Lemma targets_nodup D w l :
    shC strict ckn tk D w -> NoDup l -> (forall x, x ∈ l -> is_Some (c_idx w !! x)) -> NoDup ((fun x => c_idx w !! x) <$> l).
  Proof.
    intros H Hnd Hex. induction Hnd as [|x l Hx Hnd IH]; [constructor|]. rewrite fmap_cons. constructor.
    - intros (y & E & Hy)%elem_of_list_fmap. destruct (Hex x) as [p Hp]; [left|].
      rewrite Hp in E. pose proof (sc_inj _ _ _ _ _ H _ _ _ Hp (eq_sym E)). by subst.
    - apply IH. intros y Hy. apply Hex. by right.
  Qed.

  Lemma sec_Put D w n d : shC strict ckn tk D w ->
    wpx (CM (Todo (CPut n d)) D w) FIN (CR (Todo (CPut n d)) w) strict (wrtC D) (Put_prog n d) None (alone D none_held).
  Proof.
    intros H. rewrite alone_none. unfold Put_prog, getIndices. destruct D as [I A].
    pose proof (sc_map _ _ _ _ _ H) as Hm. pose proof (sc_ali _ _ _ _ _ H) as HA. cbn [d_I d_A] in Hm, HA.
    assert (CM (Todo (CPut n d)) (MkD I A) w (Next (PutAt n d (targets w n))) (MkD I A)) as Hcm by (by apply cm_same).
    unfold targets in Hcm.
    go. intros _ _. rewrite Hm. destruct (c_idx w !! n) as [p|] eqn:En; go.
    - eexists. split; [exact Hcm|]. intros k [= <-]. eexists. split; [reflexivity|]. split; [done|].
      intros _. apply NoDup_singleton.
    - intros _ _. destruct (a_map A !! n) as [sl|] eqn:Ea; go.
      + destruct (shA_fwd _ _ HA _ _ Ea) as [Hw Hal]. rewrite Hal in Hcm.
        apply wpx_resolve; [done|lia|]. rewrite drop_0. go. rewrite Hm. simpl app.
        eexists. split; [exact Hcm|]. intros k [= <-] k' [= <-]. eexists. split; [reflexivity|]. split; [done|].
        intros Hst. destruct (sc_strict _ _ _ _ _ H Hst _ _ Hal). by eapply targets_nodup.
      + assert (c_ali w !! n = None) as Hal by (by apply (shA_none _ _ HA)). rewrite Hal in Hcm.
        eexists. split; [exact Hcm|]. intros k [= <-] k' [= <-]. eexists. split; [reflexivity|]. split; [done|].
        intros _. apply NoDup_nil_2.
  Qed.

  Lemma put_objs_perm d ps ps' obj : ps ≡ₚ ps' -> put_objs d ps obj = put_objs d ps' obj.
  Proof.
    intros H. unfold put_objs. revert obj. induction H as [|x l l' _ IH|x y l|l l' l'' _ IH1 _ IH2]; intros obj; cbn [foldr].
    - done.
    - by rewrite IH.
    - destruct x as [x|], y as [y|]; try done. destruct (decide (x = y)) as [->|Hne]; [done|].
      by rewrite alter_commute by done.
    - by rewrite IH1.
  Qed.

  Lemma sc_put I A w p d :
    shC strict ckn tk (MkD I A) w ->
    shC strict ckn tk (MkD (i_put p d I) A)
      (MkC (c_idx w) (alter (fun x : string * list DocRequest => (x.1, x.2 ++ [d])) p (c_obj w)) (c_ali w)).
  Proof.
    intros H. split; cbn [d_I d_A c_idx c_obj c_ali i_put i_set i_new i_del i_map i_heap i_next i_builder i_ckn]; try apply H.
    - intros q nm reqs Hq. destruct (decide (q = p)) as [->|Hne].
      + rewrite (lookup_alter (M:=gmap nat)) in Hq; rewrite (lookup_alter (M:=gmap nat)). destruct (c_obj w !! p) as [[nm' reqs']|] eqn:E; [|discriminate]. simpl in Hq. simplify_eq.
        destruct (sc_heap _ _ _ _ _ H _ _ _ E) as [? Hh]. cbn [d_I] in *. split; [done|]. rewrite Hh. simpl.
        by rewrite index_after_snoc.
      + rewrite (lookup_alter_ne (M:=gmap nat)) in Hq by done; rewrite (lookup_alter_ne (M:=gmap nat)) by done. by eapply (sc_heap _ _ _ _ _ H).
    - intros n q Hq. destruct (sc_obj _ _ _ _ _ H _ _ Hq) as [x Hx].
      destruct (decide (q = p)) as [->|Hne]; [rewrite (lookup_alter (M:=gmap nat)), Hx; simpl; eauto|].
      rewrite (lookup_alter_ne (M:=gmap nat)) by done. eauto.
  Qed.

  Lemma sc_puts I A w ps d I' :
    shC strict ckn tk (MkD I A) w -> puts ps d I = Some I' ->
    shC strict ckn tk (MkD I' A) (MkC (c_idx w) (put_objs d ps (c_obj w)) (c_ali w)).
  Proof.
    revert I w. induction ps as [|[p|] ps IH]; intros I w H Hp; simpl in Hp.
    - simplify_eq. by destruct w.
    - apply (IH _ _ (sc_put _ _ _ p d H)) in Hp. cbn [c_idx c_obj c_ali] in Hp.
      replace (put_objs d (Some p :: ps) (c_obj w)) with (put_objs d (ps ++ [Some p]) (c_obj w)).
      + unfold put_objs. rewrite foldr_app. exact Hp.
      + apply put_objs_perm. by rewrite Permutation_app_comm.
    - done.
  Qed.

  Lemma sec_PutAt D w n d t : shC strict ckn tk D w -> (strict = true -> NoDup (default [] t)) ->
    wpx (CM (PutAt n d t) D w) FIN (CR (PutAt n d t) w) strict (wrtC D) (put_code n d t) None (alone D none_held).
  Proof.
    intros H Hnd. rewrite alone_none. unfold put_code. destruct D as [I A]. go. intros _ _ _.
    destruct t as [ps|]; go.
    - split_and!; [done|done|]. intros ps' i' Hp Hi. go. exists (ret_obs OUnit). split.
      + eexists. split_and!; [by eapply sc_puts| |intros _; apply stable_refl]. simpl. split_and!; [|done|].
        * apply puts_all_some in Hi. rewrite <- Hp. intros Hin. rewrite Forall_forall in Hi.
          apply Hi in Hin. by destruct Hin.
        * by rewrite (put_objs_perm _ _ _ _ Hp).
      + intros _. by eapply fin_ret.
    - exists (ret_obs OUnit). split; [|intros _; by eapply fin_ret].
      exists (MkC (<[n := i_next I]> (c_idx w)) (<[i_next I := (n, [d])]> (c_obj w)) (c_ali w)). split_and!.
      + assert (c_obj w !! i_next I = None) as Hfresh.
        { destruct (c_obj w !! i_next I) as [[nm reqs]|] eqn:E; [|done]. apply (sc_heap _ _ _ _ _ H) in E as [E _].
          cbn [d_I] in E. lia. }
        split; cbn [dat set_I r_I r_A d_I d_A c_idx c_obj c_ali i_put i_set i_new i_del i_map i_heap i_next i_builder i_ckn].
        * apply H. * apply H. * by rewrite (sc_map _ _ _ _ _ H : i_map I = _).
        * intros q nm reqs Hq. apply lookup_insert_Some in Hq as [(<- & ?)|[Hne Hq]].
          -- simplify_eq. split; [lia|]. rewrite (lookup_alter (M:=gmap nat)), lookup_insert. simpl.
             by rewrite (sc_builder _ _ _ _ _ H : i_builder I = _).
          -- destruct (sc_heap _ _ _ _ _ H _ _ _ Hq) as [? Hh]. cbn [d_I] in *. split; [lia|].
             rewrite (lookup_alter_ne (M:=gmap nat)), lookup_insert_ne by done. done.
        * intros n' q Hq. apply lookup_insert_Some in Hq as [(<- & <-)|[Hne Hq]]; [rewrite lookup_insert; eauto|].
          destruct (sc_obj _ _ _ _ _ H _ _ Hq) as [x Hx]. destruct (decide (q = i_next I)) as [->|Hn]; [congruence|].
          rewrite lookup_insert_ne by done. eauto.
        * intros n1 n2 q H1 H2.
          assert (forall n', c_idx w !! n' <> Some (i_next I)) as Hno.
          { intros n' Hn'. apply (sc_obj _ _ _ _ _ H) in Hn' as [x Hx]. congruence. }
          apply lookup_insert_Some in H1 as [(<- & <-)|[Hne1 H1]];
          apply lookup_insert_Some in H2 as [(<- & Hp)|[Hne2 H2]]; try done.
          -- by apply Hno in H2.
          -- subst q. by apply Hno in H1.
          -- by eapply (sc_inj _ _ _ _ _ H).
        * apply H.
        * intros Hst a l Hl. destruct (sc_strict _ _ _ _ _ H Hst _ _ Hl) as [? Hex]. split; [done|].
          intros x Hx. destruct (decide (x = n)) as [->|Hn]; [rewrite lookup_insert; eauto|].
          rewrite lookup_insert_ne by done. by apply Hex.
      + exists (i_next I). split_and!; [|done..].
        destruct (c_obj w !! i_next I) as [[nm reqs]|] eqn:E; [|done]. apply (sc_heap _ _ _ _ _ H) in E as [E _].
        cbn [d_I] in E. lia.
      + intros _. apply stable_refl.
  Qed.

  Lemma sc_search I A w q e n :
    shC strict ckn tk (MkD I A) w -> i_search (c_idx w !! n) q e I = search_obj ckn tk w q e (c_idx w !! n).
  Proof.
    intros H. unfold search_obj. destruct (c_idx w !! n) as [p|] eqn:E; [|done]. simpl.
    destruct (sc_obj _ _ _ _ _ H _ _ E) as [[nm reqs] Ho]. destruct (sc_heap _ _ _ _ _ H _ _ _ Ho) as [_ Hh].
    cbn [d_I] in Hh. rewrite Hh, Ho. rewrite (sc_ckn _ _ _ _ _ H : i_ckn I = _).
    unfold search_docs. apply search_any_name.
  Qed.

  Lemma sec_Search D w n q e : shC strict ckn tk D w ->
    wpx (CM (Todo (CSearch n q e)) D w) FIN (CR (Todo (CSearch n q e)) w) strict (wrtC D) (Search_prog n q e) None (alone D none_held).
  Proof.
    intros H. rewrite alone_none. unfold Search_prog. destruct D as [I A].
    pose proof (sc_map _ _ _ _ _ H) as Hm. pose proof (sc_ali _ _ _ _ _ H) as HA. cbn [d_I d_A] in Hm, HA.
    go. intros _ _. rewrite Hm. destruct (c_idx w !! n) as [p|] eqn:En; go.
    - unfold search_tail. go. rewrite <- En, (sc_search _ _ _ _ _ _ H).
      destruct (search_obj ckn tk w q e (c_idx w !! n)) as [sr|] eqn:Es; go.
      + exists (ret_obs (OResults sr)). split.
        * apply cm_same; [done|]. split; [done|]. unfold targets. rewrite En. rewrite En in Es. by rewrite Es.
        * intros k [= <-]. by eapply fin_ret.
      + exists (Next (Answered Threw)). split.
        * apply cm_same; [done|]. split; [done|]. unfold targets. rewrite En. rewrite En in Es. by rewrite Es.
        * intros k [= <-]. by exists (Answered Threw).
    - intros _ _. destruct (a_map A !! n) as [sl|] eqn:Ea; go.
      + destruct (shA_fwd _ _ HA _ _ Ea) as [Hw Hal].
        apply wpx_resolve; [done|lia|]. rewrite drop_0. go. rewrite Hm. simpl app.
        assert (targets w n = Some ((fun x => c_idx w !! x) <$> a_cont A sl)) as Ht.
        { unfold targets. by rewrite En, Hal. }
        assert (search_all ((fun x => c_idx w !! x) <$> a_cont A sl) q e I
                = (search_obj ckn tk w q e <$> ((fun x => c_idx w !! x) <$> a_cont A sl))) as Hall.
        { unfold search_all. rewrite <- !list_fmap_compose. apply list_fmap_ext.
          intros _ x _. simpl. by apply (sc_search _ A). }
        assert (Hmany : forall l, (fun x => c_idx w !! x) <$> a_cont A sl = l -> length l <> 1 ->
          exists b, CM (Todo (CSearch n q e)) (MkD I A) w b (MkD I A) /\ forall k, 1 = S k ->
            wpx (CM (Todo (CSearch n q e)) (MkD I A) w) FIN (CR (Todo (CSearch n q e)) w) strict (wrtC (MkD I A))
              (GoSearch ((fun x => c_idx w !! x) <$> a_cont A sl) q e (fun result => RUnlock MI (Ret (RResults result))))
              (Some b) (MkRepo I A (MkRW 1 false false) (MkRW k false false))).
        { intros l El Hlen. exists (Gather (search_obj ckn tk w q e <$> ((fun x => c_idx w !! x) <$> a_cont A sl))). split.
          - apply cm_same; [done|]. split; [done|]. rewrite Ht, El.
            destruct l as [|? [|? ?]]; [done|simpl in Hlen; lia|done].
          - intros k [= <-]. go. rewrite Hall. split; [done|]. intros bl bl' E1 E2. go. intros k [= <-].
            eapply (fin_ret (OResults (concat bl'))); [|done]. by exists bl, bl'. }
        unfold search_tail.
        destruct (a_cont A sl) as [|x [|y l]] eqn:Ec; cbn [fmap list_fmap].
        * by apply (Hmany []).
        * go. destruct (search_obj ckn tk w q e (c_idx w !! x)) as [sr|] eqn:Es.
          -- exists (ret_obs (OResults sr)). split.
             ++ apply cm_same; [done|]. split; [done|]. rewrite Ht. simpl. by rewrite Es.
             ++ intros k [= <-]. rewrite (sc_search _ _ _ _ _ _ H), Es. go. intros k [= <-]. by eapply fin_ret.
          -- exists (Next (Answered Threw)). split.
             ++ apply cm_same; [done|]. split; [done|]. rewrite Ht. simpl. by rewrite Es.
             ++ intros k [= <-]. rewrite (sc_search _ _ _ _ _ _ H), Es. go. intros k [= <-]. by exists (Answered Threw).
        * eapply (Hmany _ eq_refl). rewrite fmap_length. simpl. lia.
      + assert (c_ali w !! n = None) as Hal by (by apply (shA_none _ _ HA)).
        exists (ret_obs (OError (not_exist_error n))). split.
        * apply cm_same; [done|]. split; [done|]. unfold targets. rewrite En, Hal. done.
        * intros k [= <-] k' [= <-]. by eapply fin_ret.
  Qed.

  Theorem all_sections x p D w :
    linkC x p D -> shC strict ckn tk D w -> ~ finished (TRun p) ->
    wpx (CM x D w) FIN (CR x w) strict (wrtC D) p None (alone D none_held).
  Proof.
    intros Hl Hs Hf. destruct x as [c|n d t|n|a i|[o|]].
    - destruct Hl as [-> Ha]. destruct c; simpl prog_of.
      + by apply sec_List. + by apply sec_ListAliases. + by apply sec_Has. + by apply sec_HasAlias.
      + by apply sec_Alias. + by apply sec_UnAlias. + by apply sec_Put. + by apply sec_Search.
      + apply sec_Rename; [|done]. intros ->. by apply (Ha old new).
      + by apply sec_Drop. + by apply sec_String.
    - destruct Hl as [-> Hn]. by apply sec_PutAt.
    - simpl in Hl. subst p. by apply sec_DropAt.
    - simpl in Hl. subst p. by apply sec_UnAliasAt.
    - destruct Hl as (r & -> & _). by destruct Hf.
    - simpl in Hl. subst p. by destruct Hf.
  Qed.
End sections.
