(** * The names kept in the index objects, and IndexRepo.String. *)
From stdpp Require Import list gmap.
From Verif Require Import Entities Search SpecSearch Repo Sem RepoWp SpecRepo ProofRepo ProofTotal Print.
Open Scope nat_scope.

(** The name an index object was built with, for every entry of the table. *)
Definition i_names (i : Ipart) : gmap string string :=
  omap (fun p => mi_name <$> i_heap i !! p) (i_map i).

(** How a call changes them. *)
Definition names_after (c : call) (v : view) (b : gmap string string) : gmap string string :=
  match c with
  | CPut n _ => if decide (v_idx v !! n = None /\ v_ali v !! n = None) then <[n := n]> b else b
  | CRename old new => match b !! old with Some nm => delete old (<[new := nm]> b) | None => b end
  | CDrop n => delete n b
  | _ => b
  end.

Definition keeps (Q : Ipart -> Prop) (res : result) : Prop :=
  match res with Done _ s | Panicked s => Q (r_I s) | _ => True end.

(** Programs that do not write the index table. *)
Fixpoint noI (p : prog) : Prop :=
  match p with
  | Ret _ | Throw => True
  | RLock _ k | RUnlock _ k | Lock _ k | Unlock _ k => noI k
  | GetIndex _ k => forall x, noI (k x)
  | SetIndex _ _ _ | DelIndex _ _ | NewIndex _ _ | IdxPut _ _ _ | GoPut _ _ _ => False
  | RangeIndices k => forall x, noI (k x)
  | GetAlias _ k => forall x, noI (k x)
  | SetAlias _ _ k | DelAlias _ k | StoreElem _ _ _ k => noI k
  | RangeAliases k => forall x, noI (k x)
  | LoadElem _ _ k => forall x, noI (k x)
  | Append _ _ k => forall x, noI (k x)
  | MakeSlice _ k => forall x, noI (k x)
  | IdxSearch _ _ _ k kp => (forall x, noI (k x)) /\ noI kp
  | IdxRead _ k => forall x, noI (k x)
  | GoSearch _ _ _ k => forall x, noI (k x)
  end.

Lemma noI_keeps p s : noI p -> wp p s (keeps (eq (r_I s))).
Proof.
  revert s. induction p; intros st Hp; cbn [noI wp] in *; try done; try (by apply H); try (by apply IHp).
  all: try (intros; by apply (H _ (set_A _ _))).
  all: try (by apply (IHp (set_A _ _))).
  all: try (by intros; apply H).
  all: try (by apply (H _ (set_A _ _))).
  - cbn zeta. destruct (rw_pending _ || rw_writer _); [done|].
    destruct m; [apply (IHp (set_mu MI _ st) Hp)|apply (IHp (set_mu MA _ st) Hp)].
  - cbn zeta. destruct (rw_readers _); [done|].
    destruct m; [apply (IHp (set_mu MI _ st) Hp)|apply (IHp (set_mu MA _ st) Hp)].
  - cbn zeta. destruct (rw_pending _ || rw_writer _); [done|]. destruct (rw_readers _); [|done].
    destruct m; [apply (IHp (set_mu MI _ st) Hp)|apply (IHp (set_mu MA _ st) Hp)].
  - cbn zeta. destruct (rw_writer _); [|done].
    destruct m; [apply (IHp (set_mu MI _ st) Hp)|apply (IHp (set_mu MA _ st) Hp)].
  - destruct Hp as [H1 H2]. destruct (i_search _ _ _ _); [by apply H|by apply IHp].
  - split; [done|]. intros. by apply H.
Qed.

Lemma noI_scan sl n i index k : (forall b, noI (k b)) -> noI (scan_loop sl i n index k).
Proof. intros H. revert i. induction n as [|n IH]; intros i; simpl; [done|]. intros x. destruct (decide _); auto. Qed.
Lemma noI_filter sl n i index acc k : (forall b, noI (k b)) -> noI (filter_loop sl i n index acc k).
Proof.
  intros H. revert i acc. induction n as [|n IH]; intros i acc; simpl; [done|]. intros x.
  destruct (decide _); simpl; auto.
Qed.
Lemma noI_resolve sl n i acc k : (forall b, noI (k b)) -> noI (resolve_loop sl i n acc k).
Proof. intros H. revert i acc. induction n as [|n IH]; intros i acc; simpl; auto. Qed.
Lemma noI_rows l acc k : (forall b, noI (k b)) -> noI (rows_loop l acc k).
Proof. intros H. revert acc. induction l as [|a l IH]; intros acc; simpl; [done|]. intros [x|]; auto. Qed.
Lemma noI_string show l acc k : (forall b, noI (k b)) -> noI (string_loop show l acc k).
Proof. intros H. revert acc. induction l as [|a l IH]; intros acc; simpl; [done|]. intros x [mi|]; auto. Qed.
Lemma noI_tail ps q e : noI (search_tail ps q e).
Proof. destruct ps as [|p [|p' ps]]; simpl; try done; split; done. Qed.

Definition writes_I (c : call) : Prop :=
  match c with CPut _ _ | CRename _ _ | CDrop _ => True | _ => False end.

Lemma noI_call c : ~ writes_I c -> noI (prog_of c).
Proof.
  destruct c; intros Hc; try (by destruct Hc); cbn [prog_of].
  - done.
  - intros l. by apply noI_rows.
  - done.
  - done.
  - intros [p|]; simpl; [|done]. intros [sl|]; simpl; [|done]. apply noI_scan. intros []; done.
  - unfold UnAlias_prog. destruct (decide _); simpl; [done|]. intros [p|]; simpl; [|done].
    intros [sl|]; simpl; [|done]. apply noI_filter. intros sl'. destruct (decide _); done.
  - intros [p|]; simpl; [split; done|]. intros [sl|]; simpl; [|done]. apply noI_resolve. intros ps. apply noI_tail.
  - intros l. by apply noI_string.
Qed.

Lemma names_put p d i : i_names (i_put p d i) = i_names i.
Proof.
  unfold i_names. simpl. apply map_eq. intros n. rewrite !lookup_omap.
  destruct (i_map i !! n) as [q|]; [|done]. simpl.
  destruct (decide (p = q)) as [->|Hne]; [|by rewrite lookup_alter_ne].
  rewrite lookup_alter. by destruct (i_heap i !! q).
Qed.
Lemma names_puts ps d i i' : puts ps d i = Some i' -> i_names i' = i_names i.
Proof.
  revert i. induction ps as [|[p|] ps IH]; intros i H; simplify_eq/=; [done|].
  rewrite (IH _ H). apply names_put.
Qed.
Lemma names_del n i : i_names (i_del n i) = delete n (i_names i).
Proof. unfold i_names. simpl. by rewrite omap_delete. Qed.

Section names.
  Context (ckn : bool) (tk : Tokenizer).

  Ltac start H s v :=
    destruct s as [I A im am], v as [idx ali lI lA], H as [HI HA E1 E2];
    cbn [v_idx v_ali v_leakI v_leakA r_I r_A r_imu r_amu] in *; subst im am.
  Ltac go := cbn [wp get_mu set_mu set_I set_A r_I r_A r_imu r_amu rw_readers rw_pending rw_writer orb].

  Lemma names_lookup i m n p : shI ckn tk i m -> i_map i !! n = Some p ->
    exists nm reqs, i_names i !! n = Some nm /\ i_heap i !! p = Some (index_after nm tk reqs) /\ m !! n = Some reqs.
  Proof.
    intros H Hn. destruct (shI_fwd _ _ _ _ H _ _ Hn) as (_ & nm & reqs & Hh & Hm).
    exists nm, reqs. unfold i_names. rewrite lookup_omap, Hn. simpl. rewrite Hh. simpl. split; [|done].
    f_equal. assert (E : forall rs mi, mi_name (fold_left Put rs mi) = mi_name mi).
    { clear. intros rs. induction rs as [|r rs IH]; intros mi; [done|]. cbn [fold_left]. by rewrite IH. }
    unfold index_after. by rewrite E.
  Qed.

  Lemma names_None i m n : shI ckn tk i m -> i_map i !! n = None -> i_names i !! n = None.
  Proof. intros H Hn. unfold i_names. by rewrite lookup_omap, Hn. Qed.

  Lemma names_Rename s v old new : shape ckn tk s v ->
    wp (Rename_prog old new) s (keeps (fun i => i_names i = names_after (CRename old new) v (i_names (r_I s)))).
  Proof.
    intros H. start H s v. unfold Rename_prog. go. destruct lI as [|lI]; go; [|done].
    destruct (i_map I !! old) as [p|] eqn:Eo; go.
    - intros names Hn. eapply wp_rename_loop.
      + exact HA.
      + by eapply keys_nodup.
      + intros a Ha. by eapply keys_elem in Ha.
      + intros x' m' Hx' _ Hm'. go. cbn [keeps r_I names_after].
        destruct (names_lookup _ _ _ _ HI Eo) as (nm & reqs & H1 & H2 & _). rewrite H1.
        rewrite names_del. f_equal. unfold i_names at 1. cbn [i_set i_map i_heap].
        apply map_eq. intros n. rewrite lookup_omap. destruct (decide (n = new)) as [->|Hne].
        * rewrite !lookup_insert. simpl. rewrite H2. simpl. f_equal.
          unfold i_names in H1. rewrite lookup_omap, Eo in H1. simpl in H1. rewrite H2 in H1. by injection H1.
        * rewrite !lookup_insert_ne by done. unfold i_names. by rewrite lookup_omap.
    - cbn [keeps r_I names_after]. by rewrite (names_None _ _ _ HI Eo).
  Qed.

  Lemma names_Drop s v n : shape ckn tk s v ->
    wp (Drop_prog n) s (keeps (fun i => i_names i = names_after (CDrop n) v (i_names (r_I s)))).
  Proof.
    intros H. start H s v. unfold Drop_prog. go.
    destruct (i_map I !! n) as [p|] eqn:En; go.
    2:{ cbn [keeps r_I names_after]. by rewrite delete_notin by (by eapply names_None). }
    destruct lI as [|lI]; go; [|done]. destruct lA; go; [done|].
    intros names Hn. eapply wp_drop.
    - exact HA.
    - by eapply keys_nodup.
    - intros a Ha. by eapply keys_elem in Ha.
    - intros x' m' Hx' _ Hm'. go. cbn [keeps r_I names_after]. apply names_del.
  Qed.

  Lemma names_Put s v n d : shape ckn tk s v ->
    wp (Put_prog n d) s (keeps (fun i => i_names i = names_after (CPut n d) v (i_names (r_I s)))).
  Proof.
    intros H. start H s v. unfold Put_prog, getIndices. go. cbn [names_after v_idx v_ali].
    destruct (i_map I !! n) as [p|] eqn:En; go.
    - destruct (shI_fwd _ _ _ _ HI _ _ En) as (_ & nm & reqs & _ & Hm). rewrite Hm.
      destruct lI as [|lI]; go; [|done]. split; [done|].
      intros ps' i' Hp Hi. go. cbn [keeps r_I]. rewrite decide_False by (by intros [? _]).
      by eapply names_puts.
    - apply (shI_None _ _ _ _ _ HI) in En as Hm. rewrite Hm. destruct lA; go; [done|].
      destruct (a_map A !! n) as [sl|] eqn:Ea; go.
      + destruct (shA_fwd _ _ HA _ _ Ea) as [Hw Ham]. rewrite Ham.
        apply wp_resolve; [done|lia|]. rewrite drop_0. go.
        destruct lI as [|lI]; go; [|done]. split; [done|]. intros ps' i' Hp Hi. go. cbn [keeps r_I].
        rewrite decide_False by (by intros [_ ?]). by eapply names_puts.
      + apply (shA_m_None _ _ _ HA) in Ea as Ham. rewrite Ham. destruct lI as [|lI]; go; [|done].
        cbn [keeps r_I]. rewrite decide_True by done. rewrite names_put.
        unfold i_names. cbn [i_set i_new i_map i_heap]. apply map_eq. intros n'.
        rewrite lookup_omap. destruct (decide (n' = n)) as [->|Hne].
        * rewrite !lookup_insert. simpl. rewrite lookup_insert. simpl. by rewrite (shI_builder _ _ _ _ HI).
        * rewrite !lookup_insert_ne by done. rewrite lookup_omap.
          destruct (i_map I !! n') as [p'|] eqn:E; [|done]. simpl.
          apply (shI_fwd _ _ _ _ HI) in E as [Hlt _]. by rewrite lookup_insert_ne by lia.
  Qed.

  Lemma names_call s v c res : shape ckn tk s v -> call_result c s res ->
    keeps (fun i => i_names i = names_after c v (i_names (r_I s))) res.
  Proof.
    intros H Hc. assert (Hdec : writes_I c \/ ~ writes_I c) by (destruct c; cbn; tauto).
    destruct Hdec as [Hw|Hw].
    { destruct c; cbn in *; try done; (eapply wp_sound; [|exact Hc]).
      - by apply (names_Put s v).
      - by apply (names_Rename s v).
      - by apply (names_Drop s v). }
    pose proof (wp_sound _ _ _ _ (noI_keeps _ s (noI_call c Hw)) Hc) as Hk.
    destruct res; cbn [keeps] in *; try done; rewrite <- Hk; by destruct c.
  Qed.

  (** The text of String. *)
  Definition texts (show : MemoryIndex -> string) (f : string -> option MemoryIndex) (names : list string) : string :=
    foldr (fun n t => (default "<nil>" (show <$> f n) ++ newline ++ t)%string) ""%string names.

  Lemma append_assoc (a b c : string) : ((a ++ b) ++ c = a ++ b ++ c)%string.
  Proof.
    induction a as [|x a IH]; [done|]. change (String x ((a ++ b) ++ c) = String x (a ++ b ++ c))%string. by rewrite IH.
  Qed.
  Lemma append_nil (a : string) : (a ++ "" = a)%string.
  Proof. induction a as [|x a IH]; [done|]. change (String x (a ++ "") = String x a)%string. by rewrite IH. Qed.

  Lemma wp_string_text show names acc k s Q :
    wp (k (acc ++ texts show (fun n => i_map (r_I s) !! n ≫= fun p => i_heap (r_I s) !! p) names)%string) s Q ->
    wp (string_loop show names acc k) s Q.
  Proof.
    revert acc. induction names as [|n names IH]; intros acc H; simpl in *; [by rewrite append_nil in H|].
    destruct (_ ≫= _) as [mi|]; simpl in H; apply IH; by rewrite !append_assoc.
  Qed.

  Lemma String_text s v show res : shape ckn tk s v -> call_result (CString show) s res ->
    exists names, names ≡ₚ (map_to_list (v_idx v)).*1 /\
      res = Done (RText (texts show (fun n => nm ← i_names (r_I s) !! n; reqs ← v_idx v !! n; Some (index_after nm tk reqs)) names)) s.
  Proof.
    intros H Hc.
    refine (wp_sound _ _ (fun res => exists names, names ≡ₚ (map_to_list (v_idx v)).*1 /\
      res = Done (RText (texts show (fun n => nm ← i_names (r_I s) !! n; reqs ← v_idx v !! n; Some (index_after nm tk reqs)) names)) s) _ _ Hc).
    start H s v. cbn [prog_of]. unfold String_prog. go. intros names Hn. apply wp_string_text. go.
    exists names. split; [by rewrite Hn; eapply shI_keys|]. cbn [v_idx r_I].
    match goal with |- Done (RText ?a) ?x = Done (RText ?b) ?y => enough (E : a = b) by (by rewrite E) end.
    match goal with |- ("" ++ ?a)%string = ?b => change (a = b) end.
    assert (Hx : forall x, x ∈ names -> is_Some (i_map I !! x)).
    { intros x. rewrite Hn. intros Hx. apply elem_of_list_fmap in Hx as ([y p] & -> & Hx).
      apply elem_of_map_to_list in Hx. eauto. }
    clear Hn. induction names as [|n names IH]; [done|]. cbn [texts foldr] in *.
    unfold texts in IH. rewrite IH by (intros; apply Hx; by right).
    destruct (Hx n) as [p Hp]; [left|]. destruct (names_lookup _ _ _ _ HI Hp) as (nm & reqs & H1 & H2 & H3).
    rewrite Hp, H1. cbn [mbind option_bind]. by rewrite H2, H3.
  Qed.
End names.
