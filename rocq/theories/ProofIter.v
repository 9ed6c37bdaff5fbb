(** * Proofs: loops over the maps key by key reach what the loops of Sem.v reach. *)
From Coq Require Import Lia.
From stdpp Require Import list fin_maps.
From Verif Require Import Entities Search Repo Sem SpecRepo Locks ProofReach ProofHb Iter.
Open Scope nat_scope.

Lemma keys_NoDup tb s : NoDup (keys tb s).
Proof. destruct tb; apply NoDup_fst_map_to_list. Qed.

Definition part_tb (tb : table) : part := match tb with TI => PI | TA => PM end.

Lemma keys_agree fn tb s s' : agree fn (dat s') (dat s) -> fn (part_tb tb) -> keys tb s' = keys tb s.
Proof.
  intros (H1 & H2 & _) Hf. destruct tb; simpl in *.
  - specialize (H1 Hf). by rewrite H1.
  - specialize (H2 Hf). by rewrite H2.
Qed.

(** The keys still to come. *)
Definition pend (tb : table) (s : repo) (seen : list string) : list string :=
  filter (fun x => x ∉ seen) (keys tb s).

Lemma pend_elem tb s seen x : x ∈ pend tb s seen <-> x ∉ seen /\ x ∈ keys tb s.
Proof. unfold pend. by rewrite elem_of_list_filter. Qed.

Lemma pend_NoDup tb s seen : NoDup (pend tb s seen).
Proof. apply NoDup_filter, keys_NoDup. Qed.

Lemma pend_same tb s s' seen :
  (forall y, y ∉ seen -> y ∈ keys tb s' <-> y ∈ keys tb s) -> pend tb s' seen ≡ₚ pend tb s seen.
Proof.
  intros H. apply NoDup_Permutation; [apply pend_NoDup..|].
  intros y. rewrite !pend_elem. naive_solver.
Qed.

Lemma pend_pick tb s seen x :
  x ∈ keys tb s -> x ∉ seen -> pend tb s seen ≡ₚ x :: pend tb s (x :: seen).
Proof.
  intros Hx Hs. apply NoDup_Permutation.
  - apply pend_NoDup.
  - constructor; [|apply pend_NoDup]. rewrite pend_elem. set_solver.
  - intros y. rewrite elem_of_cons, !pend_elem. destruct (decide (y = x)) as [->|]; set_solver.
Qed.

(** ** Bodies of loops *)
Inductive body (tb : table) (x : string) : (list string -> prog) -> Prop :=
| Bo_head f L : table_of L = tb -> (forall r, f r = todo L r) -> body tb x f
| Bo_GetIndex f n k :
    (forall r, f r = GetIndex n (k r)) -> (forall o, body tb x (fun r => k r o)) -> body tb x f
| Bo_IdxRead f p k :
    (forall r, f r = IdxRead p (k r)) -> (forall o, body tb x (fun r => k r o)) -> body tb x f
| Bo_GetAlias f a k :
    (forall r, f r = GetAlias a (k r)) -> (forall o, body tb x (fun r => k r o)) -> body tb x f
| Bo_LoadElem f sl i k :
    (forall r, f r = LoadElem sl i (k r)) -> (forall o, body tb x (fun r => k r o)) -> body tb x f
| Bo_Append f sl v k :
    (forall r, f r = Append sl v (k r)) -> (forall o, body tb x (fun r => k r o)) -> body tb x f
| Bo_StoreElem f sl i v k :
    (forall r, f r = StoreElem sl i v (k r)) -> body tb x k -> body tb x f
| Bo_SetAlias f sl k :
    (forall r, f r = SetAlias x sl (k r)) -> body tb x k -> body tb x f
| Bo_DelAlias f k :
    (forall r, f r = DelAlias x (k r)) -> body tb x k -> body tb x f.

Lemma body_ext tb x f g : body tb x f -> (forall r, g r = f r) -> body tb x g.
Proof.
  intros H E. destruct H.
  - eapply Bo_head; [done|]. intros r. by rewrite E.
  - eapply Bo_GetIndex; [|done]. intros r. by rewrite E.
  - eapply Bo_IdxRead; [|done]. intros r. by rewrite E.
  - eapply Bo_GetAlias; [|done]. intros r. by rewrite E.
  - eapply Bo_LoadElem; [|done]. intros r. by rewrite E.
  - eapply Bo_Append; [|done]. intros r. by rewrite E.
  - eapply Bo_StoreElem; [|done]. intros r. by rewrite E.
  - eapply Bo_SetAlias; [|done]. intros r. by rewrite E.
  - eapply Bo_DelAlias; [|done]. intros r. by rewrite E.
Qed.

Lemma body_filter tb x sl n i index acc (k : list string -> slice -> prog) :
  (forall o, body tb x (fun r => k r o)) ->
  body tb x (fun r => filter_loop sl i n index acc (k r)).
Proof.
  intros Hk. revert i acc. induction n as [|n IH]; intros i acc; [apply Hk|].
  eapply (Bo_LoadElem _ _ _ sl i (fun r y => if decide (y = index) then filter_loop sl (S i) n index acc (k r)
              else Append acc y (fun acc' => filter_loop sl (S i) n index acc' (k r)))); [done|].
  intros o. destruct (decide (o = index)); [apply IH|].
  eapply (Bo_Append _ _ _ acc o (fun r acc' => filter_loop sl (S i) n index acc' (k r))); [done|].
  intros o'. apply IH.
Qed.

Lemma body_elems tb x sl n i old new (k : list string -> prog) :
  body tb x k -> body tb x (fun r => rename_elems sl i n old new (k r)).
Proof.
  intros Hk. revert i. induction n as [|n IH]; intros i; [apply Hk|].
  eapply (Bo_LoadElem _ _ _ sl i (fun r y => if decide (y = old) then StoreElem sl i new (rename_elems sl (S i) n old new (k r))
              else rename_elems sl (S i) n old new (k r))); [done|].
  intros o. destruct (decide (o = old)); [|apply IH].
  eapply (Bo_StoreElem _ _ _ sl i new (fun r => rename_elems sl (S i) n old new (k r))); [done|]. apply IH.
Qed.

Lemma body_todo L x : body (table_of L) x (fun rest => todo L (x :: rest)).
Proof.
  destruct L as [acc|acc|show acc|n|old new]; simpl.
  - apply (Bo_head _ _ _ (LNames (acc ++ [x]))); [done|]. intros r. simpl. by rewrite <- app_assoc.
  - eapply Bo_GetAlias; [done|]. intros [s|].
    + by apply (Bo_head _ _ _ (LRows (acc ++ [(x, s)]))).
    + by apply (Bo_head _ _ _ (LRows acc)).
  - eapply Bo_GetIndex; [done|]. intros oi.
    eapply (Bo_IdxRead _ _ _ oi (fun r omi => match omi with
      | Some mi => todo (LText show (acc ++ show mi ++ String (ascii_of_N 10) "")%string) r
      | None => todo (LText show (acc ++ "<nil>" ++ String (ascii_of_N 10) "")%string) r end)); [done|].
    intros [mi|]; [by apply (Bo_head _ _ _ (LText show (acc ++ show mi ++ String (ascii_of_N 10) "")%string))|].
    by apply (Bo_head _ _ _ (LText show (acc ++ "<nil>" ++ String (ascii_of_N 10) "")%string)).
  - eapply Bo_GetAlias; [done|]. intros [s|]; [|by apply (Bo_head _ _ _ (LDrop n))].
    apply (body_filter TA x s (sl_len s) 0 n nil_slice (fun r newIndices =>
      if decide (sl_len newIndices < 1)%nat then DelAlias x (todo (LDrop n) r)
          else if decide (sl_len newIndices = sl_len s) then todo (LDrop n) r
          else SetAlias x newIndices (todo (LDrop n) r))).
    intros o. destruct (decide _).
    + eapply (Bo_DelAlias _ _ _ (todo (LDrop n))); [done|]. by apply (Bo_head _ _ _ (LDrop n)).
    + destruct (decide _); [by apply (Bo_head _ _ _ (LDrop n))|].
      eapply (Bo_SetAlias _ _ _ o (todo (LDrop n))); [done|]. by apply (Bo_head _ _ _ (LDrop n)).
  - eapply Bo_GetAlias; [done|]. intros [s|]; [|by apply (Bo_head _ _ _ (LRename old new))].
    apply (body_elems TA x s (sl_len s) 0 old new (todo (LRename old new))). by apply (Bo_head _ _ _ (LRename old new)).
Qed.

Lemma bstep_tstep s f f' s' r : bstep s f f' s' -> tstep s (TRun (f r)) (TNext (TRun (f' r)) s').
Proof. intros H. destruct H as [? ? E|? ? E|? ? E|? ? ? E|? ? E|? ? ? E|? ? ? ? E|? ? ? ? E]; rewrite (E r); by constructor. Qed.

Lemma bstep_held s f f' s' r h : bstep s f f' s' -> held_after (TRun (f r)) h = h.
Proof. intros H. destruct H as [? ? E|? ? E|? ? E|? ? ? E|? ? E|? ? ? E|? ? ? ? E|? ? ? ? E]; by rewrite (E r). Qed.

Lemma keys_elem tb s y :
  y ∈ keys tb s <-> match tb with TI => is_Some (i_map (r_I s) !! y) | TA => is_Some (a_map (r_A s) !! y) end.
Proof.
  destruct tb; simpl; rewrite elem_of_list_fmap; split.
  - intros ([a b] & -> & H%elem_of_map_to_list). by exists b.
  - intros [b H]. exists (y, b). split; [done|]. by apply elem_of_map_to_list.
  - intros ([a b] & -> & H%elem_of_map_to_list). by exists b.
  - intros [b H]. exists (y, b). split; [done|]. by apply elem_of_map_to_list.
Qed.

Lemma append_map sl v cap x : a_map (a_append sl v cap x).1 = a_map x.
Proof. unfold a_append. by destruct (_ <? _). Qed.

Lemma body_step tb x s f f' s' :
  body tb x f -> bstep s f f' s' ->
  body tb x f' /\ (forall y, y <> x -> y ∈ keys tb s' <-> y ∈ keys tb s).
Proof.
  intros Hb Hs.
  destruct Hs as [? ? E|? ? E|? ? E|? ? ? E|? ? E|? ? ? E|? ? ? ? E|? ? ? ? E];
    destruct Hb as [f L Ht E'|f n' k' E' Hb|f n' k' E' Hb|f n' k' E' Hb|f n' i' k' E' Hb|f n' v' k' E' Hb|f n' i' v' k' E' Hb|f n' k' E' Hb|f k' E' Hb];
    try (exfalso; specialize (E []); rewrite E' in E; try (by destruct L); discriminate E);
    assert (E2 := fun r => eq_trans (eq_sym (E r)) (E' r)); specialize (E []); rewrite E' in E;
    injection E as ? ?; subst; (split; [first [
      eapply body_ext; [apply Hb|]; intros r; specialize (E2 r); simpl; congruence
    | eapply body_ext; [apply Hb|]; intros r; specialize (E2 r); by injection E2 as -> ]|]).
  all: intros y Hy; rewrite !keys_elem; destruct tb; simpl; try done.
  all: rewrite ?append_map, ?lookup_insert_ne, ?lookup_delete_ne by done; try done.
Qed.

(** ** One step, and what it is in Sem.v *)
(** [t] looks like this in Sem.v if the keys [r] are to come. *)
Definition view (r : list string) (t : fthr) : thr :=
  match t with FRun t => t | FHead L _ _ => TRun (todo L r) | FBody _ _ _ f => TRun (f r) end.
Definition fits (t : fthr) (s : repo) (r : list string) : Prop :=
  match t with
  | FRun _ => True
  | FHead L _ seen => r ≡ₚ pend (table_of L) s seen
  | FBody tb _ seen _ => r ≡ₚ pend tb s seen
  end.
Definition fdisc (md : mode) (L : ret -> Prop) (h : held) (t : fthr) : Prop :=
  match t with
  | FRun t => tdisc md L true h t
  | FHead lp _ _ => canR md (part_tb (table_of lp)) h /\ forall r, disc md L true h (todo lp r)
  | FBody tb _ seen f =>
      canR md (part_tb tb) h /\ (forall r, disc md L true h (f r)) /\ exists x, x ∈ seen /\ body tb x f
  end.
Definition fkeys (t : fthr) (s : repo) : Prop :=
  match t with
  | FRun _ => True
  | FHead L init seen => forall y, y ∈ keys (table_of L) s -> y ∉ seen -> y ∈ init
  | FBody tb init seen _ => forall y, y ∈ keys tb s -> y ∉ seen -> y ∈ init
  end.
Definition fold_keys (t : fthr) (s : repo) : Prop :=
  match t with
  | FRun _ => True
  | FHead L init seen => forall y, y ∈ init -> y ∈ keys (table_of L) s
  | FBody tb init seen _ => forall y, y ∈ init -> y ∈ keys tb s
  end.

Lemma view_shrink r s t : view r (shrink s t) = view r t.
Proof. by destruct t. Qed.
Lemma fits_shrink s0 t s r : fits (shrink s0 t) s r <-> fits t s r.
Proof. by destruct t. Qed.
Lemma fdisc_shrink md L h s t : fdisc md L h t -> fdisc md L h (shrink s t).
Proof. by destruct t. Qed.
Lemma fkeys_shrink t s : fkeys t s -> fkeys (shrink s t) s.
Proof. destruct t; simpl; [done|..]; intros H y Hy Hs; apply elem_of_list_filter; auto. Qed.
Lemma fold_shrink t s : fold_keys (shrink s t) s.
Proof. destruct t; simpl; [done|..]; intros y Hy; by apply elem_of_list_filter in Hy as [? _]. Qed.

Lemma agree_refl fn D : agree fn D D.
Proof. by repeat split. Qed.

Definition same_step (t : fthr) (s : repo) (t' : fthr) (s' : repo) : Prop :=
  forall r', fits t' s' r' -> exists r, fits t s r /\
    ((s' = s /\ view r' t' = view r t) \/ tstep s (view r t) (TNext (view r' t') s')).

Lemma body_facts md L h tb x s f f' s' :
  (forall r, disc md L true h (f r)) -> body tb x f -> bstep s f f' s' ->
  (forall r, disc md L true h (f' r)) /\ lstep h s h s' /\ agree (fun y => negb (canW md y h)) (dat s') (dat s).
Proof.
  intros Hd Hb Hs. split_and!.
  - intros r. pose proof (bstep_tstep _ _ _ _ r Hs) as Ht.
    destruct (step_held md L h (TRun (f r)) _ _ _ (Hd r) Ht) as [H _]. by rewrite (bstep_held _ _ _ _ r h Hs) in H.
  - pose proof (bstep_tstep _ _ _ _ [] Hs) as Ht.
    destruct (step_held md L h (TRun (f [])) _ _ _ (Hd []) Ht) as [_ H]. by rewrite (bstep_held _ _ _ _ [] h Hs) in H.
  - pose proof (bstep_tstep _ _ _ _ [] Hs) as Ht.
    destruct (step_disc md L true h (TRun (f [])) _ _ _ (Hd []) Ht (or_introl eq_refl)) as (? & ? & _ & _ & _ & _ & _ & H & _). done.
Qed.

Lemma pend_nil tb s : pend tb s [] = keys tb s.
Proof. unfold pend. induction (keys tb s) as [|y l IH]; [done|]. rewrite filter_cons_True by set_solver. by rewrite IH. Qed.

Lemma fstep_ok md L h t s t' s' :
  fdisc md L h t -> fkeys t s -> fstep s t (FNext t' s') ->
  (exists h', fdisc md L h' t' /\ lstep h s h' s') /\ fkeys t' s' /\
  agree (fun y => negb (canW md y h)) (dat s') (dat s) /\ same_step t s t' s'.
Proof.
  intros Hd Hk Hs. inversion Hs as [u u' s1 Hnr Hts| |k lp Htb Hkl|k lp Htb Hkl|lp init seen x Hx Hns|tb init seen f f' s1 Hbs|tb init seen f lp Htb Hfl|lp init seen Hall]; subst; cbn [fdisc fkeys] in *.
  - destruct (step_held _ _ _ _ _ _ _ Hd Hts) as [Hd' Hl].
    destruct (step_disc md L true h _ _ _ _ Hd Hts (or_introl eq_refl)) as (? & ? & _ & _ & _ & _ & _ & Ha & _).
    split_and!; [by eexists|done|done|]. intros r' _. exists []. split; [done|]. by right.
  - destruct Hd as [Hc Hd]. split_and!.
    + exists h. split; [|by constructor]. cbn [fdisc]; rewrite Htb. split; [done|]. intros r. rewrite <- Hkl. apply Hd.
    + cbn [fkeys]; rewrite Htb. auto.
    + apply agree_refl.
    + intros r' Hf. exists []. split; [done|]. right. simpl in *. rewrite Htb, pend_nil in Hf.
      rewrite <- Hkl. by constructor.
  - destruct Hd as [Hc Hd]. split_and!.
    + exists h. split; [|by constructor]. cbn [fdisc]; rewrite Htb. split; [done|]. intros r. rewrite <- Hkl. apply Hd.
    + cbn [fkeys]; rewrite Htb. auto.
    + apply agree_refl.
    + intros r' Hf. exists []. split; [done|]. right. simpl in *. rewrite Htb, pend_nil in Hf.
      rewrite <- Hkl. by constructor.
  - destruct Hd as [Hc Hd]. split_and!.
    + exists h. split; [|by constructor]. split_and!; [done|intros r; apply Hd|].
      exists x. split; [by left|]. apply body_todo.
    + intros y Hy Hy2. apply Hk; [done|]. set_solver.
    + apply agree_refl.
    + intros r' Hf. exists (x :: r'). split; [|by left]. simpl in *.
      rewrite Hf. by rewrite <- pend_pick.
  - destruct Hd as (Hc & Hd & x & Hx & Hb).
    destruct (body_facts _ _ _ _ _ _ _ _ _ Hd Hb Hbs) as (H2 & H3 & H4).
    destruct (body_step _ _ _ _ _ _ Hb Hbs) as [Hb' Hky].
    assert (Hky' : forall y, y ∉ seen -> y ∈ keys tb s' <-> y ∈ keys tb s)
      by (intros y Hy; apply Hky; by intros ->).
    split_and!.
    + exists h. split; [|done]. split_and!; [done|done|]. by exists x.
    + intros y Hy Hy2. apply Hk; [|done]. by apply Hky'.
    + done.
    + intros r' Hf. exists r'. split; [|right; by apply bstep_tstep]. simpl in *.
      rewrite Hf. by apply pend_same.
  - destruct Hd as (Hc & Hd & x & Hx & Hb). split_and!.
    + exists h. split; [|by constructor]. split; [done|]. intros r. by rewrite <- Hfl.
    + done.
    + apply agree_refl.
    + intros r' Hf. exists r'. split; [done|]. left. simpl. by rewrite Hfl.
  - destruct Hd as [Hc Hd]. split_and!.
    + exists h. split; [|by constructor]. apply Hd.
    + done.
    + apply agree_refl.
    + intros r' _. exists []. split; [|by left]. simpl.
      assert (E : pend (table_of lp) s' seen = []); [|by rewrite E].
      apply elem_of_nil_inv. intros y Hy. apply pend_elem in Hy as [Hy1 Hy2]. auto.
Qed.

(** ** The pool *)
Record finv (md : mode) (L : nat -> ret -> Prop) (hs : list held) (ts : list fthr) (s : repo) : Prop := {
  fi_len : length hs = length ts;
  fi_thr : forall i t h, ts !! i = Some t -> hs !! i = Some h -> fdisc md (L i) h t;
  fi_lock : forall m, lock_ok (get_mu m s) (get_h m <$> hs);
  fi_keys : forall i t, ts !! i = Some t -> fkeys t s /\ fold_keys t s }.

Lemma finv_compat md L hs ts s i j hi hj :
  finv md L hs ts s -> hs !! i = Some hi -> hs !! j = Some hj -> i <> j -> compat hi hj.
Proof.
  intros [_ _ H _] Hi Hj Hne. split.
  - eapply (lock_ok_compat _ _ i j _ _ (H MI)); [..|done]; rewrite list_lookup_fmap; [by rewrite Hi|by rewrite Hj].
  - eapply (lock_ok_compat _ _ i j _ _ (H MA)); [..|done]; rewrite list_lookup_fmap; [by rewrite Hi|by rewrite Hj].
Qed.

Definition at_table (t : fthr) (tb : table) : Prop :=
  match t with FRun _ => False | FHead L _ _ => table_of L = tb | FBody tb' _ _ _ => tb' = tb end.

(** The others see the same keys. *)
Lemma keys_others md L hs ts s s' i j h hj tj tb :
  md <> Any -> finv md L hs ts s -> hs !! i = Some h -> hs !! j = Some hj -> ts !! j = Some tj -> i <> j ->
  agree (fun y => negb (canW md y h)) (dat s') (dat s) -> at_table tj tb -> keys tb s' = keys tb s.
Proof.
  intros Hmd Hi Hh Hhj Htj Hne Ha Hat.
  assert (Hr : canR md (part_tb tb) hj).
  { pose proof (fi_thr _ _ _ _ _ Hi j tj hj Htj Hhj) as Hd. destruct tj; simpl in *; [done|..]; subst; by destruct Hd. }
  eapply keys_agree; [done|]. simpl. destruct (canW md (part_tb tb) h) eqn:E; [|done].
  pose proof (finv_compat _ _ _ _ _ _ _ _ _ Hi Hh Hhj Hne) as Hc.
  rewrite (can_excl md (part_tb tb) h hj Hmd Hc) in Hr by (by rewrite E). done.
Qed.

Lemma finv_step md L hs ts s i t t' s' :
  md <> Any -> finv md L hs ts s -> ts !! i = Some t -> fstep s t (FNext t' s') ->
  (exists hs', finv md L hs' (shrink s' <$> <[i := t']> ts) s') /\ same_step t s t' s' /\
  (forall j tj r, j <> i -> ts !! j = Some tj -> fits tj s' r <-> fits tj s r).
Proof.
  intros Hmd Hi Ht Hs.
  destruct (lookup_lt_is_Some_2 hs i) as [h Hh]; [rewrite (fi_len _ _ _ _ _ Hi); by eapply lookup_lt_Some|].
  destruct (fi_keys _ _ _ _ _ Hi _ _ Ht) as [Hk _].
  destruct (fstep_ok md (L i) h t s t' s') as ((h' & Hd' & Hl) & Hk' & Ha & Hss); [by eapply fi_thr|done|done|].
  assert (Hoth : forall j tj, j <> i -> ts !! j = Some tj -> forall tb, at_table tj tb -> keys tb s' = keys tb s).
  { intros j tj Hj Htj tb Hat.
    destruct (lookup_lt_is_Some_2 hs j) as [hj Hhj]; [rewrite (fi_len _ _ _ _ _ Hi); by eapply lookup_lt_Some|].
    by apply (keys_others md L hs ts s s' i j h hj tj tb); auto. }
  split_and!; [|done|].
  - exists (<[i := h']> hs). split.
    + rewrite fmap_length, !insert_length. apply Hi.
    + intros j t1 h1 Hj Hhj. rewrite list_lookup_fmap in Hj. apply fmap_Some in Hj as (t2 & Hj & ->).
      apply fdisc_shrink. apply list_lookup_insert_Some in Hj as [(-> & <- & _)|[Hne Hj]].
      * apply list_lookup_insert_Some in Hhj as [(_ & E & _)|[? _]]; [|done]. by subst.
      * rewrite list_lookup_insert_ne in Hhj by done. by eapply fi_thr.
    + intros m.
      assert (Hl0 : forall m, lock_ok (get_mu m s) ((fun x : bool * held => get_h m x.2) <$> (pair true <$> hs))).
      { intros m0. rewrite <- list_fmap_compose. apply Hi. }
      assert (Hg : (pair true <$> hs) !! i = Some (true, h)) by (by rewrite list_lookup_fmap, Hh).
      pose proof (locks_step _ i true h true h' s s' Hl0 Hg Hl m) as H.
      rewrite <- (list_fmap_insert (pair true)), <- list_fmap_compose in H. done.
    + intros j t1 Hj. rewrite list_lookup_fmap in Hj. apply fmap_Some in Hj as (t2 & Hj & ->).
      split; [|apply fold_shrink]. apply fkeys_shrink.
      apply list_lookup_insert_Some in Hj as [(-> & <- & _)|[Hne Hj]]; [done|].
      destruct (fi_keys _ _ _ _ _ Hi _ _ Hj) as [Hkj _].
      pose proof (Hoth j t2 (not_eq_sym Hne) Hj) as E. destruct t2; simpl in *; [done|..]; rewrite (E _ eq_refl); done.
  - intros j tj r Hne Hj. pose proof (Hoth j tj Hne Hj) as E.
    destruct tj; simpl in *; [done|..]; unfold pend; rewrite (E _ eq_refl); done.
Qed.

(** ** Fine runs are runs *)
Definition shows (ts : list fthr) (s : repo) (cs : list thr) : Prop :=
  length cs = length ts /\
  forall i t c, ts !! i = Some t -> cs !! i = Some c -> exists r, fits t s r /\ c = view r t.

Lemma finv_start md cs s :
  r_imu s = rw_free -> r_amu s = rw_free -> Forall (allowed md) cs ->
  finv md (leaks_of cs) (replicate (length cs) none_held) (fstart cs) s.
Proof.
  intros E1 E2 Hc. destruct (pool_start md cs s E1 E2 Hc) as [H1 H2 H3]. split.
  - unfold fstart. by rewrite fmap_length, replicate_length.
  - intros i t h Hi Hg. apply lookup_replicate in Hg as [-> Hlt].
    unfold fstart in Hi. apply list_lookup_fmap_inv in Hi as (c & -> & Hi). simpl.
    apply (H2 i (TRun (prog_of c)) true none_held); [|by apply lookup_replicate].
    unfold start. by rewrite list_lookup_fmap, Hi.
  - intros m. specialize (H3 m). rewrite fmap_replicate in H3. by rewrite fmap_replicate.
  - intros i t Hi. unfold fstart in Hi. by apply list_lookup_fmap_inv in Hi as (c & -> & Hi).
Qed.

Lemma shows_start cs s ts : shows (fstart cs) s ts -> ts = start cs.
Proof.
  intros [Hl H]. unfold fstart, start in *. rewrite fmap_length in Hl. apply list_eq_same_length with (length cs); [by rewrite fmap_length|done|].
  intros i x y Hi Hx Hy. apply list_lookup_fmap_inv in Hy as (c & -> & Hc).
  destruct (H i (FRun (TRun (prog_of c))) x) as (r & _ & ->); [by rewrite list_lookup_fmap, Hc|done|done].
Qed.

Lemma fine_coarse md cs s p :
  md <> Any -> r_imu s = rw_free -> r_amu s = rw_free -> Forall (allowed md) cs ->
  rtc fpstep (FPool (fstart cs) s) p ->
  match p with
  | FPool ts s' =>
      (exists hs, finv md (leaks_of cs) hs ts s') /\
      forall cts, shows ts s' cts -> rtc pstep (Pool (start cs) s) (Pool cts s')
  | FPCrashed => rtc pstep (Pool (start cs) s) PCrashed
  end.
Proof.
  intros Hmd E1 E2 Hc Hp.
  refine (rtc_ind_r (R := fpstep) (fun p => match p with
    | FPool ts s' => (exists hs, finv md (leaks_of cs) hs ts s') /\
        forall cts, shows ts s' cts -> rtc pstep (Pool (start cs) s) (Pool cts s')
    | FPCrashed => rtc pstep (Pool (start cs) s) PCrashed end) (FPool (fstart cs) s) _ _ p Hp).
  - split; [eexists; by apply finv_start|]. intros cts ->%shows_start. done.
  - intros y z _ Hs IH. destruct Hs as [ts s1 i t t' s' Ht Hs|ts s1 i t Ht Hs]; destruct IH as [[hs Hi] IH].
    + destruct (finv_step _ _ _ _ _ _ _ _ _ Hmd Hi Ht Hs) as (Hi' & Hss & Hoth). split; [done|].
      intros cts [Hl Hv]. rewrite fmap_length, insert_length in Hl.
      assert (Hlt : i < length ts) by (by eapply lookup_lt_Some).
      destruct (lookup_lt_is_Some_2 cts i) as [c Hci]; [lia|].
      destruct (Hv i (shrink s' t') c) as (r' & Hf & ->); [by rewrite list_lookup_fmap, list_lookup_insert|done|].
      rewrite fits_shrink in Hf. rewrite view_shrink in Hci.
      destruct (Hss r' Hf) as (r & Hfr & Hst).
      assert (Hsh : shows ts s1 (<[i := view r t]> cts)).
      { split; [by rewrite insert_length|]. intros j tj c Hj Hcj. destruct (decide (j = i)) as [->|Hne].
        - rewrite list_lookup_insert in Hcj by lia. exists r. split; congruence.
        - rewrite list_lookup_insert_ne in Hcj by done.
          destruct (Hv j (shrink s' tj) c) as (rj & Hfj & ->); [by rewrite list_lookup_fmap, list_lookup_insert_ne, Hj|done|].
          rewrite fits_shrink in Hfj. rewrite view_shrink. exists rj. split; [|done]. by eapply Hoth. }
      pose proof (IH _ Hsh) as Hr. destruct Hst as [[-> E]|Hst].
      * rewrite <- E in Hr. by rewrite list_insert_id in Hr.
      * eapply rtc_r; [exact Hr|]. replace cts with (<[i := view r' t']> (<[i := view r t]> cts)) at 2.
        { eapply P_step; [apply list_lookup_insert; lia|done]. }
        rewrite list_insert_insert. by apply list_insert_id.
    + inversion Hs as [|u Hu| | | | | |]; subst.
      assert (Hex : exists cts, shows ts s1 cts).
      { exists ((fun t => match t with FRun t => t | FHead L _ seen => TRun (todo L (pend (table_of L) s1 seen))
                 | FBody tb _ seen f => TRun (f (pend tb s1 seen)) end) <$> ts).
        split; [by rewrite fmap_length|]. intros j tj c Hj Hcj. rewrite list_lookup_fmap, Hj in Hcj. simplify_eq/=.
        destruct tj as [tj|L init seen|tb init seen f]; [by exists []|exists (pend (table_of L) s1 seen)|exists (pend tb s1 seen)]; (split; [cbn [fits]; reflexivity|done]). }
      destruct Hex as [cts Hsh]. pose proof (IH _ Hsh) as Hr. destruct Hsh as [Hl Hv].
      destruct (lookup_lt_is_Some_2 cts i) as [c Hci]; [rewrite Hl; by eapply lookup_lt_Some|].
      destruct (Hv i _ c Ht Hci) as (r & _ & ->). eapply rtc_r; [exact Hr|]. by eapply P_crash.
Qed.

(** ** Runs are fine runs *)
Fixpoint looped (p : prog) : Prop :=
  match p with
  | Ret _ | Throw => True
  | RLock _ k | RUnlock _ k | Lock _ k | Unlock _ k | SetIndex _ _ k | DelIndex _ k
  | SetAlias _ _ k | DelAlias _ k | StoreElem _ _ _ k | IdxPut _ _ k | GoPut _ _ k => looped k
  | GetIndex _ k => forall o, looped (k o)
  | GetAlias _ k => forall o, looped (k o)
  | LoadElem _ _ k => forall o, looped (k o)
  | Append _ _ k => forall o, looped (k o)
  | MakeSlice _ k => forall o, looped (k o)
  | NewIndex _ k => forall o, looped (k o)
  | IdxRead _ k => forall o, looped (k o)
  | GoSearch _ _ _ k => forall o, looped (k o)
  | IdxSearch _ _ _ k kp => (forall o, looped (k o)) /\ looped kp
  | RangeIndices k => exists L, table_of L = TI /\ forall l, k l = todo L l
  | RangeAliases k => exists L, table_of L = TA /\ forall l, k l = todo L l
  end.
Definition tlooped (t : thr) : Prop :=
  match t with
  | TRun p => looped p
  | TPend _ k | TPut _ _ k => looped k
  | TSearch _ _ _ _ k => forall r, looped (k r)
  end.

Lemma looped_scan sl n i index k : (forall b, looped (k b)) -> looped (scan_loop sl i n index k).
Proof. intros Hk. revert i. induction n as [|n IH]; intros i; simpl; [done|]. intros x. destruct (decide _); auto. Qed.
Lemma looped_filter sl n i index acc k : (forall b, looped (k b)) -> looped (filter_loop sl i n index acc k).
Proof. intros Hk. revert i acc. induction n as [|n IH]; intros i acc; simpl; [done|]. intros x. destruct (decide _); simpl; auto. Qed.
Lemma looped_elems sl n i old new k : looped k -> looped (rename_elems sl i n old new k).
Proof. intros Hk. revert i. induction n as [|n IH]; intros i; simpl; [done|]. intros x. destruct (decide _); simpl; auto. Qed.
Lemma looped_resolve sl n i acc k : (forall b, looped (k b)) -> looped (resolve_loop sl i n acc k).
Proof. intros Hk. revert i acc. induction n as [|n IH]; intros i acc; simpl; [done|]. auto. Qed.

Lemma looped_todo L rest : looped (todo L rest).
Proof.
  destruct L as [acc|acc|show acc|n|old new]; simpl; [done|..].
  - revert acc. induction rest as [|a rest IH]; intros acc; simpl; [done|]. intros [s|]; auto.
  - revert acc. induction rest as [|a rest IH]; intros acc; simpl; [done|]. intros _ [s|]; auto.
  - induction rest as [|a rest IH]; simpl; [done|]. intros [s|]; [|auto].
    apply looped_filter. intros b. destruct (decide _); [done|]. by destruct (decide _).
  - induction rest as [|a rest IH]; simpl; [done|]. intros [s|]; [|auto]. by apply looped_elems.
Qed.

Lemma looped_tail ps q e : looped (search_tail ps q e).
Proof. by destruct ps as [|p [|]]. Qed.

Lemma looped_call c : looped (prog_of c).
Proof.
  destruct c as [| |name|name|alias index|alias index|index doc|index terms engine|old new|index|show]; simpl.
  - by exists (LNames []).
  - by exists (LRows []).
  - done.
  - done.
  - intros [p|]; [|done]. simpl. intros [sl|]; [|done]. apply looped_scan. by intros [|].
  - unfold UnAlias_prog. destruct (decide _); [done|]. simpl. intros [p|]; [|done]. simpl.
    intros [sl|]; [|done]. apply looped_filter. intros b. by destruct (decide _).
  - intros [p|]; [done|]. simpl. intros [sl|]; [|done]. by apply looped_resolve.
  - intros [p|]; [done|]. simpl. intros [sl|]; [|done]. apply looped_resolve. intros b. apply looped_tail.
  - intros [p|]; [|done]. by exists (LRename old new).
  - intros [p|]; [|done]. by exists (LDrop index).
  - by exists (LText show "").
Qed.

Lemma looped_step s t t' s' : tlooped t -> ~ ranging t -> tstep s t (TNext t' s') -> tlooped t'.
Proof. intros Hl Hn Hs. inversion Hs; subst; simpl in *; try done; try naive_solver. Qed.

(** A body that is not back at the head of its loop does in Sem.v what it does here. *)
Lemma body_cases tb x f :
  body tb x f ->
  (exists L, table_of L = tb /\ forall r, f r = todo L r) \/
  (forall s r res, tstep s (TRun (f r)) res ->
     exists f' s', res = TNext (TRun (f' r)) s' /\ bstep s f f' s').
Proof.
  intros Hb. destruct Hb as [f L Ht E|f n k E _|f p k E _|f a k E _|f sl i k E _|f sl v k E _|f sl i v k E _|f sl k E _|f k E _];
    [left; by exists L|right; intros s r res Hs; rewrite (E r) in Hs; inversion Hs; subst..].
  - by exists (fun r => k r (i_map (r_I s) !! n)), s; split; [|constructor].
  - by exists (fun r => k r (p ≫= fun p => i_heap (r_I s) !! p)), s; split; [|constructor].
  - by exists (fun r => k r (a_map (r_A s) !! a)), s; split; [|constructor].
  - by exists (fun r => k r (a_load sl i (r_A s))), s; split; [|constructor].
  - by exists (fun r => k r (a_append sl v cap (r_A s)).2), (set_A (a_append sl v cap (r_A s)).1 s); split; [|constructor].
  - by exists k, (set_A (a_store sl i v (r_A s)) s); split; [|constructor].
  - by exists k, (set_A (a_set x sl (r_A s)) s); split; [|constructor].
  - by exists k, (set_A (a_del x (r_A s)) s); split; [|constructor].
Qed.

Record both (md : mode) (L : nat -> ret -> Prop) (ts : list fthr) (s : repo) (cts : list thr) : Prop := {
  bo_inv : exists hs, finv md L hs ts s;
  bo_loop : forall i t, ts !! i = Some (FRun t) -> tlooped t;
  bo_shows : shows ts s cts }.

Lemma both_step md L ts s cts i t t' s' r' :
  md <> Any -> both md L ts s cts -> ts !! i = Some t -> fstep s t (FNext t' s') ->
  (forall u, t' = FRun u -> tlooped u) -> fits t' s' r' ->
  both md L (shrink s' <$> <[i := t']> ts) s' (<[i := view r' t']> cts).
Proof.
  intros Hmd [[hs Hi] Hl Hsh] Ht Hs Hu Hf.
  destruct (finv_step _ _ _ _ _ _ _ _ _ Hmd Hi Ht Hs) as (Hi' & _ & Hoth). split; [done|..].
  - intros j u Hj. rewrite list_lookup_fmap in Hj. apply fmap_Some in Hj as (t2 & Hj & E).
    destruct t2; simplify_eq/=. apply list_lookup_insert_Some in Hj as [(-> & -> & _)|[Hne Hj]]; eauto.
  - destruct Hsh as [Hl1 Hv]. split; [by rewrite fmap_length, !insert_length|].
    intros j tj c Hj Hcj. rewrite list_lookup_fmap in Hj. apply fmap_Some in Hj as (t2 & Hj & ->).
    rewrite view_shrink || idtac.
    assert (exists r, fits t2 s' r /\ c = view r t2) as (r & H1 & H2).
    { apply list_lookup_insert_Some in Hj as [(-> & <- & Hlt)|[Hne Hj]].
      - rewrite list_lookup_insert in Hcj by lia. exists r'. split; congruence.
      - rewrite list_lookup_insert_ne in Hcj by done.
        destruct (Hv j t2 c Hj Hcj) as (r & H1 & ->). exists r. split; [|done]. by apply (Hoth j t2 r). }
    exists r. by rewrite fits_shrink, view_shrink.
Qed.

(** Steps that Sem.v does not have. *)
Lemma both_quiet md L ts s cts i t t' r' c :
  md <> Any -> both md L ts s cts -> ts !! i = Some t -> cts !! i = Some c -> fstep s t (FNext t' s) ->
  (forall u, t' = FRun u -> tlooped u) -> fits t' s r' -> c = view r' t' ->
  exists ts', rtc fpstep (FPool ts s) (FPool ts' s) /\ both md L ts' s cts /\ ts' !! i = Some (shrink s t').
Proof.
  intros Hmd Hb Ht Hc Hs Hu Hf ->. exists (shrink s <$> <[i := t']> ts). split_and!.
  - apply rtc_once. by eapply FP_step.
  - rewrite <- (list_insert_id cts i (view r' t')) by done. by eapply both_step.
  - rewrite list_lookup_fmap, list_lookup_insert; [done|]. by eapply lookup_lt_Some.
Qed.

Definition ready (t : fthr) (c : thr) (s : repo) : Prop :=
  t = FRun c \/
  exists tb init seen f r, t = FBody tb init seen f /\ fits t s r /\ c = TRun (f r) /\
    forall res, tstep s c res -> exists f' s', res = TNext (TRun (f' r)) s' /\ bstep s f f' s'.

Lemma head_ready md L s cts i c r :
  md <> Any -> cts !! i = Some c -> forall ts lp init seen,
  both md L ts s cts -> ts !! i = Some (FHead lp init seen) ->
  r ≡ₚ pend (table_of lp) s seen -> c = TRun (todo lp r) ->
  exists ts' t', rtc fpstep (FPool ts s) (FPool ts' s) /\ both md L ts' s cts /\ ts' !! i = Some t' /\ ready t' c s.
Proof.
  intros Hmd Hc. remember (length r) as n eqn:En. revert r En.
  induction n as [|n IH]; intros r En ts lp init seen Hb Ht Hf ->; (destruct r as [|x r]; [|]); try discriminate En.
  - destruct (bo_inv _ _ _ _ _ Hb) as [hs Hi]. destruct (fi_keys _ _ _ _ _ Hi _ _ Ht) as [_ Hk]. simpl in Hk.
    assert (Hs : fstep s (FHead lp init seen) (FNext (FRun (TRun (todo lp []))) s)).
    { constructor. intros y Hy. destruct (decide (y ∈ seen)) as [|Hn]; [done|]. exfalso.
      apply (not_elem_of_nil y). rewrite Hf. apply pend_elem. auto. }
    destruct (both_quiet _ _ _ _ _ _ _ _ [] _ Hmd Hb Ht Hc Hs) as (ts' & H1 & H2 & H3).
    { intros u [= <-]. apply looped_todo. } { done. } { done. }
    exists ts', (FRun (TRun (todo lp []))). split_and!; [done|done|done|by left].
  - injection En as En.
    assert (Hx : x ∈ pend (table_of lp) s seen) by (rewrite <- Hf; by left).
    apply pend_elem in Hx as [Hx1 Hx2].
    assert (Hs : fstep s (FHead lp init seen) (FNext (FBody (table_of lp) init (x :: seen) (fun rest => todo lp (x :: rest))) s))
      by (by constructor).
    assert (Hf' : r ≡ₚ pend (table_of lp) s (x :: seen)).
    { apply (Permutation.Permutation_cons_inv (a := x)). rewrite Hf. by apply pend_pick. }
    destruct (both_quiet _ _ _ _ _ _ _ _ r _ Hmd Hb Ht Hc Hs) as (ts1 & H1 & H2 & H3); [done..|].
    simpl in H3.
    destruct (body_cases _ _ _ (body_todo lp x)) as [(lp' & Htb & Eq)|Hmv].
    + match type of H3 with _ = Some (FBody _ ?init1 _ _) =>
        assert (Hs2 : fstep s (FBody (table_of lp) init1 (x :: seen) (fun rest => todo lp (x :: rest))) (FNext (FHead lp' init1 (x :: seen)) s))
          by (by constructor) end.
      assert (E : TRun (todo lp (x :: r)) = TRun (todo lp' r)) by (by rewrite <- Eq).
      destruct (both_quiet _ _ _ _ _ _ _ _ r _ Hmd H2 H3 Hc Hs2) as (ts2 & H4 & H5 & H6); [done|by simpl; rewrite Htb|done|].
      simpl in H6.
      destruct (IH r En ts2 lp' _ (x :: seen) H5 H6) as (ts3 & t3 & H7 & H8 & H9 & H10); [by rewrite Htb|by f_equal|].
      exists ts3, t3. split_and!; [|done..]. by etrans; [|etrans].
    + eexists ts1, _. split_and!; [done|done|done|]. right.
      eexists _, _, _, _, r. split_and!; [done|done|done|]. intros res Hres. by apply Hmv.
Qed.

Lemma all_ready md L ts s cts i c :
  md <> Any -> both md L ts s cts -> cts !! i = Some c ->
  exists ts' t', rtc fpstep (FPool ts s) (FPool ts' s) /\ both md L ts' s cts /\ ts' !! i = Some t' /\ ready t' c s.
Proof.
  intros Hmd Hb Hc. destruct (bo_shows _ _ _ _ _ Hb) as [Hl Hv].
  destruct (lookup_lt_is_Some_2 ts i) as [t Ht]; [rewrite <- Hl; by eapply lookup_lt_Some|].
  destruct (Hv i t c Ht Hc) as (r & Hf & E). destruct t as [t|lp init seen|tb init seen f]; simpl in *.
  - exists ts, (FRun t). split_and!; [done|done|done|]. left. by subst.
  - by eapply head_ready.
  - destruct (bo_inv _ _ _ _ _ Hb) as [hs Hi].
    destruct (lookup_lt_is_Some_2 hs i) as [h Hh]; [rewrite (fi_len _ _ _ _ _ Hi); by eapply lookup_lt_Some|].
    destruct (fi_thr _ _ _ _ _ Hi _ _ _ Ht Hh) as (_ & _ & x & Hx & Hbo).
    destruct (body_cases _ _ _ Hbo) as [(lp & Htb & Eq)|Hmv].
    + assert (Hs : fstep s (FBody tb init seen f) (FNext (FHead lp init seen) s)) by (by constructor).
      destruct (both_quiet _ _ _ _ _ _ _ _ r _ Hmd Hb Ht Hc Hs) as (ts1 & H1 & H2 & H3); [done|by simpl; rewrite Htb|by simpl; rewrite <- Eq|].
      simpl in H3.
      destruct (head_ready _ _ _ _ _ _ r Hmd Hc ts1 _ _ _ H2 H3) as (ts3 & t3 & H7 & H8 & H9 & H10); [by rewrite Htb|by rewrite <- Eq|].
      exists ts3, t3. split_and!; [|done..]. by etrans.
    + eexists ts, _. split_and!; [done|done|done|]. right.
      eexists _, _, _, _, r. split_and!; [done|done|done|]. intros res Hres. subst c. by apply Hmv.
Qed.

Lemma coarse_fine md cs s p :
  md <> Any -> r_imu s = rw_free -> r_amu s = rw_free -> Forall (allowed md) cs ->
  rtc pstep (Pool (start cs) s) p ->
  match p with
  | Pool cts s' => exists ts, rtc fpstep (FPool (fstart cs) s) (FPool ts s') /\ both md (leaks_of cs) ts s' cts
  | PCrashed => rtc fpstep (FPool (fstart cs) s) FPCrashed
  end.
Proof.
  intros Hmd E1 E2 Hc Hp.
  refine (rtc_ind_r (R := pstep) (fun p => match p with
    | Pool cts s' => exists ts, rtc fpstep (FPool (fstart cs) s) (FPool ts s') /\ both md (leaks_of cs) ts s' cts
    | PCrashed => rtc fpstep (FPool (fstart cs) s) FPCrashed end) (Pool (start cs) s) _ _ p Hp).
  - exists (fstart cs). split; [done|]. split.
    + eexists. by apply finv_start.
    + intros i t Hi. unfold fstart in Hi. apply list_lookup_fmap_inv in Hi as (c & [= ->] & _). apply looped_call.
    + unfold fstart, start. split; [by rewrite !fmap_length|]. intros i t c Ht Hci.
      apply list_lookup_fmap_inv in Ht as (c1 & -> & Ht). apply list_lookup_fmap_inv in Hci as (c2 & -> & Hci).
      exists []. split; [done|]. simpl. congruence.
  - intros y z _ Hs IH. destruct Hs as [cts s1 i c c' s' Hci Hs|cts s1 i c Hci Hs]; destruct IH as (ts & Hr & Hb);
      destruct (all_ready _ _ _ _ _ _ _ Hmd Hb Hci) as (ts1 & t1 & Hr1 & Hb1 & Ht1 & Hrd).
    + destruct Hrd as [->|(tb & init & seen & f & r & -> & Hf & -> & Hmv)].
      * pose proof (bo_loop _ _ _ _ _ Hb1 _ _ Ht1) as Hlo.
        assert (Hcase : (exists k, c = TRun (RangeIndices k)) \/ (exists k, c = TRun (RangeAliases k)) \/ ~ ranging c)
          by (destruct c as [p0| | |]; [destruct p0|..]; simpl; eauto).
        destruct Hcase as [[k ->]|[[k ->]|Hn]].
        -- destruct Hlo as (lp & Htb & Hk). inversion Hs; subst.
           match goal with H : ?names ≡ₚ _ |- _ => rename names into names; rename H into Hn end.
           assert (Hst : fstep s' (FRun (TRun (RangeIndices k))) (FNext (FHead lp (keys TI s') []) s')) by (by constructor).
           eexists. split; [etrans; [exact Hr|]; eapply rtc_r; [exact Hr1|]; by eapply FP_step|].
           rewrite Hk. apply (both_step _ _ _ _ _ _ _ _ _ names Hmd Hb1 Ht1 Hst); [done|].
           simpl. by rewrite Htb, pend_nil.
        -- destruct Hlo as (lp & Htb & Hk). inversion Hs; subst.
           match goal with H : ?names ≡ₚ _ |- _ => rename names into names; rename H into Hn end.
           assert (Hst : fstep s' (FRun (TRun (RangeAliases k))) (FNext (FHead lp (keys TA s') []) s')) by (by constructor).
           eexists. split; [etrans; [exact Hr|]; eapply rtc_r; [exact Hr1|]; by eapply FP_step|].
           rewrite Hk. apply (both_step _ _ _ _ _ _ _ _ _ names Hmd Hb1 Ht1 Hst); [done|].
           simpl. by rewrite Htb, pend_nil.
        -- assert (Hst : fstep s1 (FRun c) (FNext (FRun c') s')) by (by constructor).
           eexists. split; [etrans; [exact Hr|]; eapply rtc_r; [exact Hr1|]; by eapply FP_step|].
           apply (both_step _ _ _ _ _ _ _ _ _ [] Hmd Hb1 Ht1 Hst); [|done].
           intros u [= <-]. by eapply looped_step.
      * destruct (Hmv _ Hs) as (f' & s2 & [= -> <-] & Hbs).
        assert (Hst : fstep s1 (FBody tb init seen f) (FNext (FBody tb init seen f') s')) by (by constructor).
        assert (Hf' : fits (FBody tb init seen f') s' r).
        { destruct (bo_inv _ _ _ _ _ Hb1) as [hs Hi].
          destruct (lookup_lt_is_Some_2 hs i) as [h Hh]; [rewrite (fi_len _ _ _ _ _ Hi); by eapply lookup_lt_Some|].
          destruct (fi_thr _ _ _ _ _ Hi _ _ _ Ht1 Hh) as (_ & _ & x & Hx & Hbo).
          destruct (body_step _ _ _ _ _ _ Hbo Hbs) as [_ Hky]. simpl in *. rewrite Hf. symmetry.
          apply pend_same. intros y Hy. apply Hky. by intros ->. }
        eexists. split; [etrans; [exact Hr|]; eapply rtc_r; [exact Hr1|]; by eapply FP_step|].
        apply (both_step _ _ _ _ _ _ _ _ _ r Hmd Hb1 Ht1 Hst); [done|done].
    + etrans; [exact Hr|]. eapply rtc_r; [exact Hr1|].
      destruct Hrd as [->|(tb & init & seen & f & r & -> & Hf & -> & Hmv)].
      * eapply FP_crash; [done|]. by constructor.
      * destruct (Hmv _ Hs) as (? & ? & ? & _). done.
Qed.

(** ** Corollaries *)
Lemma some_shows ts s : exists cts, shows ts s cts.
Proof.
  exists ((fun t => match t with FRun t => t | FHead L _ seen => TRun (todo L (pend (table_of L) s seen))
             | FBody tb _ seen f => TRun (f (pend tb s seen)) end) <$> ts).
  split; [by rewrite fmap_length|]. intros j tj c Hj Hcj. rewrite list_lookup_fmap, Hj in Hcj. simplify_eq/=.
  destruct tj as [tj|L init seen|tb init seen f]; [by exists []|exists (pend (table_of L) s seen)|exists (pend tb s seen)];
    (split; [cbn [fits]; reflexivity|done]).
Qed.

Lemma todo_unfinished L r : ~ finished (TRun (todo L r)).
Proof. destruct L, r; intros []. Qed.

Lemma body_unfinished tb x f r : body tb x f -> ~ finished (TRun (f r)).
Proof.
  intros Hb. destruct Hb as [f L Ht E|f n k E _|f p k E _|f a k E _|f sl i k E _|f sl v k E _|f sl i v k E _|f sl k E _|f k E _];
    rewrite (E r); [apply todo_unfinished|intros []..].
Qed.

Lemma both_finished md L ts s cts : both md L ts s cts -> Forall finished cts -> ts = FRun <$> cts.
Proof.
  intros [[hs Hi] _ [Hl Hv]] Hf. apply list_eq_same_length with (length cts); [by rewrite fmap_length|done|].
  intros i x y _ Hx Hy. apply list_lookup_fmap_inv in Hy as (c & -> & Hc).
  destruct (Hv i x c Hx Hc) as (r & _ & E).
  assert (Hfc : finished c) by (by eapply Forall_lookup_1).
  destruct x as [t|lp init seen|tb init seen f]; simpl in E; subst c; [done|exfalso..].
  - by eapply todo_unfinished.
  - destruct (lookup_lt_is_Some_2 hs i) as [h Hh]; [rewrite (fi_len _ _ _ _ _ Hi); by eapply lookup_lt_Some|].
    destruct (fi_thr _ _ _ _ _ Hi _ _ _ Hx Hh) as (_ & _ & z & _ & Hbo). by eapply body_unfinished.
Qed.

Lemma reached_looped md cs s ts s' :
  md <> Any -> r_imu s = rw_free -> r_amu s = rw_free -> Forall (allowed md) cs ->
  rtc fpstep (FPool (fstart cs) s) (FPool ts s') ->
  exists hs, finv md (leaks_of cs) hs ts s' /\ forall i t, ts !! i = Some (FRun t) -> tlooped t.
Proof.
  intros Hmd E1 E2 Hc Hr. destruct (fine_coarse md cs s _ Hmd E1 E2 Hc Hr) as [[hs Hi] _]. exists hs. split; [done|].
  refine (rtc_ind_r (R := fpstep) (fun p => match p with FPool ts _ => forall i t, ts !! i = Some (FRun t) -> tlooped t | _ => True end)
    (FPool (fstart cs) s) _ _ (FPool ts s') Hr).
  - intros i t H. unfold fstart in H. apply list_lookup_fmap_inv in H as (c & [= ->] & _). apply looped_call.
  - intros y z _ Hs IH. destruct Hs as [ts0 s0 i t t' s1 Ht Hs|]; [|done]. intros j u Hj.
    rewrite list_lookup_fmap in Hj. apply fmap_Some in Hj as (t2 & Hj & E). destruct t2; simplify_eq/=.
    apply list_lookup_insert_Some in Hj as [(-> & -> & _)|[Hne Hj]]; [|by eapply IH].
    inversion Hs; subst; [|apply looped_todo]. eapply looped_step; [|done..]. by eapply IH.
Qed.

Lemma fine_moves md L hs ts s i t :
  finv md L hs ts s -> (forall i t, ts !! i = Some (FRun t) -> tlooped t) -> ts !! i = Some t ->
  (forall u, t = FRun u -> exists x, tstep s u x) -> exists x, fstep s t x.
Proof.
  intros Hi Hl Ht Hu. destruct t as [u|lp init seen|tb init seen f].
  - destruct (Hu u eq_refl) as [x Hx]. pose proof (Hl _ _ Ht) as Hlo.
    assert (Hcase : (exists k, u = TRun (RangeIndices k)) \/ (exists k, u = TRun (RangeAliases k)) \/ ~ ranging u)
      by (destruct u as [p0| | |]; [destruct p0|..]; simpl; eauto).
    destruct Hcase as [[k ->]|[[k ->]|Hn]].
    + destruct Hlo as (lp & Htb & Hk). eexists. by apply (F_begin_indices s k lp).
    + destruct Hlo as (lp & Htb & Hk). eexists. by apply (F_begin_aliases s k lp).
    + destruct x as [u' s'|]; eexists; [by apply F_plain|by apply F_crash].
  - destruct (fi_keys _ _ _ _ _ Hi _ _ Ht) as [_ Hk]. simpl in Hk.
    destruct (pend (table_of lp) s seen) as [|x l] eqn:E.
    + eexists. apply F_end. intros y Hy. destruct (decide (y ∈ seen)) as [|Hn]; [done|]. exfalso.
      apply (not_elem_of_nil y). rewrite <- E. apply pend_elem. auto.
    + assert (Hx : x ∈ pend (table_of lp) s seen) by (rewrite E; by left). apply pend_elem in Hx as [H1 H2].
      eexists. by apply F_pick.
  - destruct (lookup_lt_is_Some_2 hs i) as [h Hh]; [rewrite (fi_len _ _ _ _ _ Hi); by eapply lookup_lt_Some|].
    destruct (fi_thr _ _ _ _ _ Hi _ _ _ Ht Hh) as (_ & _ & z & _ & Hbo).
    destruct Hbo as [f L0 Htb E|f n k E _|f p k E _|f a k E _|f sl j k E _|f sl v k E _|f sl j v k E _|f sl k E _|f k E _];
      eexists; [by apply (F_again s tb init seen f L0)|apply F_body..].
    + by apply (B_GetIndex s f n k).
    + by apply (B_IdxRead s f p k).
    + by apply (B_GetAlias s f a k).
    + by apply (B_LoadElem s f sl j k).
    + apply (B_Append s f sl v k (S (sl_len sl))); [done|lia].
    + by apply (B_StoreElem s f sl j v k).
    + by apply (B_SetAlias s f z sl k).
    + by apply (B_DelAlias s f z k).
Qed.

Definition once (t : fthr) : Prop :=
  match t with FRun _ => True | FHead _ _ seen | FBody _ _ seen _ => NoDup seen end.
Lemma reached_once cs s ts s' :
  rtc fpstep (FPool (fstart cs) s) (FPool ts s') -> forall i t, ts !! i = Some t -> once t.
Proof.
  intros Hr.
  refine (rtc_ind_r (R := fpstep) (fun p => match p with FPool ts _ => forall i t, ts !! i = Some t -> once t | _ => True end)
    (FPool (fstart cs) s) _ _ (FPool ts s') Hr).
  - intros i t H. unfold fstart in H. by apply list_lookup_fmap_inv in H as (c & -> & _).
  - intros y z _ Hs IH. destruct Hs as [ts0 s0 i t t' s1 Ht Hs|]; [|done]. intros j u Hj.
    rewrite list_lookup_fmap in Hj. apply fmap_Some in Hj as (t2 & Hj & ->).
    assert (once t2); [|by destruct t2].
    apply list_lookup_insert_Some in Hj as [(-> & -> & _)|[Hne Hj]]; [|by eapply IH].
    specialize (IH _ _ Ht). inversion Hs; subst; simpl in *; try done; try constructor; done.
Qed.

(** ** Every interleaving is finite *)
Fixpoint rangeless (p : prog) : Prop :=
  match p with
  | Ret _ | Throw => True
  | RLock _ k | RUnlock _ k | Lock _ k | Unlock _ k | SetIndex _ _ k | DelIndex _ k
  | SetAlias _ _ k | DelAlias _ k | StoreElem _ _ _ k | IdxPut _ _ k | GoPut _ _ k => rangeless k
  | GetIndex _ k => forall o, rangeless (k o)
  | GetAlias _ k => forall o, rangeless (k o)
  | LoadElem _ _ k => forall o, rangeless (k o)
  | Append _ _ k => forall o, rangeless (k o)
  | MakeSlice _ k => forall o, rangeless (k o)
  | NewIndex _ k => forall o, rangeless (k o)
  | IdxRead _ k => forall o, rangeless (k o)
  | GoSearch _ _ _ k => forall o, rangeless (k o)
  | IdxSearch _ _ _ k kp => (forall o, rangeless (k o)) /\ rangeless kp
  | RangeIndices _ | RangeAliases _ => False
  end.
Definition trangeless (t : thr) : Prop :=
  match t with
  | TRun p => rangeless p
  | TPend _ k | TPut _ _ k => rangeless k
  | TSearch _ _ _ _ k => forall r, rangeless (k r)
  end.
Lemma rangeless_step s t t' s' : trangeless t -> tstep s t (TNext t' s') -> trangeless t'.
Proof. intros Hl Hs. inversion Hs; subst; simpl in *; try done; try naive_solver. Qed.
Lemma rangeless_todo L : rangeless (todo L []).
Proof. by destruct L. Qed.

(** What a call has still to do: before its loop, at the head with [n] keys to come, in
    the body, after the loop. *)
Inductive stage := XRun (t : thr) | XHead (n : nat) | XBody (n : nat) (t : thr) | XFree (t : thr).
Inductive xnext : stage -> stage -> Prop :=
| X_run t t' : tnext t' t -> xnext (XRun t') (XRun t)
| X_begin t n : xnext (XHead n) (XRun t)
| X_pick n t : xnext (XBody n t) (XHead (S n))
| X_body n t t' : tnext t' t -> xnext (XBody n t') (XBody n t)
| X_again n t : xnext (XHead n) (XBody n t)
| X_end n t : xnext (XFree t) (XHead n)
| X_free t t' : tnext t' t -> xnext (XFree t') (XFree t).

Lemma free_acc t : Acc xnext (XFree t).
Proof. induction (thr_tacc t) as [t _ IH]. constructor. intros y Hy. inversion Hy; subst. auto. Qed.
Lemma head_acc n : Acc xnext (XHead n).
Proof.
  induction n as [|n IH]; constructor; intros y Hy; inversion Hy; subst; try apply free_acc.
  induction (thr_tacc t) as [t _ IHt]. constructor. intros y Hy2. inversion Hy2; subst; [|done]. apply IHt; [done|constructor].
Qed.
Lemma body_acc n t : Acc xnext (XBody n t).
Proof. apply (Acc_inv (head_acc (S n))). constructor. Qed.
Lemma stage_acc x : Acc xnext x.
Proof.
  destruct x; [|apply head_acc|apply body_acc|apply free_acc].
  induction (thr_tacc t) as [t _ IH]. constructor. intros y Hy. inversion Hy; subst; [auto|apply head_acc].
Qed.

Definition xsnext (xs' xs : list stage) : Prop := exists i x x', xs !! i = Some x /\ xnext x' x /\ xs' = <[i := x']> xs.
Lemma stages_acc xs : Acc xsnext xs.
Proof.
  induction xs as [|x xs IH].
  - constructor. intros xs' (i & x & x' & Hi & _). done.
  - revert x. induction IH as [xs _ IHxs]. intros x. induction (stage_acc x) as [x _ IHx].
    constructor. intros xs' (i & x1 & x' & Hi & Hn & ->). destruct i as [|i]; simplify_eq/=.
    + by apply IHx.
    + apply IHxs. by exists i, x1, x'.
Qed.

Definition at_stage (s : repo) (t : fthr) (x : stage) : Prop :=
  match t with
  | FRun t => x = XRun t \/ (x = XFree t /\ trangeless t)
  | FHead L _ seen => x = XHead (length (pend (table_of L) s seen))
  | FBody tb _ seen f => x = XBody (length (pend tb s seen)) (TRun (f []))
  end.

Lemma stage_step md L h t s t' s' x :
  fdisc md L h t -> fstep s t (FNext t' s') -> at_stage s t x -> exists x', at_stage s' t' x' /\ xnext x' x.
Proof.
  intros Hd Hs Hx.
  inversion Hs as [u u' s1 Hnr Hts| |k lp Htb Hkl|k lp Htb Hkl|lp init seen y Hy Hns|tb init seen f f' s1 Hbs|tb init seen f lp Htb Hfl|lp init seen Hall]; subst; simpl in *.
  - assert (Hn : tnext u' u) by (by exists s, s'). destruct Hx as [->|[-> Hr]].
    + exists (XRun u'). split; [by left|by constructor].
    + exists (XFree u'). split; [|by constructor]. right. split; [done|]. by eapply rangeless_step.
  - destruct Hx as [->|[-> []]]. eexists. split; [done|constructor].
  - destruct Hx as [->|[-> []]]. eexists. split; [done|constructor].
  - subst x. eexists. split; [done|]. rewrite (pend_pick (table_of lp) s' seen y Hy Hns). cbn [length]. constructor.
  - destruct Hd as (_ & _ & y & Hy & Hb). destruct (body_step _ _ _ _ _ _ Hb Hbs) as [_ Hky].
    exists (XBody (length (pend tb s seen)) (TRun (f' []))). split.
    + f_equal. apply Permutation_length. symmetry. apply pend_same. intros z Hz. apply Hky. by intros ->.
    + subst x. constructor. exists s, s'. by apply bstep_tstep.
  - subst x. eexists. split; [done|]. constructor.
  - subst x. eexists. split; [right; split; [done|apply rangeless_todo]|]. constructor.
Qed.

Lemma stage_shrink s0 s t x : at_stage s t x -> at_stage s (shrink s0 t) x.
Proof. by destruct t. Qed.

Lemma fine_ends md L xs :
  md <> Any -> forall hs ts s, finv md L hs ts s -> length xs = length ts ->
  (forall i t x, ts !! i = Some t -> xs !! i = Some x -> at_stage s t x) ->
  Acc (fun p' p => fpstep p p') (FPool ts s).
Proof.
  intros Hmd. induction (stages_acc xs) as [xs _ IH]. intros hs ts s Hi Hl Hx. constructor. intros p' Hp.
  inversion Hp as [ts0 s0 i t t' s' Ht Hs|]; subst; [|constructor; intros p'' Hp''; inversion Hp''].
  assert (Hlt : i < length ts) by (by eapply lookup_lt_Some).
  destruct (lookup_lt_is_Some_2 hs i) as [h Hh]; [by rewrite (fi_len _ _ _ _ _ Hi)|].
  destruct (lookup_lt_is_Some_2 xs i) as [x Hxi]; [lia|].
  destruct (stage_step md (L i) h t s t' s' x) as (x' & Hx' & Hn); [by eapply fi_thr|done|by eapply Hx|].
  destruct (finv_step _ _ _ _ _ _ _ _ _ Hmd Hi Ht Hs) as ([hs' Hi'] & _ & Hoth).
  apply (IH (<[i := x']> xs)) with hs'; [by exists i, x, x'|done|by rewrite fmap_length, !insert_length|].
  intros j tj y Hj Hy. rewrite list_lookup_fmap in Hj. apply fmap_Some in Hj as (t2 & Hj & ->). apply stage_shrink.
  apply list_lookup_insert_Some in Hj as [(-> & <- & _)|[Hne Hj]].
  - rewrite list_lookup_insert in Hy by lia. by simplify_eq.
  - rewrite list_lookup_insert_ne in Hy by done. specialize (Hx _ _ _ Hj Hy).
    assert (Hlen : forall tb seen, at_table t2 tb -> (forall r, fits t2 s' r <-> fits t2 s r) ->
      (forall r, fits t2 s r <-> r ≡ₚ pend tb s seen) -> (forall r, fits t2 s' r <-> r ≡ₚ pend tb s' seen) ->
      length (pend tb s' seen) = length (pend tb s seen)).
    { intros tb seen _ H1 H2 H3. apply Permutation_length. apply H2, H1, H3. done. }
    assert (H1 : forall r, fits t2 s' r <-> fits t2 s r) by (intros r; apply (Hoth j); [done|done]).
    destruct t2 as [u|lp init seen|tb init seen f]; simpl in *; [done|..].
    + by rewrite (Hlen (table_of lp) seen eq_refl H1).
    + by rewrite (Hlen tb seen eq_refl H1).
Qed.
