(** * Proofs about MemoryIndex and the search engines. *)
From Verif Require Import Entities Search SpecSearch.
From Coq Require Import Lia ZifyBool ZifyNat ZifyN.
From stdpp Require Import sorting.
Open Scope Z_scope.

(** ** Generic lemmas on outcome loops *)
Lemma ofold_app {A B} (f : B -> A -> outcome B) acc l1 l2 :
  ofold f acc (l1 ++ l2) = obind (ofold f acc l1) (fun acc' => ofold f acc' l2).
Proof.
  revert acc. induction l1 as [|x l1 IH]; intros acc; simpl; [done|].
  destruct (f acc x) as [acc'|]; simpl; [apply IH|done].
Qed.

Lemma slice_get_Ok {A} (s : list A) (i : nat) x :
  s !! i = Some x -> slice_get s (Z.of_nat i) = Ok x.
Proof.
  intros H. unfold slice_get. destruct (Z.ltb_spec (Z.of_nat i) 0); [lia|].
  rewrite Nat2Z.id, H. done.
Qed.

Lemma slice_get_spec {A} (s : list A) (i : Z) :
  (exists x, slice_get s i = Ok x /\ 0 <= i /\ s !! Z.to_nat i = Some x) \/
  (slice_get s i = Panic /\ ~ (0 <= i < Z.of_nat (length s))).
Proof.
  unfold slice_get. destruct (Z.ltb_spec i 0); [right; split; [done|lia]|].
  destruct (s !! Z.to_nat i) as [x|] eqn:E.
  - left; eauto.
  - right; split; [done|]. apply lookup_ge_None in E. lia.
Qed.

(** ** intersection *)
Fixpoint isect (a : list Z) : list Z -> list Z :=
  match a with
  | [] => fun _ => []
  | x :: a' =>
      fix go (b : list Z) :=
        match b with
        | [] => []
        | y :: b' => if x <? y then isect a' (y :: b')
                     else if x >? y then go b'
                     else x :: isect a' b'
        end
  end.

Lemma isect_nil_r a : isect a [] = [].
Proof. destruct a; done. Qed.

Lemma isect_cons x a y b :
  isect (x :: a) (y :: b) =
    if x <? y then isect a (y :: b)
    else if x >? y then isect (x :: a) b else x :: isect a b.
Proof. done. Qed.

Lemma intersection_loop_isect fuel a b (i j : nat) r :
  (length (drop i a) + length (drop j b) <= fuel)%nat ->
  intersection_loop fuel a b (Z.of_nat i) (Z.of_nat j) r =
    Ok (r ++ isect (drop i a) (drop j b)).
Proof.
  revert i j r. induction fuel as [|fuel IH]; intros i j r Hf; simpl.
  - rewrite !drop_length in Hf.
    destruct (Z.ltb_spec (Z.of_nat i) (Z.of_nat (length a))); [lia|]. simpl.
    rewrite (drop_ge a) by lia. simpl. by rewrite app_nil_r.
  - destruct (Z.ltb_spec (Z.of_nat i) (Z.of_nat (length a))) as [Hi|Hi]; simpl.
    2:{ rewrite (drop_ge a) by lia. simpl. by rewrite app_nil_r. }
    destruct (Z.ltb_spec (Z.of_nat j) (Z.of_nat (length b))) as [Hj|Hj]; simpl.
    2:{ rewrite (drop_ge b) by lia. rewrite isect_nil_r. by rewrite app_nil_r. }
    assert (Ha : (i < length a)%nat) by lia. assert (Hb : (j < length b)%nat) by lia.
    destruct (lookup_lt_is_Some_2 _ _ Ha) as [x Hx].
    destruct (lookup_lt_is_Some_2 _ _ Hb) as [y Hy].
    rewrite (slice_get_Ok _ _ _ Hx), (slice_get_Ok _ _ _ Hy). cbn [obind].
    rewrite !drop_length in Hf.
    rewrite (drop_S _ _ _ Hx), (drop_S _ _ _ Hy), isect_cons.
    replace (Z.of_nat i + 1) with (Z.of_nat (S i)) by lia.
    replace (Z.of_nat j + 1) with (Z.of_nat (S j)) by lia.
    destruct (x <? y).
    { rewrite IH by (rewrite !drop_length; lia). by rewrite (drop_S _ _ _ Hy). }
    destruct (x >? y).
    { rewrite IH by (rewrite !drop_length; lia). by rewrite (drop_S _ _ _ Hx). }
    rewrite IH by (rewrite !drop_length; lia). by rewrite <- app_assoc.
Qed.

Lemma intersection_isect a b : go_intersection a b = Ok (isect a b).
Proof.
  unfold go_intersection.
  rewrite (intersection_loop_isect _ a b 0 0 []); [done|]. rewrite !drop_0. lia.
Qed.

Definition asc (l : list Z) : Prop := StronglySorted Z.lt l.
Definition asc_le (l : list Z) : Prop := StronglySorted Z.le l.

Lemma asc_asc_le l : asc l -> asc_le l.
Proof.
  induction 1 as [|x l Hs IH Hf]; constructor; [done|].
  eapply Forall_impl; [exact Hf|]. intros; lia.
Qed.

Lemma isect_comm a b : isect a b = isect b a.
Proof.
  revert b. induction a as [|x a IHa]; intros b; [by rewrite isect_nil_r|].
  induction b as [|y b IHb]; [done|].
  rewrite !isect_cons.
  destruct (Z.ltb_spec x y), (Z.ltb_spec y x), (Z.gtb_spec x y), (Z.gtb_spec y x); try lia; auto.
  assert (x = y) by lia. subst. f_equal. auto.
Qed.

Lemma isect_subset_l a b : isect a b ⊆+ a.
Proof.
  revert b. induction a as [|x a IHa]; intros b; [done|].
  induction b as [|y b IHb]; [apply submseteq_nil_l|].
  rewrite isect_cons. destruct (x <? y); [by apply submseteq_cons|].
  destruct (x >? y); [done|]. by apply submseteq_skip.
Qed.

Lemma isect_sublist a b : sublist (isect a b) a.
Proof.
  revert b. induction a as [|x a IHa]; intros b; [constructor|].
  induction b as [|y b IHb]; [apply sublist_nil_l|].
  rewrite isect_cons. destruct (x <? y); [by apply sublist_cons|].
  destruct (x >? y); [done|]. by apply sublist_skip.
Qed.

Lemma StronglySorted_sublist {A} (R : A -> A -> Prop) l1 l2 :
  sublist l1 l2 -> StronglySorted R l2 -> StronglySorted R l1.
Proof.
  induction 1 as [|x l1 l2 H IH|x l1 l2 H IH]; intros Hs; [done| |];
    apply StronglySorted_inv in Hs as [Hs Hf].
  - constructor; [auto|]. rewrite Forall_forall in Hf |- *. intros y Hy. apply Hf.
    eapply elem_of_submseteq; [exact Hy|]. by apply sublist_submseteq.
  - auto.
Qed.

Definition count (x : Z) (l : list Z) : nat := length (filter (fun y => y = x) l).

Lemma count_cons x y l : count x (y :: l) = ((if decide (y = x) then 1 else 0) + count x l)%nat.
Proof. unfold count. rewrite filter_cons. destruct (decide (y = x)); done. Qed.

Lemma count_zero x l : Forall (fun y => y <> x) l -> count x l = 0%nat.
Proof.
  induction 1 as [|y l Hy Hl IH]; [done|]. rewrite count_cons, IH. by destruct (decide (y = x)).
Qed.

Lemma isect_count x a b :
  asc_le a -> asc_le b -> count x (isect a b) = min (count x a) (count x b).
Proof.
  revert b. induction a as [|u a IHa]; intros b Ha Hb; [done|].
  induction b as [|v b IHb].
  { rewrite isect_nil_r. unfold count at 1 3. simpl. lia. }
  apply StronglySorted_inv in Ha as Ha'. destruct Ha' as [Ha1 Ha2].
  apply StronglySorted_inv in Hb as Hb'. destruct Hb' as [Hb1 Hb2].
  rewrite isect_cons. destruct (Z.ltb_spec u v).
  - rewrite IHa by done. rewrite (count_cons x u a).
    destruct (decide (u = x)) as [->|]; [|lia].
    assert (count x (v :: b) = 0%nat) as ->; [|lia].
    apply count_zero. constructor; [lia|]. eapply Forall_impl; [exact Hb2|]. simpl; intros; lia.
  - destruct (Z.gtb_spec u v).
    + rewrite IHb by done. rewrite (count_cons x v b).
      destruct (decide (v = x)) as [->|]; [|lia].
      assert (count x (u :: a) = 0%nat) as ->; [|lia].
      apply count_zero. constructor; [lia|]. eapply Forall_impl; [exact Ha2|]. simpl; intros; lia.
    + assert (u = v) by lia. subst v. rewrite !count_cons, IHa by done.
      destruct (decide (u = x)); lia.
Qed.

Lemma isect_asc a b : asc a -> asc (isect a b).
Proof. intros Ha. eapply StronglySorted_sublist; [apply isect_sublist|done]. Qed.

Lemma count_elem_of x l : (0 < count x l)%nat <-> x ∈ l.
Proof.
  unfold count. induction l as [|y l IH]; [simpl; split; [lia|intros H; inversion H]|].
  rewrite filter_cons, elem_of_cons. destruct (decide (y = x)); simpl.
  - subst. split; [auto|lia].
  - rewrite IH. naive_solver.
Qed.

Lemma isect_elem a b x : asc_le a -> asc_le b -> x ∈ isect a b <-> x ∈ a /\ x ∈ b.
Proof.
  intros Ha Hb. rewrite <- !count_elem_of, isect_count by done. lia.
Qed.

(** ** Posting lists *)
Fixpoint positions (tk : Tokenizer) (t : string) (i : Z) (reqs : list DocRequest) : list Z :=
  match reqs with
  | [] => []
  | r :: rs => (if contains tk r t then [i] else []) ++ positions tk t (i + 1) rs
  end.

Lemma positions_app tk t i l1 l2 :
  positions tk t i (l1 ++ l2) = positions tk t i l1 ++ positions tk t (i + Z.of_nat (length l1)) l2.
Proof.
  revert i. induction l1 as [|r l1 IH]; intros i; simpl.
  - f_equal. lia.
  - rewrite IH, app_assoc. do 2 f_equal. lia.
Qed.

Lemma positions_elem tk t i reqs j :
  j ∈ positions tk t i reqs <->
  i <= j /\ exists r, reqs !! Z.to_nat (j - i) = Some r /\ contains tk r t = true.
Proof.
  revert i. induction reqs as [|r rs IH]; intros i; simpl.
  - split; [intros H; inversion H|intros (_ & r & H & _); done].
  - rewrite elem_of_app, IH. split.
    + intros [H|(Hle & r' & Hl & Hc)].
      * destruct (contains tk r t) eqn:E; [|inversion H].
        apply elem_of_list_singleton in H as ->. split; [lia|]. exists r.
        rewrite Z.sub_diag. done.
      * split; [lia|]. exists r'. split; [|done].
        replace (Z.to_nat (j - i)) with (S (Z.to_nat (j - (i + 1)))) by lia. done.
    + intros (Hle & r' & Hl & Hc). destruct (Z.eq_dec j i) as [->|Hne].
      * left. rewrite Z.sub_diag in Hl. simpl in Hl. injection Hl as ->. rewrite Hc. set_solver.
      * right. split; [lia|]. exists r'. split; [|done].
        replace (Z.to_nat (j - i)) with (S (Z.to_nat (j - (i + 1)))) in Hl by lia. done.
Qed.

Lemma positions_asc tk t i reqs : asc (positions tk t i reqs).
Proof.
  revert i. induction reqs as [|r rs IH]; intros i; simpl; [constructor|].
  destruct (contains tk r t); simpl; [|apply IH].
  constructor; [apply IH|]. apply Forall_forall. intros j Hj.
  apply positions_elem in Hj as [Hj _]. lia.
Qed.

Lemma has_doc_elem n l : has_doc n l = true <-> n ∈ l.
Proof.
  induction l as [|x l IH]; simpl; [split; [done|intros H; inversion H]|].
  rewrite elem_of_cons. destruct (Z.eqb_spec x n); [naive_solver|]. rewrite IH. naive_solver.
Qed.

(** Effect of the token loop of Put on one key. *)
Lemma put_tokens_lookup next tokens inv t :
  next ∉ default [] (inv !! t) ->
  fold_left (put_token next) tokens inv !! t =
    if decide (t ∈ tokens) then Some (default [] (inv !! t) ++ [next]) else inv !! t.
Proof.
  revert inv. induction tokens as [|tok tokens IH]; intros inv Hn; cbn [fold_left].
  { by rewrite decide_False by apply not_elem_of_nil. }
  assert (Hdone : forall toks inv', next ∈ default [] (inv' !! t) ->
            fold_left (put_token next) toks inv' !! t = inv' !! t).
  { clear. induction toks as [|tk toks IH']; intros inv' Hin; cbn [fold_left]; [done|].
    assert (Heq : put_token next inv' tk !! t = inv' !! t).
    { unfold put_token. destruct (has_doc next (default [] (inv' !! tk))) eqn:E; [done|].
      destruct (decide (tk = t)) as [->|Hne]; [|by rewrite lookup_insert_ne].
      apply not_true_iff_false in E. exfalso; apply E. by apply has_doc_elem. }
    rewrite IH', Heq; [done|]. by rewrite Heq. }
  destruct (decide (tok = t)) as [->|Hne].
  - assert (Hp : put_token next inv t !! t = Some (default [] (inv !! t) ++ [next])).
    { unfold put_token. destruct (has_doc next (default [] (inv !! t))) eqn:E.
      - apply has_doc_elem in E. done.
      - by rewrite lookup_insert. }
    rewrite Hdone by (rewrite Hp; simpl; set_solver). rewrite Hp.
    by rewrite decide_True by set_solver.
  - assert (Hp : put_token next inv tok !! t = inv !! t).
    { unfold put_token. destruct (has_doc _ _); [done|]. by rewrite lookup_insert_ne. }
    rewrite IH by (by rewrite Hp). rewrite Hp.
    destruct (decide (t ∈ tokens)); destruct (decide (t ∈ tok :: tokens)); set_solver.
Qed.

(** The representation invariant: an index holding the requests [reqs]. *)
Record rep (tk : Tokenizer) (reqs : list DocRequest) (mi : MemoryIndex) : Prop := {
  rep_tok : mi_tokenizer mi = tk;
  rep_docs : mi_Docs mi = map doc_of reqs;
  rep_inv : forall t, mi_Inverted mi !! t =
              match positions tk t 0 reqs with [] => None | l => Some l end }.

Lemma rep_new name tk : rep tk [] (NewMemoryIndex name tk).
Proof. split; [done|done|]. intros t. simpl. apply lookup_empty. Qed.

Lemma rep_put tk reqs mi r : rep tk reqs mi -> rep tk (reqs ++ [r]) (Put mi r).
Proof.
  intros [Ht Hd Hi]. split; [done| |].
  - simpl. rewrite Hd, map_app. done.
  - intros t. simpl. rewrite Hd, map_length, Ht.
    assert (Hdef : default [] (mi_Inverted mi !! t) = positions tk t 0 reqs).
    { rewrite Hi. destruct (positions tk t 0 reqs); done. }
    rewrite put_tokens_lookup.
    + rewrite Hdef, positions_app. simpl. rewrite app_nil_r.
      unfold contains, req_Statement. destruct (decide (t ∈ tk (req_statement r))) as [Hin|Hin].
      * rewrite bool_decide_true by done.
        destruct (positions tk t 0 reqs); done.
      * rewrite bool_decide_false by done. rewrite app_nil_r. apply Hi.
    + rewrite Hdef. intros Hin. apply positions_elem in Hin as (_ & r' & Hl & _).
      apply lookup_lt_Some in Hl. lia.
Qed.

Lemma rep_puts tk reqs0 mi reqs :
  rep tk reqs0 mi -> rep tk (reqs0 ++ reqs) (fold_left Put reqs mi).
Proof.
  revert reqs0 mi. induction reqs as [|r reqs IH]; intros reqs0 mi H; cbn [fold_left].
  - by rewrite app_nil_r.
  - rewrite cons_middle, app_assoc. apply IH. by apply rep_put.
Qed.

Lemma rep_index_after name tk reqs : rep tk reqs (index_after name tk reqs).
Proof. apply (rep_puts tk [] _ reqs), rep_new. Qed.

Lemma rep_Indexed tk reqs mi ckn t :
  rep tk reqs mi ->
  (Indexed ckn mi t = Some (positions tk t 0 reqs)) \/
  (ckn = true /\ Indexed ckn mi t = None /\ positions tk t 0 reqs = []).
Proof.
  intros [_ _ Hi]. unfold Indexed. rewrite Hi.
  destruct (positions tk t 0 reqs) eqn:E; [|auto]. destruct ckn; auto.
Qed.

Lemma rep_Document tk reqs mi i r :
  rep tk reqs mi -> reqs !! i = Some r -> Document mi (Z.of_nat i) = Ok (doc_of r).
Proof.
  intros [_ Hd _] Hl. unfold Document. apply slice_get_Ok. rewrite Hd.
  rewrite list_lookup_fmap, Hl. done.
Qed.

(** The requests at the positions of a posting list. *)
Lemma positions_filter tk t reqs :
  omap (fun i => reqs !! Z.to_nat i) (positions tk t 0 reqs) =
  filter (fun r => contains tk r t = true) reqs.
Proof.
  assert (H : forall i l0, length l0 = Z.to_nat i -> 0 <= i ->
     omap (fun j => (l0 ++ reqs) !! Z.to_nat j) (positions tk t i reqs) =
     filter (fun r => contains tk r t = true) reqs).
  { induction reqs as [|r rs IH]; intros i l0 Hl Hi; [done|].
    cbn [positions]. rewrite filter_cons.
    assert (Hrest : omap (fun j => (l0 ++ r :: rs) !! Z.to_nat j) (positions tk t (i + 1) rs) =
                    filter (fun r => contains tk r t = true) rs).
    { rewrite cons_middle, app_assoc. apply IH; [|lia]. rewrite app_length; simpl; lia. }
    destruct (contains tk r t) eqn:E; simpl.
    - rewrite lookup_app_r by lia.
      replace (Z.to_nat i - length l0)%nat with 0%nat by lia. simpl.
      f_equal. exact Hrest.
    - exact Hrest. }
  apply (H 0 []); done.
Qed.
