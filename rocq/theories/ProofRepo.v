(** * Refinement: every call of the repo behaves as the abstract machine says. *)
From stdpp Require Import list gmap.
From Verif Require Import Entities Search SpecSearch Repo Sem RepoWp SpecRepo.
Open Scope nat_scope.

(** ** Slices *)
Definition wf_slice (x : Apart) (sl : slice) : Prop :=
  sl = nil_slice \/
  (0 < sl_arr sl < a_next x /\
   exists l, a_arr x !! sl_arr sl = Some l /\ length l = sl_cap sl /\ sl_len sl <= sl_cap sl).

Definition priv (l0 : nat) (sl : slice) : Prop := sl = nil_slice \/ l0 <= sl_arr sl.

(** Only arrays from [l0] on may have changed or appeared. *)
Definition ext (l0 : nat) (x x' : Apart) : Prop :=
  a_map x' = a_map x /\ a_next x <= a_next x' /\
  forall a, a < l0 -> a_arr x' !! a = a_arr x !! a.

Lemma ext_refl l0 x : ext l0 x x.
Proof. by split_and!. Qed.
Lemma ext_trans l0 x y z : ext l0 x y -> ext l0 y z -> ext l0 x z.
Proof.
  intros (H1 & H2 & H3) (H4 & H5 & H6). split_and!; [congruence|lia|].
  intros a Ha. by rewrite H6, H3.
Qed.

Lemma cont_length x sl : wf_slice x sl -> length (a_cont x sl) = sl_len sl.
Proof.
  unfold a_cont. intros [->|(_ & l & -> & Hl & Hc)]; [done|]. simpl. rewrite take_length. lia.
Qed.

Lemma cont_nil x : a_cont x nil_slice = [].
Proof. done. Qed.

Lemma ext_cont l0 x x' sl : ext l0 x x' -> sl_arr sl < l0 -> a_cont x' sl = a_cont x sl.
Proof. intros (_ & _ & H) Hs. unfold a_cont. by rewrite H. Qed.

Lemma ext_wf l0 x x' sl : ext l0 x x' -> sl_arr sl < l0 -> wf_slice x sl -> wf_slice x' sl.
Proof.
  intros (_ & Hn & H) Hs [->|(? & l & ? & ? & ?)]; [by left|right].
  split; [lia|]. exists l. by rewrite H.
Qed.

Lemma load_cont x sl i v : a_cont x sl !! i = Some v -> a_load sl i x = v.
Proof.
  unfold a_cont, a_load. intros H. destruct (a_arr x !! sl_arr sl) as [l|]; simpl in *.
  - apply lookup_take_Some in H as [H _]. by rewrite H.
  - by rewrite take_nil in H.
Qed.

Lemma wf_load x sl i :
  wf_slice x sl -> i < sl_len sl -> a_cont x sl !! i = Some (a_load sl i x).
Proof.
  intros Hw Hi. destruct (lookup_lt_is_Some_2 (a_cont x sl) i) as [v Hv].
  { by rewrite cont_length. }
  rewrite Hv. f_equal. symmetry. by apply load_cont.
Qed.

Lemma wf_drop x sl i :
  wf_slice x sl -> i < sl_len sl ->
  drop i (a_cont x sl) = a_load sl i x :: drop (S i) (a_cont x sl).
Proof. intros Hw Hi. by apply drop_S, wf_load. Qed.

Lemma append_spec l0 x sl v cap x' sl' :
  wf_slice x sl -> priv l0 sl -> 0 < l0 <= a_next x -> sl_len sl < cap ->
  a_append sl v cap x = (x', sl') ->
  ext l0 x x' /\ wf_slice x' sl' /\ priv l0 sl' /\ a_cont x' sl' = a_cont x sl ++ [v] /\ sl' <> nil_slice.
Proof.
  unfold a_append. intros Hw Hp Hl Hcap H.
  destruct (Nat.ltb_spec (sl_len sl) (sl_cap sl)) as [Hlt|Hge].
  - destruct Hw as [->|(Ha & l & Hl1 & Hl2 & Hl3)]; [simpl in Hlt; lia|].
    destruct Hp as [->|Hp]; [simpl in Hlt; lia|]. simplify_eq. split_and!.
    + split_and!; [done..|]. intros a Hlt'. simpl. apply lookup_alter_ne. lia.
    + right. simpl. split; [done|]. exists (<[sl_len sl:=v]> l).
      rewrite lookup_alter, Hl1. simpl. rewrite insert_length. split_and!; [done..|lia].
    + by right.
    + unfold a_cont. simpl. rewrite lookup_alter, Hl1. simpl.
      erewrite take_S_r; [|apply list_lookup_insert; lia].
      by rewrite take_insert.
    + intros E. apply (f_equal sl_len) in E. done.
  - unfold a_alloc in H. simplify_eq.
    assert (length (a_cont x sl) = sl_len sl) as Hc by (by apply cont_length). split_and!.
    + split_and!; simpl; [done|lia|]. intros a Hlt'. apply lookup_insert_ne. lia.
    + right. simpl. split; [lia|]. eexists. rewrite lookup_insert. split; [done|].
      rewrite !app_length, replicate_length. simpl. lia.
    + right. simpl. lia.
    + unfold a_cont at 1. simpl. rewrite lookup_insert. simpl.
      by rewrite take_app.
    + intros E. apply (f_equal sl_arr) in E. simpl in E. lia.
Qed.

(** ** Loops *)
Lemma wp_scan sl n i index k s Q :
  wf_slice (r_A s) sl -> i + n = sl_len sl ->
  wp (k (bool_decide (index ∈ drop i (a_cont (r_A s) sl)))) s Q ->
  wp (scan_loop sl i n index k) s Q.
Proof.
  intros Hw. revert i. induction n as [|n IH]; intros i Hi H; simpl.
  - rewrite drop_ge in H by (rewrite cont_length by done; lia).
    by rewrite bool_decide_eq_false_2 in H by (by apply not_elem_of_nil).
  - rewrite wf_drop in H by (done || lia).
    destruct (decide _) as [E|Hne].
    + rewrite bool_decide_eq_true_2 in H; [done|]. rewrite E. left.
    + apply IH; [lia|]. erewrite bool_decide_ext; [exact H|].
      rewrite elem_of_cons. naive_solver.
Qed.

Lemma wp_filter l0 sl n i index acc k s Q :
  wf_slice (r_A s) sl -> sl_arr sl < l0 -> 0 < l0 <= a_next (r_A s) -> i + n = sl_len sl ->
  wf_slice (r_A s) acc -> priv l0 acc ->
  (forall x' acc', ext l0 (r_A s) x' -> wf_slice x' acc' -> priv l0 acc' ->
     a_cont x' acc' = a_cont (r_A s) acc ++ without index (drop i (a_cont (r_A s) sl)) ->
     wp (k acc') (set_A x' s) Q) ->
  wp (filter_loop sl i n index acc k) s Q.
Proof.
  revert i acc s. induction n as [|n IH]; intros i acc s Hw Hsl Hl Hi Hacc Hp H; simpl.
  - specialize (H (r_A s) acc). rewrite set_A_id in H. apply H; [apply ext_refl|done..|].
    rewrite drop_ge by (rewrite cont_length by done; lia). by rewrite app_nil_r.
  - rewrite wf_drop in H by (done || lia). unfold without in H. rewrite filter_cons in H.
    destruct (decide (a_load sl i (r_A s) = index)) as [E|Hne].
    + apply IH; [done..|lia|done|done|].
      intros x' acc' He Hw' Hp' Hc. apply H; [done..|].
      rewrite Hc. destruct (decide _); [done|]. done.
    + intros cap Hcap. destruct (a_append acc _ cap (r_A s)) as [x1 acc1] eqn:E. simpl.
      destruct (append_spec l0 _ _ _ _ _ _ Hacc Hp Hl Hcap E) as (He & Hw1 & Hp1 & Hc1 & _).
      apply IH; simpl.
      * by eapply ext_wf.
      * done.
      * destruct He as (_ & ? & _). lia.
      * lia.
      * done.
      * done.
      * intros x' acc' He' Hw' Hp' Hc. change (set_A x' (set_A x1 s)) with (set_A x' s).
        apply H; [by eapply ext_trans|done..|]. rewrite Hc, Hc1.
        destruct (decide _); [|done]. rewrite <- app_assoc. simpl.
        by rewrite (ext_cont l0 _ _ sl He) by done.
Qed.

Lemma wp_resolve sl n i acc k s Q :
  wf_slice (r_A s) sl -> i + n = sl_len sl ->
  wp (k (acc ++ ((fun x => i_map (r_I s) !! x) <$> drop i (a_cont (r_A s) sl)))) s Q ->
  wp (resolve_loop sl i n acc k) s Q.
Proof.
  intros Hw. revert i acc. induction n as [|n IH]; intros i acc Hi H; simpl.
  - rewrite drop_ge in H by (rewrite cont_length by done; lia). simpl in H. by rewrite app_nil_r in H.
  - apply IH; [lia|]. rewrite wf_drop in H by (done || lia).
    rewrite <- app_assoc. done.
Qed.

(** ** Alias table *)
Record shA (x : Apart) (m : gmap string (list string)) : Prop := {
  shA_pos : 0 < a_next x;
  shA_fwd : forall a sl, a_map x !! a = Some sl -> wf_slice x sl /\ m !! a = Some (a_cont x sl);
  shA_none : forall a, a_map x !! a = None -> m !! a = None;
  shA_sep : forall a b sa sb, a_map x !! a = Some sa -> a_map x !! b = Some sb -> a <> b ->
      sl_arr sa = sl_arr sb -> sa = nil_slice }.

Lemma shA_bound x m a sl : shA x m -> a_map x !! a = Some sl -> sl_arr sl < a_next x.
Proof.
  intros H Ha. destruct (shA_fwd _ _ H _ _ Ha) as [[->|(? & _)] _]; [apply H|lia].
Qed.

Lemma shA_is_Some x m a : shA x m -> is_Some (a_map x !! a) <-> is_Some (m !! a).
Proof.
  intros H. destruct (a_map x !! a) as [sl|] eqn:E.
  - apply H in E as [_ ->]. split; eauto.
  - apply H in E as ->. split; intros []; done.
Qed.

Lemma shA_keys x m : shA x m -> (map_to_list (a_map x)).*1 ≡ₚ (map_to_list m).*1.
Proof.
  intros H. apply NoDup_Permutation; [apply NoDup_fst_map_to_list..|].
  intros a. rewrite !elem_of_list_fmap. split.
  - intros ([? sl] & -> & Ha). apply elem_of_map_to_list in Ha. simpl.
    apply H in Ha as [_ Ha]. exists (s, a_cont x sl). by rewrite elem_of_map_to_list.
  - intros ([? l] & -> & Ha). apply elem_of_map_to_list in Ha. simpl.
    assert (is_Some (a_map x !! s)) as [sl Hs] by (eapply shA_is_Some; eauto).
    exists (s, sl). by rewrite elem_of_map_to_list.
Qed.

Lemma shA_ext x x' m : shA x m -> ext (a_next x) x x' -> shA x' m.
Proof.
  intros H He. pose proof He as (E1 & E2 & E3). split.
  - pose proof (shA_pos _ _ H). lia.
  - intros a sl Ha. rewrite E1 in Ha. pose proof (shA_bound _ _ _ _ H Ha) as Hb.
    destruct (shA_fwd _ _ H _ _ Ha) as [Hw Hm]. split; [by eapply ext_wf|].
    by rewrite (ext_cont _ _ _ _ He Hb).
  - intros a. rewrite E1. apply H.
  - intros a b. rewrite E1. apply H.
Qed.

Lemma shA_set x x' m a sl :
  shA x m -> ext (a_next x) x x' -> wf_slice x' sl -> priv (a_next x) sl ->
  shA (a_set a sl x') (<[a := a_cont x' sl]> m).
Proof.
  intros H He Hw Hp. pose proof (shA_ext _ _ _ H He) as H'. pose proof He as (E1 & E2 & E3).
  assert (forall b s0, a_map x !! b = Some s0 -> sl_arr sl = sl_arr s0 -> sl = nil_slice /\ s0 = nil_slice) as Hsep.
  { intros b s0 Hb Hs. pose proof (shA_bound _ _ _ _ H Hb). destruct Hp as [->|?]; [|lia].
    split; [done|]. destruct (shA_fwd _ _ H _ _ Hb) as [[->|(? & _)] _]; [done|]. simpl in Hs. lia. }
  split.
  - apply H'.
  - intros b s0 Hb. simpl in Hb. apply lookup_insert_Some in Hb as [(<- & <-)|[Hne Hb]].
    + split; [done|]. by rewrite lookup_insert.
    + rewrite lookup_insert_ne by done. by apply H'.
  - intros b Hb. simpl in Hb. apply lookup_insert_None in Hb as [Hb Hne].
    rewrite lookup_insert_ne by done. by apply H'.
  - intros b c sb sc Hb Hc Hne E. simpl in *. rewrite E1 in *.
    apply lookup_insert_Some in Hb as [(<- & <-)|[Hne1 Hb]];
    apply lookup_insert_Some in Hc as [(<- & <-)|[Hne2 Hc]]; try done.
    + by destruct (Hsep _ _ Hc E).
    + by destruct (Hsep _ _ Hb (eq_sym E)).
    + by eapply (shA_sep _ _ H b c).
Qed.

Lemma shA_del x m a : shA x m -> shA (a_del a x) (delete a m).
Proof.
  intros H. split; simpl.
  - apply H.
  - intros b sl Hb. apply lookup_delete_Some in Hb as [Hne Hb].
    rewrite lookup_delete_ne by done. by apply H.
  - intros b Hb. apply lookup_delete_None in Hb as [->|Hb]; [apply lookup_delete|].
    apply lookup_delete_None. right. by apply H.
  - intros b c sb sc Hb Hc. apply lookup_delete_Some in Hb as [_ Hb]. apply lookup_delete_Some in Hc as [_ Hc].
    by apply H.
Qed.

(** Changing one array in place, below its length bound. *)
Lemma shA_array x m a sl l' l :
  shA x m -> a_map x !! a = Some sl -> sl <> nil_slice ->
  a_arr x !! sl_arr sl = Some l -> length l' = length l ->
  shA (MkA (a_map x) (<[sl_arr sl := l']> (a_arr x)) (a_next x)) (<[a := take (sl_len sl) l']> m).
Proof.
  intros H Ha Hne Hl Hlen.
  assert (wf_slice (MkA (a_map x) (<[sl_arr sl := l']> (a_arr x)) (a_next x)) sl) as Hwf.
  { destruct (shA_fwd _ _ H _ _ Ha) as [[->|(Hr & l1 & Hl1 & Hc & Hx)] _]; [done|].
    right. simpl. split; [done|]. exists l'. rewrite lookup_insert. split; [done|].
    rewrite Hl in Hl1. simplify_eq. split; [lia|done]. }
  assert (forall b sb, a_map x !! b = Some sb -> b <> a -> sl_arr sl <> sl_arr sb) as Hsep.
  { intros b sb Hb Hn E. apply Hne. eapply (shA_sep _ _ H a b); eauto. }
  split; simpl.
  - apply H.
  - intros b sb Hb. destruct (decide (b = a)) as [->|Hn].
    + rewrite Ha in Hb. simplify_eq. split; [done|]. rewrite lookup_insert. f_equal.
      unfold a_cont. simpl. by rewrite lookup_insert.
    + destruct (shA_fwd _ _ H _ _ Hb) as [Hw Hm]. specialize (Hsep _ _ Hb Hn).
      rewrite lookup_insert_ne by done. split.
      * destruct Hw as [->|(Hr & l1 & Hl1 & ?)]; [by left|right]. simpl. split; [done|].
        exists l1. by rewrite lookup_insert_ne.
      * rewrite Hm. unfold a_cont. simpl. by rewrite lookup_insert_ne.
  - intros b Hb. rewrite lookup_insert_ne by congruence. by apply H.
  - apply H.
Qed.

Lemma shA_append x m a sl v cap x' sl' :
  shA x m -> a_map x !! a = Some sl -> sl_len sl < cap ->
  a_append sl v cap x = (x', sl') ->
  shA (a_set a sl' x') (<[a := a_cont x sl ++ [v]]> m).
Proof.
  intros H Ha Hcap E. destruct (shA_fwd _ _ H _ _ Ha) as [Hw Hm].
  pose proof (shA_pos _ _ H) as Hpos.
  destruct (decide (sl_len sl < sl_cap sl)) as [Hlt|Hge].
  - (* in place *)
    unfold a_append in E. destruct (Nat.ltb_spec (sl_len sl) (sl_cap sl)); [|lia]. simplify_eq.
    destruct Hw as [->|(Hr & l & Hl & Hc & Hx)]; [simpl in Hlt; lia|].
    assert (sl <> nil_slice) as Hnn by (intros ->; simpl in Hlt; lia).
    pose proof (shA_array x m a sl (<[sl_len sl := v]> l) l H Ha Hnn Hl ltac:(by rewrite insert_length)) as H1.
    assert (a_store sl (sl_len sl) v x = MkA (a_map x) (<[sl_arr sl := <[sl_len sl := v]> l]> (a_arr x)) (a_next x)) as Est.
    { unfold a_store. f_equal. apply map_eq. intros j. destruct (decide (j = sl_arr sl)) as [->|Hj].
      - by rewrite lookup_alter, lookup_insert, Hl.
      - by rewrite lookup_alter_ne, lookup_insert_ne. }
    rewrite Est.
    set (x1 := MkA _ _ _) in *.
    assert (a_map x1 = a_map x) as Em by done.
    split; simpl.
    + done.
    + intros b sb Hb. apply lookup_insert_Some in Hb as [(<- & <-)|[Hne Hb]].
      * split.
        -- right. simpl. split; [done|]. exists (<[sl_len sl := v]> l). rewrite lookup_insert.
           split; [done|]. rewrite insert_length. split; [done|lia].
        -- rewrite lookup_insert. f_equal. unfold a_cont. simpl. rewrite lookup_insert, Hl. simpl.
           erewrite take_S_r; [|apply list_lookup_insert; lia]. by rewrite take_insert.
      * rewrite lookup_insert_ne by done. destruct (shA_fwd _ _ H1 b sb Hb) as [Hw1 Hm1].
        rewrite lookup_insert_ne in Hm1 by done. split; [|done].
        destruct Hw1 as [->|Hw1]; [by left|right; exact Hw1].
    + intros b Hb. apply lookup_insert_None in Hb as [Hb Hne].
      rewrite lookup_insert_ne by done. by apply H.
    + intros b c sb sc Hb Hc' Hne Eq.
      apply lookup_insert_Some in Hb as [(<- & <-)|[Hne1 Hb]];
      apply lookup_insert_Some in Hc' as [(<- & <-)|[Hne2 Hc']]; try done.
      * simpl in Eq. exfalso. apply Hnn. by eapply (shA_sep _ _ H a c).
      * simpl in Eq. by eapply (shA_sep _ _ H b a).
      * by eapply (shA_sep _ _ H b c).
  - (* reallocated *)
    unfold a_append in E. destruct (Nat.ltb_spec (sl_len sl) (sl_cap sl)); [lia|].
    assert (a_append sl v cap x = (x', sl')) as E'.
    { unfold a_append. destruct (Nat.ltb_spec (sl_len sl) (sl_cap sl)); [lia|done]. }
    assert (a_cont x' sl' = a_cont x sl ++ [v]) as <-.
    { unfold a_alloc in E. simplify_eq. unfold a_cont at 1. simpl. rewrite lookup_insert. simpl.
      by rewrite take_app. }
    unfold a_alloc in E. simplify_eq. apply shA_set with x; [done|..].
    + split_and!; simpl; [done|lia|]. intros b Hb. apply lookup_insert_ne. lia.
    + right. simpl. split; [lia|]. eexists. rewrite lookup_insert. split; [done|].
      rewrite !app_length, replicate_length, (cont_length _ _ Hw). simpl. lia.
    + right. done.
Qed.

(** A slice that was read from the alias table earlier. *)
Definition snap (x : Apart) (sl : slice) : Prop :=
  sl = nil_slice \/
  (0 < sl_arr sl < a_next x /\
   forall a sa, a_map x !! a = Some sa -> sl_arr sa = sl_arr sl -> sl_len sl <= sl_len sa).
Definition stable (x x' : Apart) : Prop :=
  forall sl, snap x sl -> snap x' sl /\ a_cont x' sl = a_cont x sl.

Lemma stable_refl x : stable x x.
Proof. done. Qed.
Lemma stable_trans x y z : stable x y -> stable y z -> stable x z.
Proof. intros H1 H2 sl H. apply H1 in H as [H E]. apply H2 in H as [? ?]. split; [done|congruence]. Qed.

Lemma stable_ext x x' : ext (a_next x) x x' -> stable x x'.
Proof.
  intros He sl [->|[H1 H2]]; [split; [by left|done]|]. pose proof He as (E1 & E2 & E3). split.
  - right. split; [lia|]. by rewrite E1.
  - eapply ext_cont; [done|lia].
Qed.

Lemma stable_set x x' a sl : ext (a_next x) x x' -> priv (a_next x) sl -> stable x (a_set a sl x').
Proof.
  intros He Hp s0 [->|[H1 H2]]; [split; [by left|done]|]. pose proof He as (E1 & E2 & E3). split.
  - right. split; [simpl; lia|]. simpl. intros b sb Hb Es.
    apply lookup_insert_Some in Hb as [(<- & <-)|[Hne Hb]]; [|rewrite E1 in Hb; by eapply H2].
    destruct Hp as [->|?]; [|lia]. simpl in *. lia.
  - change (a_cont (a_set a sl x') s0) with (a_cont x' s0). eapply ext_cont; [done|lia].
Qed.

Lemma stable_del x a : stable x (a_del a x).
Proof.
  intros s0 [->|[H1 H2]]; [split; [by left|done]|]. split; [|done]. right. split; [done|].
  simpl. intros b sb Hb. apply lookup_delete_Some in Hb as [_ Hb]. by eapply H2.
Qed.

Lemma stable_append x m a sl v cap x' sl' :
  shA x m -> a_map x !! a = Some sl -> sl_len sl < cap ->
  a_append sl v cap x = (x', sl') -> stable x (a_set a sl' x').
Proof.
  intros H Ha Hcap E. destruct (shA_fwd _ _ H _ _ Ha) as [Hw Hm]. unfold a_append in E.
  destruct (Nat.ltb_spec (sl_len sl) (sl_cap sl)) as [Hlt|Hge].
  - simplify_eq. intros s0 [->|[H1 H2]]; [split; [by left|done]|]. split.
    + right. split; [done|]. simpl. intros b sb Hb Es.
      apply lookup_insert_Some in Hb as [(<- & <-)|[Hne Hb]]; [|by eapply H2].
      simpl in *. specialize (H2 _ _ Ha Es). lia.
    + unfold a_cont. simpl. destruct (decide (sl_arr s0 = sl_arr sl)) as [Es|Hne].
      * rewrite Es, lookup_alter. specialize (H2 _ _ Ha (eq_sym Es)).
        destruct (a_arr x !! sl_arr sl) as [l|]; [|done]. simpl.
        by rewrite take_insert.
      * by rewrite lookup_alter_ne.
  - unfold a_alloc in E. simplify_eq. apply stable_set.
    + split_and!; simpl; [done|lia|]. intros b Hb. apply lookup_insert_ne. lia.
    + by right.
Qed.

Lemma shA_snap x m a sl : shA x m -> a_map x !! a = Some sl -> snap x sl.
Proof.
  intros H Ha. destruct (shA_fwd _ _ H _ _ Ha) as [[->|(Hr & _)] _]; [by left|]. right. split; [done|].
  intros b sb Hb E. destruct (decide (a = b)) as [->|Hne]; [by simplify_eq|].
  pose proof (shA_sep _ _ H _ _ _ _ Ha Hb Hne (eq_sym E)) as ->. simpl. lia.
Qed.

Lemma without_length n l : length (without n l) <= length l.
Proof. unfold without. induction l as [|x l IH]; simpl; [lia|]. rewrite filter_cons. case_decide; simpl; lia. Qed.
Lemma without_same n l : length (without n l) = length l -> without n l = l.
Proof.
  unfold without. induction l as [|x l IH]; simpl; [done|]. rewrite filter_cons.
  pose proof (without_length n l). unfold without in *. case_decide; simpl; intros; [f_equal; apply IH; lia|lia].
Qed.

(** Drop's loop over the aliases. *)
Lemma wp_drop n keys k s Q m :
  shA (r_A s) m -> NoDup keys -> (forall a, a ∈ keys -> is_Some (a_map (r_A s) !! a)) ->
  (forall x' m', shA x' m' -> stable (r_A s) x' ->
     (forall a, m' !! a = if decide (a ∈ keys) then m !! a ≫= drop_from n else m !! a) ->
     wp k (set_A x' s) Q) ->
  wp (drop_loop keys n k) s Q.
Proof.
  revert s m. induction keys as [|a keys IH]; intros s m Hs Hnd Hk H; simpl.
  - specialize (H (r_A s) m). rewrite set_A_id in H. apply H; [done|done|].
    intros b. by rewrite decide_False by (by apply not_elem_of_nil).
  - apply NoDup_cons in Hnd as [Hni Hnd].
    destruct (Hk a) as [sl Ha]; [left|]. rewrite Ha.
    destruct (shA_fwd _ _ Hs _ _ Ha) as [Hw Hm].
    pose proof (shA_bound _ _ _ _ Hs Ha) as Hb. pose proof (shA_pos _ _ Hs).
    apply wp_filter with (l0 := a_next (r_A s)); [done|done|lia|lia|by left|by left|].
    intros x1 acc He Hw1 Hp1 Hc. rewrite cont_nil in Hc. simpl in Hc. rewrite drop_0 in Hc.
    assert (length (without n (a_cont (r_A s) sl)) = sl_len acc) as Hlen.
    { rewrite <- Hc. by apply cont_length. }
    pose proof He as (Em & En & Ea).
    assert (forall b, b ∈ keys -> is_Some (a_map (r_A s) !! b)) as Hk' by (intros; apply Hk; by right).
    assert (forall (mm : gmap string (list string)) (b : string), b <> a ->
       (forall b, mm !! b = if decide (b ∈ keys) then m !! b ≫= drop_from n else m !! b) ->
       mm !! b = if decide (b ∈ a :: keys) then m !! b ≫= drop_from n else m !! b) as Hcons.
    { intros mm b Hba Hmm. rewrite Hmm. destruct (decide (b ∈ keys)) as [Hin|Hin], (decide (b ∈ a :: keys)) as [Hin2|Hin2]; try done.
      - exfalso. apply Hin2. by right.
      - exfalso. apply elem_of_cons in Hin2 as [?|?]; done. }
    destruct (decide (sl_len acc < 1)) as [Hlt|Hge].
    + simpl. eapply IH with (m := delete a m); [simpl; by apply shA_del, (shA_ext (r_A s))|done| |].
      * intros b Hbk. simpl. rewrite Em, lookup_delete_ne; [by apply Hk'|]. by intros ->.
      * intros x' m' Hs' Hst Hm'. change (set_A x' (set_A _ (set_A x1 s))) with (set_A x' s).
        apply H with m'; [done|by eapply stable_trans; [|exact Hst]; simpl; eauto using stable_ext, stable_set, stable_trans, stable_del|]. intros b. destruct (decide (b = a)) as [->|Hba].
        -- rewrite Hm'. rewrite decide_False by done. rewrite lookup_delete.
           rewrite decide_True by left. rewrite Hm. simpl. unfold drop_from.
           destruct (without n _); [done|simpl in Hlen; lia].
        -- rewrite Hm'. destruct (decide (b ∈ keys)) as [Hin|Hin], (decide (b ∈ a :: keys)) as [Hin2|Hin2];
             rewrite ?lookup_delete_ne by done; try done.
           ++ exfalso. apply Hin2. by right.
           ++ exfalso. apply elem_of_cons in Hin2 as [?|?]; done.
    + assert (m !! a ≫= drop_from n = Some (without n (a_cont (r_A s) sl))) as Hda.
      { rewrite Hm. simpl. unfold drop_from. destruct (without n _) eqn:E; [simpl in Hlen; lia|done]. }
      destruct (decide (sl_len acc = sl_len sl)) as [Heq|Hneq].
      * (* unchanged *)
        assert (without n (a_cont (r_A s) sl) = a_cont (r_A s) sl) as Hsame.
        { apply without_same. rewrite Hlen, cont_length by done. lia. }
        eapply IH with (m := m); [simpl; by apply (shA_ext (r_A s))|done| |].
        -- intros b Hbk. simpl. rewrite Em. by apply Hk'.
        -- intros x' m' Hs' Hst Hm'. change (set_A x' (set_A x1 s)) with (set_A x' s).
           apply H with m'; [done|by eapply stable_trans; [|exact Hst]; simpl; eauto using stable_ext, stable_set, stable_trans, stable_del|]. intros b. destruct (decide (b = a)) as [->|Hba]; [|by apply Hcons].
           rewrite Hm'. rewrite decide_False by done. rewrite decide_True by left.
           by rewrite Hda, Hsame, Hm.
      * eapply IH with (m := <[a := a_cont x1 acc]> m); [simpl; by apply (shA_set (r_A s))|done| |].
        -- intros b Hbk. simpl. rewrite Em, lookup_insert_ne; [by apply Hk'|]. by intros ->.
        -- intros x' m' Hs' Hst Hm'. change (set_A x' (set_A _ (set_A x1 s))) with (set_A x' s).
           apply H with m'; [done|by eapply stable_trans; [|exact Hst]; simpl; eauto using stable_ext, stable_set, stable_trans, stable_del|]. intros b. destruct (decide (b = a)) as [->|Hba].
           ++ rewrite Hm'. rewrite decide_False by done. rewrite decide_True by left.
              rewrite lookup_insert, Hda. by rewrite Hc.
           ++ rewrite Hm'. destruct (decide (b ∈ keys)) as [Hin|Hin], (decide (b ∈ a :: keys)) as [Hin2|Hin2];
               rewrite ?lookup_insert_ne by done; try done.
              ** exfalso. apply Hin2. by right.
              ** exfalso. apply elem_of_cons in Hin2 as [?|?]; done.
Qed.

(** Rename's inner loop. *)
Lemma wp_rename_elems sl n i old new k s Q m a :
  shA (r_A s) m -> a_map (r_A s) !! a = Some sl -> i + n = sl_len sl ->
  (forall x', shA x' (<[a := take i (a_cont (r_A s) sl) ++ map (renamed old new) (drop i (a_cont (r_A s) sl))]> m) ->
     a_map x' = a_map (r_A s) ->
     wp k (set_A x' s) Q) ->
  wp (rename_elems sl i n old new k) s Q.
Proof.
  revert i s m. induction n as [|n IH]; intros i s m Hs Ha Hi H; simpl.
  - destruct (shA_fwd _ _ Hs _ _ Ha) as [Hw Hm].
    specialize (H (r_A s)). rewrite set_A_id in H. apply H; [|done].
    rewrite drop_ge, take_ge by (rewrite cont_length by done; lia). simpl. rewrite app_nil_r.
    by rewrite insert_id.
  - destruct (shA_fwd _ _ Hs _ _ Ha) as [Hw Hm].
    rewrite wf_drop in H by (done || lia). simpl in H.
    pose proof (wf_load _ _ i Hw ltac:(lia)) as Hload.
    unfold renamed in H at 1.
    destruct (decide (a_load sl i (r_A s) = old)) as [E|Hne].
    + destruct Hw as [->|(Hr & l & Hl & Hc & Hx)]; [simpl in Hi; lia|].
      assert (sl <> nil_slice) as Hnn by (intros ->; simpl in Hr; lia).
      pose proof (shA_array (r_A s) m a sl (<[i := new]> l) l Hs Ha Hnn Hl ltac:(by rewrite insert_length)) as H1.
      assert (a_store sl i new (r_A s) = MkA (a_map (r_A s)) (<[sl_arr sl := <[i := new]> l]> (a_arr (r_A s))) (a_next (r_A s))) as Est.
      { unfold a_store. f_equal. apply map_eq. intros j. destruct (decide (j = sl_arr sl)) as [->|Hj].
        - by rewrite lookup_alter, lookup_insert, Hl.
        - by rewrite lookup_alter_ne, lookup_insert_ne. }
      cbn [wp]. rewrite Est. set (x1 := MkA _ _ _) in *.
      assert (a_cont x1 sl = <[i := new]> (a_cont (r_A s) sl)) as Hc1.
      { unfold a_cont, x1. simpl. rewrite lookup_insert, Hl. simpl. apply take_insert_lt. lia. }
      assert (i < length (a_cont (r_A s) sl)) as Hlen by (by eapply lookup_lt_Some).
      eapply IH with (m := <[a := _]> m); [exact H1|done|lia|].
      intros x' Hx' Em. change (set_A x' (set_A x1 s)) with (set_A x' s). apply H; [|done].
      simpl in Hx'. rewrite insert_insert, Hc1 in Hx'.
      rewrite (take_S_r _ _ new) in Hx' by (apply list_lookup_insert; lia).
      rewrite take_insert in Hx' by lia. rewrite drop_insert_gt in Hx' by lia.
      rewrite <- app_assoc in Hx'. exact Hx'.
    + eapply IH; [done|done|lia|]. intros x' Hx' Em. apply H; [|done].
      rewrite (take_S_r _ _ _ Hload), <- app_assoc in Hx'. exact Hx'.
Qed.

Lemma wp_rename_loop keys old new k s Q m :
  shA (r_A s) m -> NoDup keys -> (forall a, a ∈ keys -> is_Some (a_map (r_A s) !! a)) ->
  (forall x' m', shA x' m' -> a_map x' = a_map (r_A s) ->
     (forall a, m' !! a = if decide (a ∈ keys) then map (renamed old new) <$> m !! a else m !! a) ->
     wp k (set_A x' s) Q) ->
  wp (rename_loop keys old new k) s Q.
Proof.
  revert s m. induction keys as [|a keys IH]; intros s m Hs Hnd Hk H; simpl.
  - specialize (H (r_A s) m). rewrite set_A_id in H. apply H; [done|done|].
    intros b. by rewrite decide_False by (by apply not_elem_of_nil).
  - apply NoDup_cons in Hnd as [Hni Hnd].
    destruct (Hk a) as [sl Ha]; [left|]. rewrite Ha.
    destruct (shA_fwd _ _ Hs _ _ Ha) as [Hw Hm].
    eapply wp_rename_elems; [done|done|lia|]. intros x1 Hx1 Em. rewrite drop_0 in Hx1. simpl in Hx1.
    eapply IH; [exact Hx1|done| |].
    + intros b Hb. simpl. rewrite Em. apply Hk. by right.
    + intros x' m' Hs' Em' Hm'. change (set_A x' (set_A x1 s)) with (set_A x' s). eapply H; [done|simpl in Em'; congruence|].
      intros b. rewrite Hm'. destruct (decide (b = a)) as [->|Hba].
      * rewrite decide_False by done. rewrite decide_True by left. by rewrite lookup_insert, Hm.
      * rewrite lookup_insert_ne by done.
        destruct (decide (b ∈ keys)) as [Hin|Hin], (decide (b ∈ a :: keys)) as [Hin2|Hin2]; try done.
        -- exfalso. apply Hin2. by right.
        -- exfalso. apply elem_of_cons in Hin2 as [?|?]; done.
Qed.

Lemma wp_rows keys acc k s Q m :
  shA (r_A s) m -> (forall a, a ∈ keys -> is_Some (a_map (r_A s) !! a)) ->
  (forall rows, rows.*1 = keys -> (forall a sl, (a, sl) ∈ rows -> a_map (r_A s) !! a = Some sl) ->
     wp (k (acc ++ rows)) s Q) ->
  wp (rows_loop keys acc k) s Q.
Proof.
  intros Hs. revert acc. induction keys as [|a keys IH]; intros acc Hk H; simpl.
  - specialize (H []). rewrite app_nil_r in H. apply H; [done|]. intros ? ? Hx. by apply elem_of_nil in Hx.
  - destruct (Hk a) as [sl Ha]; [left|]. rewrite Ha. apply IH; [intros; apply Hk; by right|].
    intros rows E Hr. rewrite <- app_assoc. apply (H ((a, sl) :: rows)); [by rewrite fmap_cons, E|].
    intros b sb Hb. apply elem_of_cons in Hb as [Hb|Hb]; [by simplify_eq|by apply Hr].
Qed.

(** ** Index table *)
Record shI (ckn : bool) (tk : Tokenizer) (i : Ipart) (m : gmap string (list DocRequest)) : Prop := {
  shI_builder : i_builder i = NewMemoryIndexBuilder tk;
  shI_ckn : i_ckn i = ckn;
  shI_inj : forall n1 n2 p, i_map i !! n1 = Some p -> i_map i !! n2 = Some p -> n1 = n2;
  shI_fwd : forall n p, i_map i !! n = Some p -> p < i_next i /\
      exists nm reqs, i_heap i !! p = Some (index_after nm tk reqs) /\ m !! n = Some reqs;
  shI_none : forall n, i_map i !! n = None -> m !! n = None }.

Lemma shI_is_Some ckn tk i m n : shI ckn tk i m -> is_Some (i_map i !! n) <-> is_Some (m !! n).
Proof.
  intros H. destruct (i_map i !! n) as [p|] eqn:E.
  - apply H in E as (_ & nm & reqs & _ & ->). split; eauto.
  - apply H in E as ->. split; intros []; done.
Qed.

Lemma shI_None ckn tk i m n : shI ckn tk i m -> i_map i !! n = None <-> m !! n = None.
Proof. intros H. rewrite !eq_None_not_Some. by rewrite shI_is_Some. Qed.

Lemma shI_keys ckn tk i m : shI ckn tk i m -> (map_to_list (i_map i)).*1 ≡ₚ (map_to_list m).*1.
Proof.
  intros H. apply NoDup_Permutation; [apply NoDup_fst_map_to_list..|].
  intros a. rewrite !elem_of_list_fmap. split.
  - intros ([n p] & -> & Ha). apply elem_of_map_to_list in Ha. simpl.
    apply H in Ha as (_ & nm & reqs & _ & Ha). exists (n, reqs). by rewrite elem_of_map_to_list.
  - intros ([n l] & -> & Ha). apply elem_of_map_to_list in Ha. simpl.
    assert (is_Some (i_map i !! n)) as [p Hs] by (eapply shI_is_Some; eauto).
    exists (n, p). by rewrite elem_of_map_to_list.
Qed.

Lemma index_after_snoc nm tk reqs d : Put (index_after nm tk reqs) d = index_after nm tk (reqs ++ [d]).
Proof. unfold index_after. by rewrite fold_left_app. Qed.

Lemma shI_put ckn tk i m n p d :
  shI ckn tk i m -> i_map i !! n = Some p ->
  shI ckn tk (i_put p d i) (alter (fun reqs => reqs ++ [d]) n m).
Proof.
  intros H Hn. split; simpl; [apply H..| |].
  - intros n' p' Hp'. destruct (shI_fwd _ _ _ _ H _ _ Hp') as (Hlt & nm & reqs & Hh & Hm).
    split; [done|]. destruct (decide (n' = n)) as [->|Hne].
    + simplify_eq. exists nm, (reqs ++ [d]). rewrite !lookup_alter, Hh, Hm. simpl.
      by rewrite index_after_snoc.
    + exists nm, reqs. rewrite lookup_alter_ne; [|intros ->; apply Hne; by eapply H].
      by rewrite lookup_alter_ne.
  - intros n' Hn'. rewrite lookup_alter_ne by congruence. by apply H.
Qed.

Lemma shI_new ckn tk i m n d :
  shI ckn tk i m ->
  shI ckn tk (i_put (i_next i) d (i_set n (i_next i) (i_new n i))) (<[n := [d]]> m).
Proof.
  intros H. split; simpl; [apply H|apply H|..].
  - intros n1 n2 p H1 H2.
    apply lookup_insert_Some in H1 as [(<- & <-)|[Hne1 H1]];
    apply lookup_insert_Some in H2 as [(<- & Hp)|[Hne2 H2]]; try done.
    + apply H in H2 as [? _]. lia.
    + subst p. apply H in H1 as [? _]. lia.
    + by eapply H.
  - intros n' p' Hp'. apply lookup_insert_Some in Hp' as [(<- & <-)|[Hne Hp']].
    + split; [lia|]. exists n, [d]. rewrite lookup_alter, !lookup_insert.
      rewrite (shI_builder _ _ _ _ H). done.
    + destruct (shI_fwd _ _ _ _ H _ _ Hp') as (Hlt & nm & reqs & Hh & Hm). split; [lia|].
      exists nm, reqs. rewrite lookup_alter_ne, lookup_insert_ne, lookup_insert_ne by (done || lia). done.
  - intros n' Hn'. apply lookup_insert_None in Hn' as [Hn' Hne]. rewrite lookup_insert_ne by done. by apply H.
Qed.

Lemma shI_del ckn tk i m n : shI ckn tk i m -> shI ckn tk (i_del n i) (delete n m).
Proof.
  intros H. split; simpl; [apply H|apply H|..].
  - intros n1 n2 p H1 H2. apply lookup_delete_Some in H1 as [_ H1]. apply lookup_delete_Some in H2 as [_ H2].
    by eapply H.
  - intros n' p Hp. apply lookup_delete_Some in Hp as [Hne Hp]. rewrite lookup_delete_ne by done. by apply H.
  - intros n' Hn'. apply lookup_delete_None in Hn' as [->|Hn']; [apply lookup_delete|].
    apply lookup_delete_None. right. by apply H.
Qed.

Lemma shI_rename ckn tk i m old new p reqs :
  shI ckn tk i m -> i_map i !! old = Some p -> m !! old = Some reqs ->
  shI ckn tk (i_del old (i_set new p i)) (delete old (<[new := reqs]> m)).
Proof.
  intros H Ho Hm. split; simpl; [apply H|apply H|..].
  - intros n1 n2 p0 H1 H2. apply lookup_delete_Some in H1 as [Hd1 H1]. apply lookup_delete_Some in H2 as [Hd2 H2].
    apply lookup_insert_Some in H1 as [(<- & <-)|[Hne1 H1]];
    apply lookup_insert_Some in H2 as [(<- & Hp)|[Hne2 H2]]; try done.
    + exfalso. apply Hd2. by eapply H.
    + subst p0. exfalso. apply Hd1. by eapply H.
    + by eapply H.
  - intros n' p' Hp'. apply lookup_delete_Some in Hp' as [Hd Hp'].
    rewrite lookup_delete_ne by done.
    apply lookup_insert_Some in Hp' as [(<- & <-)|[Hne Hp']].
    + rewrite lookup_insert. apply H in Ho as (? & nm & reqs' & ? & ?). simplify_eq. eauto.
    + rewrite lookup_insert_ne by done. by apply H.
  - intros n' Hn'. apply lookup_delete_None in Hn' as [->|Hn']; [apply lookup_delete|].
    apply lookup_insert_None in Hn' as [Hn' Hne].
    apply lookup_delete_None. right. rewrite lookup_insert_ne by done. by apply H.
Qed.

Lemma put_each_perm d l l' idx : l ≡ₚ l' -> put_each d l idx = put_each d l' idx.
Proof.
  intros H. unfold put_each. revert idx. induction H; intros idx; simpl.
  - done.
  - by rewrite IHPermutation.
  - destruct (decide (x = y)) as [->|Hne]; [done|].
    by rewrite alter_commute by done.
  - by rewrite IHPermutation1.
Qed.

Lemma put_each_snoc d l n idx :
  put_each d (l ++ [n]) idx = put_each d l (alter (fun reqs => reqs ++ [d]) n idx).
Proof. unfold put_each. by rewrite foldr_app. Qed.

Lemma puts_all_some ps d i i' : puts ps d i = Some i' -> Forall is_Some ps.
Proof. revert i. induction ps as [|[p|] ps IH]; intros i H; [done| |done]. constructor; [done|]. by eapply IH. Qed.

Lemma puts_spec ckn tk i m d l i' :
  shI ckn tk i m -> (forall x, x ∈ l -> is_Some (i_map i !! x)) ->
  puts ((fun x => i_map i !! x) <$> l) d i = Some i' -> shI ckn tk i' (put_each d l m).
Proof.
  revert i m. induction l as [|n l IH]; intros i m H Hl Hp; simpl in Hp.
  - by simplify_eq.
  - destruct (Hl n) as [p Hn]; [left|]. rewrite Hn in Hp.
    apply (IH (i_put p d i) (alter (fun reqs => reqs ++ [d]) n m)) in Hp.
    + rewrite <- put_each_snoc in Hp. erewrite put_each_perm; [exact Hp|].
      by rewrite Permutation_app_comm.
    + by apply shI_put.
    + intros x Hx. simpl. apply Hl. by right.
Qed.

Lemma i_search_name ckn tk i m q e n :
  shI ckn tk i m -> i_search (i_map i !! n) q e i = search_name ckn tk m q e n.
Proof.
  intros H. unfold search_name. destruct (i_map i !! n) as [p|] eqn:E; simpl.
  - apply H in E as (_ & nm & reqs & -> & ->). unfold search_docs.
    rewrite (shI_ckn _ _ _ _ H).
    assert (forall nm', mi_Inverted (index_after nm' tk reqs) = mi_Inverted (index_after "" tk reqs) /\
              mi_Docs (index_after nm' tk reqs) = mi_Docs (index_after "" tk reqs) /\
              mi_tokenizer (index_after nm' tk reqs) = tk) as Hn.
    { intros nm'. unfold index_after. rewrite <- (rev_involutive reqs).
      induction (rev reqs) as [|r rs IH]; [done|]. simpl. rewrite !fold_left_app. simpl.
      destruct IH as (E1 & E2 & E3).
      assert (mi_tokenizer (fold_left Put (rev rs) (NewMemoryIndex "" tk)) = tk) as E4.
      { clear. induction rs as [|r rs IH] using rev_ind; [done|].
        rewrite rev_app_distr. simpl. revert IH. generalize (rev rs). intros l.
        assert (forall mi, mi_tokenizer (fold_left Put l mi) = mi_tokenizer mi) as Hx.
        { induction l; intros mi; simpl; [done|]. by rewrite IHl. }
        intros _. by rewrite Hx. }
      rewrite E1, E2, E3, E4. done. }
    unfold mi_Search. destruct (Hn nm) as (E1 & E2 & E3). destruct (Hn ""%string) as (_ & _ & E4).
    rewrite E3, E4. f_equal. unfold indexer_of, Len, Indexed, Document. by rewrite E1, E2.
  - apply H in E as ->. done.
Qed.

(** ** The whole repo *)
Record shape (ckn : bool) (tk : Tokenizer) (s : repo) (v : view) : Prop := {
  sh_I : shI ckn tk (r_I s) (v_idx v);
  sh_A : shA (r_A s) (v_ali v);
  sh_imu : r_imu s = MkRW (v_leakI v) false false;
  sh_amu : r_amu s = MkRW 0 false (v_leakA v) }.

Lemma shape_new ckn tk : shape ckn tk (NewIndexRepo ckn (NewMemoryIndexBuilder tk)) new_view.
Proof.
  split; [split|split|done|done]; simpl; try done; intros; try lia.
  all: rewrite lookup_empty in *; done.
Qed.

Definition match_out ckn tk (res : result) (o : out) : Prop :=
  match res, o with
  | Done r s', ODone b v' => see s' r = b /\ shape ckn tk s' v'
  | Panicked s', OPanic v' => shape ckn tk s' v'
  | Crashed, OCrash => True
  | Blocked, OBlock => True
  | _, _ => False
  end.

Definition post ckn tk c v (res : result) : Prop :=
  exists o, spec ckn tk c v o /\ match_out ckn tk res o.

Section refine.
  Context (ckn : bool) (tk : Tokenizer).

  Ltac start H s v :=
    destruct s as [I A im am], v as [idx ali lI lA], H as [HI HA E1 E2];
    cbn [v_idx v_ali v_leakI v_leakA r_I r_A r_imu r_amu] in *; subst im am.
  Ltac ret o := exists o; split; [|split; [done|by split]].
  Ltac go := cbn [wp get_mu set_mu set_I set_A r_I r_A r_imu r_amu rw_readers rw_pending rw_writer orb].

  Lemma ref_List s v : shape ckn tk s v -> wp List_prog s (post ckn tk CList v).
  Proof.
    intros H. start H s v. unfold List_prog. go. intros names Hn. go.
    ret (ODone (ONames names) (MkView idx ali lI lA)). simpl. exists names. split; [|done].
    rewrite Hn. by eapply shI_keys.
  Qed.

  Lemma ref_Has s v n : shape ckn tk s v -> wp (Has_prog n) s (post ckn tk (CHas n) v).
  Proof.
    intros H. start H s v. unfold Has_prog. go.
    eexists; split; [reflexivity|]. split; [|by split]. simpl. f_equal.
    apply bool_decide_ext. by eapply shI_is_Some.
  Qed.

  Lemma ref_HasAlias s v n : shape ckn tk s v -> wp (HasAlias_prog n) s (post ckn tk (CHasAlias n) v).
  Proof.
    intros H. start H s v. unfold HasAlias_prog. go. destruct lA; go.
    - by exists OBlock.
    - eexists; split; [reflexivity|]. split; [|by split]. simpl. f_equal.
      apply bool_decide_ext. by eapply shA_is_Some.
  Qed.

  Lemma shA_m_None x m a : shA x m -> a_map x !! a = None <-> m !! a = None.
  Proof. intros H. rewrite !eq_None_not_Some. by rewrite shA_is_Some. Qed.

  Lemma ref_Alias s v a i : shape ckn tk s v -> wp (Alias_prog a i) s (post ckn tk (CAlias a i) v).
  Proof.
    intros H. start H s v. unfold Alias_prog. go.
    destruct (i_map I !! i) as [p|] eqn:Ei; go.
    2:{ apply (shI_None _ _ _ _ _ HI) in Ei. ret (ODone (OBool false) (MkView idx ali lI lA)).
        simpl. by rewrite decide_True. }
    assert (idx !! i <> None) as Ei' by (rewrite <- (shI_None _ _ _ _ _ HI); congruence).
    destruct lA; go.
    { exists OBlock. split; [|done]. simpl. by rewrite decide_False. }
    destruct (a_map A !! a) as [sl|] eqn:Ea.
    - destruct (shA_fwd _ _ HA _ _ Ea) as [Hw Hm].
      apply wp_scan; [done|lia|]. rewrite drop_0. go.
      case_bool_decide as Hin; go.
      + ret (ODone (OBool false) (MkView idx ali lI false)). simpl.
        rewrite decide_False by done. rewrite Hm. simpl. by rewrite decide_True.
      + intros cap Hcap. destruct (a_append sl i cap A) as [x' sl'] eqn:E. cbn [fst snd]. go.
        exists (ODone (OBool true) (MkView idx (<[a := a_cont A sl ++ [i]]> ali) lI false)).
        split; [|split; [done|split; [done| |done..]]].
        * simpl. rewrite decide_False by done. rewrite Hm. simpl. by rewrite decide_False.
        * cbn. by eapply shA_append.
    - apply (shA_m_None _ _ _ HA) in Ea as Hm. go. cbn [a_alloc fst snd length]. 
      exists (ODone (OBool true) (MkView idx (<[a := [i]]> ali) lI false)).
      split; [|split; [done|split; [done| |done..]]].
      + simpl. rewrite decide_False by done. by rewrite Hm.
      + cbn. pose proof (shA_pos _ _ HA).
        set (x' := MkA (a_map A) (<[a_next A := [i] ]> (a_arr A)) (S (a_next A))).
        set (sl := MkSlice (a_next A) 1 1).
        assert (a_cont x' sl = [i]) as Hc.
        { unfold a_cont. simpl. by rewrite lookup_insert. }
        rewrite <- Hc.
        apply shA_set with A; [done|..].
        * split_and!; simpl; [done|lia|]. intros b Hb. apply lookup_insert_ne. lia.
        * right. simpl. split; [lia|]. exists [i]. by rewrite lookup_insert.
        * right. simpl. lia.
  Qed.

  Lemma ref_UnAlias s v a i : shape ckn tk s v -> wp (UnAlias_prog a i) s (post ckn tk (CUnAlias a i) v).
  Proof.
    intros H. start H s v. unfold UnAlias_prog. destruct (decide (i = "")) as [->|Hi]; go.
    - destruct lA; go; [by exists OBlock|].
      eexists; split; [reflexivity|]. split; [|split; [done| |done..]].
      + simpl. f_equal. apply bool_decide_ext. by eapply shA_is_Some.
      + cbn. by apply shA_del.
    - destruct (i_map I !! i) as [p|] eqn:Ei; go.
      2:{ apply (shI_None _ _ _ _ _ HI) in Ei.
          ret (ODone (OBool false) (MkView idx ali (S lI) lA)).
          simpl. by rewrite decide_False, decide_True. }
      assert (idx !! i <> None) as Ei' by (rewrite <- (shI_None _ _ _ _ _ HI); congruence).
      destruct lA; go.
      { exists OBlock. split; [|done]. simpl. by rewrite !decide_False. }
      destruct (a_map A !! a) as [sl|] eqn:Ea; go.
      + destruct (shA_fwd _ _ HA _ _ Ea) as [Hw Hm].
        pose proof (shA_bound _ _ _ _ HA Ea) as Hb. pose proof (shA_pos _ _ HA).
        apply wp_filter with (l0 := a_next A); [done|done|done|lia|by left|by left|].
        go. intros x' acc He Hw' Hp' Hc. rewrite cont_nil, drop_0 in Hc. simpl in Hc.
        exists (ODone (OBool true) (MkView idx (<[a := without i (a_cont A sl)]> ali) lI false)) || idtac.
        assert (spec ckn tk (CUnAlias a i) (MkView idx ali lI false)
                  (ODone (OBool true) (MkView idx (<[a := without i (a_cont A sl)]> ali) lI false))) as Hsp.
        { simpl. rewrite !decide_False by done. by rewrite Hm. }
        destruct (decide _) as [Heq|Hne]; go.
        * eexists. split; [exact Hsp|]. split; [done|]. split; [done| |done..]. cbn.
          rewrite without_same.
          -- rewrite insert_id by done. by apply (shA_ext A).
          -- rewrite <- Hc, !cont_length by done. done.
        * eexists. split; [exact Hsp|]. split; [done|]. split; [done| |done..]. cbn.
          rewrite <- Hc. by apply shA_set with A.
      + apply (shA_m_None _ _ _ HA) in Ea as Hm.
        exists (ODone (OBool false) (MkView idx ali lI true)). split; [|split; [done|by split]].
        simpl. rewrite !decide_False by done. by rewrite Hm.
  Qed.

  Lemma keys_nodup {V} (m : gmap string V) names : names ≡ₚ (map_to_list m).*1 -> NoDup names.
  Proof. intros ->. apply NoDup_fst_map_to_list. Qed.
  Lemma keys_elem {V} (m : gmap string V) names a :
    names ≡ₚ (map_to_list m).*1 -> a ∈ names <-> is_Some (m !! a).
  Proof.
    intros ->. rewrite elem_of_list_fmap. split.
    - intros ([n x] & -> & Hx). apply elem_of_map_to_list in Hx. eauto.
    - intros [x Hx]. exists (a, x). by rewrite elem_of_map_to_list.
  Qed.

  Lemma ref_Rename s v old new : shape ckn tk s v -> wp (Rename_prog old new) s (post ckn tk (CRename old new) v).
  Proof.
    intros H. start H s v. unfold Rename_prog. go. destruct lI as [|lI]; go.
    2:{ exists OBlock. split; [|done]. simpl. done. }
    destruct (i_map I !! old) as [p|] eqn:Eo; go.
    - destruct (shI_fwd _ _ _ _ HI _ _ Eo) as (_ & nm & reqs & _ & Hm).
      intros names Hn. eapply wp_rename_loop.
      + exact HA.
      + by eapply keys_nodup.
      + intros a Ha. by eapply keys_elem in Ha.
      + intros x' m' Hx' _ Hm'. go.
        exists (ODone (OBool true) (MkView (delete old (<[new := reqs]> idx)) (map (renamed old new) <$> ali) 0 lA)).
        split; [|split; [done|split; [| |done..]]].
        * simpl. rewrite Hm. done.
        * cbn. by apply shI_rename.
        * cbn. assert (map (renamed old new) <$> ali = m') as ->; [|done].
          apply map_eq. intros a. rewrite lookup_fmap, Hm'.
          destruct (decide (a ∈ names)) as [Hin|Hin]; [done|].
          rewrite (keys_elem _ _ _ Hn), (shA_is_Some _ _ _ HA) in Hin.
          rewrite <- eq_None_not_Some in Hin. by rewrite Hin.
    - apply (shI_None _ _ _ _ _ HI) in Eo. ret (ODone (OBool false) (MkView idx ali 0 lA)).
      simpl. by rewrite Eo.
  Qed.

  Lemma ref_Drop s v n : shape ckn tk s v -> wp (Drop_prog n) s (post ckn tk (CDrop n) v).
  Proof.
    intros H. start H s v. unfold Drop_prog. go.
    destruct (i_map I !! n) as [p|] eqn:En; go.
    2:{ apply (shI_None _ _ _ _ _ HI) in En. ret (ODone (OBool false) (MkView idx ali lI lA)).
        simpl. by rewrite decide_True. }
    assert (idx !! n <> None) as En' by (rewrite <- (shI_None _ _ _ _ _ HI); congruence).
    destruct lI as [|lI]; go.
    2:{ exists OBlock. split; [|done]. simpl. by rewrite decide_False. }
    destruct lA; go.
    { exists OBlock. split; [|done]. simpl. by rewrite decide_False. }
    intros names Hn. eapply wp_drop.
    - exact HA.
    - by eapply keys_nodup.
    - intros a Ha. by eapply keys_elem in Ha.
    - intros x' m' Hx' _ Hm'. go.
      exists (ODone (OBool true) (MkView (delete n idx) (omap (drop_from n) ali) 0 false)).
      split; [|split; [done|split; [| |done..]]].
      + simpl. by rewrite decide_False.
      + cbn. by apply shI_del.
      + cbn. assert (omap (drop_from n) ali = m') as ->; [|done].
        apply map_eq. intros a. rewrite lookup_omap, Hm'.
        destruct (decide (a ∈ names)) as [Hin|Hin]; [done|].
        rewrite (keys_elem _ _ _ Hn), (shA_is_Some _ _ _ HA) in Hin.
        rewrite <- eq_None_not_Some in Hin. by rewrite Hin.
  Qed.

  Lemma ref_ListAliases s v : shape ckn tk s v -> wp ListAliases_prog s (post ckn tk CListAliases v).
  Proof.
    intros H. start H s v. unfold ListAliases_prog. go. destruct lA; go; [by exists OBlock|].
    intros names Hn. eapply wp_rows; [exact HA| |].
    { intros a Ha. by eapply keys_elem in Ha. }
    intros rows Hr1 Hr2. go. exists (ODone (ORows (map (fun row => (row.1, a_cont A row.2)) rows)) (MkView idx ali lI false)).
    split; [|split; [done|by split]]. simpl. eexists. split; [|reflexivity].
    apply NoDup_Permutation.
    - apply (NoDup_fmap_1 fst). rewrite <- list_fmap_compose. simpl.
      change (NoDup (fst <$> rows)). rewrite Hr1. by eapply keys_nodup.
    - apply NoDup_map_to_list.
    - intros [a l]. rewrite elem_of_map_to_list. split.
      + intros Hin. apply elem_of_list_fmap in Hin as ([a' sl] & E & Hin). simplify_eq/=.
        apply Hr2 in Hin. by apply (shA_fwd _ _ HA).
      + intros Ha. assert (is_Some (a_map A !! a)) as Hs by (eapply shA_is_Some; eauto).
        rewrite <- (keys_elem _ _ _ Hn), <- Hr1 in Hs.
        apply elem_of_list_fmap in Hs as ([a' sl] & E & Hin). simplify_eq/=.
        pose proof Hin as Hin'. apply Hr2 in Hin'. destruct (shA_fwd _ _ HA _ _ Hin') as [_ Hm].
        apply elem_of_list_fmap. exists (a', sl). simpl. split; [|done]. congruence.
  Qed.

  Lemma wp_string show names acc k s Q :
    (forall t, wp (k t) s Q) -> wp (string_loop show names acc k) s Q.
  Proof.
    intros H. revert acc. induction names as [|n names IH]; intros acc; simpl; [done|].
    case_match; apply IH.
  Qed.

  Lemma ref_String s v show : shape ckn tk s v -> wp (String_prog show) s (post ckn tk (CString show) v).
  Proof.
    intros H. start H s v. unfold String_prog. go. intros names _. apply wp_string. intros t. go.
    exists (ODone (OText t) (MkView idx ali lI lA)). split; [|split; [done|by split]]. simpl. eauto.
  Qed.

  Lemma ref_Put s v n d : shape ckn tk s v -> wp (Put_prog n d) s (post ckn tk (CPut n d) v).
  Proof.
    intros H. start H s v. unfold Put_prog, getIndices. go.
    destruct (i_map I !! n) as [p|] eqn:En; go.
    - destruct (shI_fwd _ _ _ _ HI _ _ En) as (_ & nm & reqs & _ & Hm).
      destruct lI as [|lI]; go.
      2:{ exists OBlock. split; [|done]. simpl. by rewrite Hm. }
      split.
      + intros Hin. apply elem_of_list_singleton in Hin. done.
      + intros ps' i' Hp Hi. apply Permutation_singleton_r in Hp as ->. go.
        eexists. split; [simpl; rewrite Hm; reflexivity|]. split; [done|]. split; [|done..]. cbn.
        apply (puts_spec ckn tk I idx d [n]); [done| |simpl; by rewrite En].
        intros x ->%elem_of_list_singleton. eauto.
    - apply (shI_None _ _ _ _ _ HI) in En as Hm. destruct lA; go.
      { exists OBlock. split; [|done]. simpl. by rewrite Hm. }
      destruct (a_map A !! n) as [sl|] eqn:Ea; go.
      + destruct (shA_fwd _ _ HA _ _ Ea) as [Hw Ham].
        apply wp_resolve; [done|lia|]. rewrite drop_0. go.
        destruct lI as [|lI]; go.
        2:{ exists OBlock. split; [|done]. simpl. by rewrite Hm. }
        simpl app. split.
        * intros Hin. exists OCrash. split; [|done]. simpl. rewrite Hm, Ham. simpl.
          rewrite decide_True; [done|]. apply Exists_exists.
          apply elem_of_list_fmap in Hin as (x & Hx & Hin). exists x. split; [done|].
          by apply (shI_None _ _ _ _ _ HI).
        * intros ps' i' Hp Hi. go.
          assert (exists l', ps' = ((fun x => i_map I !! x) <$> l') /\ a_cont A sl ≡ₚ l') as (l' & -> & Hl').
          { destruct (Permutation_map_inv _ _ Hp) as (l' & -> & Hl'). eauto. }
          assert (forall x, x ∈ a_cont A sl -> is_Some (i_map I !! x)) as Hall.
          { assert (forall x, x ∈ l' -> is_Some (i_map I !! x)) as Hx.
            { intros x Hx. apply puts_all_some in Hi. rewrite Forall_fmap, Forall_forall in Hi. by apply Hi. }
            intros x. rewrite Hl'. apply Hx. }
          eexists. split; [simpl; rewrite Hm, Ham; simpl; rewrite decide_False; [reflexivity|]|].
          -- intros (x & Hx & Hn)%Exists_exists. apply Hall in Hx. apply (shI_None _ _ _ _ _ HI) in Hn.
             rewrite Hn in Hx. by destruct Hx.
          -- split; [done|]. split; [|done..]. cbn. rewrite (put_each_perm _ _ _ _ Hl').
             apply (puts_spec ckn tk I idx d l'); [done| |done].
             intros x Hx. apply Hall. by rewrite Hl'.
      + apply (shA_m_None _ _ _ HA) in Ea as Ham. destruct lI as [|lI]; go.
        2:{ exists OBlock. split; [|done]. simpl. by rewrite Hm. }
        eexists. split; [simpl; rewrite Hm, Ham; simpl; reflexivity|]. split; [done|]. split; [|done..].
        cbn. by apply shI_new.
  Qed.

  Lemma ref_Search s v n q e : shape ckn tk s v -> wp (Search_prog n q e) s (post ckn tk (CSearch n q e) v).
  Proof.
    intros H. start H s v. unfold Search_prog. go.
    destruct (i_map I !! n) as [p|] eqn:En; go.
    - destruct (shI_fwd _ _ _ _ HI _ _ En) as (_ & nm & reqs & _ & Hm).
      unfold search_tail. go. rewrite <- En, (i_search_name _ _ _ _ _ _ _ HI).
      unfold search_name. rewrite Hm. destruct (search_docs ckn tk reqs q e) as [sr|] eqn:E; go.
      + ret (ODone (OResults sr) (MkView idx ali lI lA)). simpl. by rewrite Hm, E.
      + exists (OPanic (MkView idx ali lI lA)). split; [simpl; by rewrite Hm, E|by split].
    - apply (shI_None _ _ _ _ _ HI) in En as Hm. destruct lA; go.
      { exists OBlock. split; [|done]. simpl. by rewrite Hm. }
      destruct (a_map A !! n) as [sl|] eqn:Ea; go.
      + destruct (shA_fwd _ _ HA _ _ Ea) as [Hw Ham].
        apply wp_resolve; [done|lia|]. rewrite drop_0. go. simpl app.
        assert (search_all ((fun x => i_map I !! x) <$> a_cont A sl) q e I
                = (search_name ckn tk idx q e <$> a_cont A sl)) as Hall.
        { unfold search_all. rewrite <- list_fmap_compose. apply list_fmap_ext.
          intros _ x _. simpl. by apply i_search_name. }
        assert (forall l, a_cont A sl = l -> length l <> 1 ->
          wp (GoSearch ((fun x => i_map I !! x) <$> a_cont A sl) q e (fun result => RUnlock MI (Ret (RResults result))))
             (MkRepo I A (MkRW (S lI) false false) (MkRW 0 false false))
             (post ckn tk (CSearch n q e) (MkView idx ali lI false))) as Hmany.
        { intros l Hl Hlen. go. rewrite Hall. rewrite <- Hl in Hlen.
          assert (forall o, search_many ckn tk idx q e (a_cont A sl) o (MkView idx ali lI false) ->
                            spec ckn tk (CSearch n q e) (MkView idx ali lI false) o) as Hsp.
          { intros o Ho. simpl. rewrite Hm, Ham. destruct (a_cont A sl) as [|? [|? ?]]; [done|simpl in Hlen; lia|done]. }
          split.
          - intros Hp. exists OCrash. split; [|done]. apply Hsp. by right.
          - intros bl bl' Hbl Hp. go. eexists. split; [apply Hsp; left; by eauto|]. split; [done|]. by split. }
        unfold search_tail.
        destruct (a_cont A sl) as [|x [|y l]] eqn:Ec; cbn [fmap list_fmap].
        * by apply (Hmany []).
        * go. rewrite (i_search_name _ _ _ _ _ _ _ HI).
          destruct (search_name ckn tk idx q e x) as [sr|] eqn:E; go.
          -- ret (ODone (OResults sr) (MkView idx ali lI false)). simpl. rewrite Hm, Ham. by rewrite E.
          -- exists (OPanic (MkView idx ali lI false)). split; [simpl; rewrite Hm, Ham; by rewrite E|by split].
        * by apply (Hmany (x :: y :: l)).
      + apply (shA_m_None _ _ _ HA) in Ea as Ham.
        eexists. split; [simpl; rewrite Hm, Ham; reflexivity|]. split; [done|by split].
  Qed.

  Theorem ref_call c s v : shape ckn tk s v -> wp (prog_of c) s (post ckn tk c v).
  Proof.
    destruct c; simpl prog_of.
    - apply ref_List. - apply ref_ListAliases. - apply ref_Has. - apply ref_HasAlias.
    - apply ref_Alias. - apply ref_UnAlias. - apply ref_Put. - apply ref_Search.
    - apply ref_Rename. - apply ref_Drop. - apply ref_String.
  Qed.

  Theorem call_refines c s v res :
    shape ckn tk s v -> call_result c s res -> exists o, spec ckn tk c v o /\ match_out ckn tk res o.
  Proof. intros H Hc. eapply (wp_sound (prog_of c) s (post ckn tk c v)); [by apply ref_call|done]. Qed.
End refine.
