(** * The machine of SpecConc.v does not depend on how its objects are numbered. *)
From Coq Require Import Lia.
From stdpp Require Import list gmap.
From Verif Require Import Entities Search SpecSearch Repo Sem RepoWp SpecRepo ProofRepo SpecConc Locks Reduce ProofMachine ProofConc ProofSim
  SpecExact ProofAlone.
Open Scope nat_scope.

(** [w2] is [w] with its objects renumbered by [f]; the names given to the objects
    when they were created are compared if [str]. *)
Record ren (str : bool) (f : nat -> nat) (w w2 : cview) : Prop := {
  rn_idx : c_idx w2 = f <$> c_idx w;
  rn_ali : c_ali w2 = c_ali w;
  rn_obj : forall p nm reqs, c_obj w !! p = Some (nm, reqs) ->
    exists nm2, c_obj w2 !! f p = Some (nm2, reqs) /\ (str = true -> nm2 = nm);
  rn_inj : forall p q, is_Some (c_obj w !! p) -> is_Some (c_obj w !! q) -> f p = f q -> p = q;
  rn_wf : forall n p, c_idx w !! n = Some p -> is_Some (c_obj w !! p) }.

Definition ren_ps (f : nat -> nat) (t : option (list (option nat))) : option (list (option nat)) :=
  match t with Some ps => Some (option_map f <$> ps) | None => None end.

Definition ren_stage (f : nat -> nat) (x : stage) : stage :=
  match x with PutAt n d t => PutAt n d (ren_ps f t) | _ => x end.

(** The objects that [x] refers to exist. *)
Definition known (w : cview) (x : stage) : Prop :=
  match x with PutAt _ _ (Some ps) => forall p, Some p ∈ ps -> is_Some (c_obj w !! p) | _ => True end.

Section ren.
  Context (str : bool) (ckn : bool) (tk : Tokenizer) (f : nat -> nat) (w w2 : cview).
  Context (H : ren str f w w2).

  Lemma ren_lookup n : c_idx w2 !! n = f <$> c_idx w !! n.
  Proof. rewrite (rn_idx _ _ _ _ H). by rewrite lookup_fmap. Qed.
  Lemma ren_None n : c_idx w2 !! n = None <-> c_idx w !! n = None.
  Proof. rewrite ren_lookup. by rewrite fmap_None. Qed.
  Lemma ren_keys : (map_to_list (c_idx w2)).*1 ≡ₚ (map_to_list (c_idx w)).*1.
  Proof.
    rewrite (rn_idx _ _ _ _ H). rewrite map_to_list_fmap. rewrite <- list_fmap_compose.
    by rewrite (list_fmap_ext (fst ∘ prod_map id f) fst (map_to_list (c_idx w)) (fun _ _ _ => eq_refl)).
  Qed.
  Lemma ren_targets n :
    targets w2 n = ren_ps f (targets w n).
  Proof.
    unfold targets. rewrite ren_lookup, (rn_ali _ _ _ _ H). destruct (c_idx w !! n) as [p|]; [done|]. simpl.
    destruct (c_ali w !! n) as [l|]; [|done]. simpl. f_equal. rewrite <- list_fmap_compose.
    apply list_fmap_ext. intros _ x _. simpl. by rewrite ren_lookup.
  Qed.
  Lemma targets_known n ps p : targets w n = Some ps -> Some p ∈ ps -> is_Some (c_obj w !! p).
  Proof.
    unfold targets. destruct (c_idx w !! n) as [q|] eqn:E.
    - intros [= <-] Hp. apply elem_of_list_singleton in Hp as [= ->]. by eapply (rn_wf _ _ _ _ H).
    - destruct (c_ali w !! n) as [l|]; [|done]. intros [= <-] Hp.
      apply elem_of_list_fmap in Hp as (x & Hx & _). by eapply (rn_wf _ _ _ _ H).
  Qed.
  Lemma ren_search q e op :
    (forall p, op = Some p -> is_Some (c_obj w !! p)) ->
    search_obj ckn tk w2 q e (option_map f op) = search_obj ckn tk w q e op.
  Proof.
    intros Hk. unfold search_obj. destruct op as [p|]; [|done]. simpl.
    destruct (Hk p eq_refl) as [[nm reqs] Ho]. destruct (rn_obj _ _ _ _ H _ _ _ Ho) as (nm2 & E & _).
    by rewrite Ho, E.
  Qed.
  Lemma ren_text show names : str = true -> text_of tk show w2 names = text_of tk show w names.
  Proof.
    intros Hstr. induction names as [|n names IH]; [done|]. cbn [text_of]. rewrite IH. f_equal.
    rewrite ren_lookup. destruct (c_idx w !! n) as [p|] eqn:E; [|done]. simpl.
    destruct (rn_wf _ _ _ _ H _ _ E) as [[nm reqs] Ho]. destruct (rn_obj _ _ _ _ H _ _ _ Ho) as (nm2 & E2 & En).
    rewrite Ho, E2. by rewrite En.
  Qed.

  Lemma ren_read x b w' :
    reading_stage x -> (str = true \/ forall show, x <> Todo (CString show)) ->
    section ckn tk x w b w' -> section ckn tk x w2 b w2 /\ w' = w.
  Proof.
    intros Hx Hstr He. destruct x as [c| | | |]; try done. destruct c; try done; simpl in *.
    - destruct He as (l & Hp & -> & ->). split; [|done]. exists l. by rewrite ren_keys.
    - destruct He as (l & Hp & -> & ->). split; [|done]. exists l. by rewrite (rn_ali _ _ _ _ H).
    - destruct He as [-> He]. split; [|done]. split; [done|]. rewrite ren_targets.
      destruct (targets w index) as [ops|] eqn:Et; [|done]. simpl.
      assert (Hs : forall op, op ∈ ops -> search_obj ckn tk w2 terms engine (option_map f op) = search_obj ckn tk w terms engine op).
      { intros op Hop. apply ren_search. intros p ->. by eapply targets_known. }
      destruct ops as [|op [|op' ops]]; simpl.
      + done.
      + rewrite Hs by left. done.
      + rewrite He. f_equal. rewrite Hs by left. rewrite Hs by (right; left).
        cbn [fmap list_fmap]. f_equal. f_equal.
        assert (Hs' : forall op2, op2 ∈ ops -> search_obj ckn tk w2 terms engine (option_map f op2) = search_obj ckn tk w terms engine op2)
          by (intros op2 Hin; apply Hs; by do 2 right).
        clear -Hs'. induction ops as [|o ops IH]; [done|]. cbn [fmap list_fmap]. rewrite Hs' by left. f_equal.
        apply IH. intros op2 Hin. apply Hs'. by right.
    - destruct He as (names & Hp & -> & ->). split; [|done]. exists names. rewrite ren_keys. split; [done|]. split; [|done].
      destruct Hstr as [Hstr|Hno]; [|by destruct (Hno show)]. by rewrite ren_text.
  Qed.

  Lemma ren_sub w' w2' (idx : gmap string nat) ali :
    w' = MkC idx (c_obj w) ali -> w2' = MkC (f <$> idx) (c_obj w2) ali ->
    (forall n p, idx !! n = Some p -> exists n', c_idx w !! n' = Some p) -> ren str f w' w2'.
  Proof.
    intros -> -> Hi. split; simpl; [done|done|apply H|apply H|].
    intros n p Hp. destruct (Hi _ _ Hp) as [n' Hn']. by eapply (rn_wf _ _ _ _ H).
  Qed.

  Lemma ren_filter q ps :
    is_Some (c_obj w !! q) -> (forall p, Some p ∈ ps -> is_Some (c_obj w !! p)) ->
    length (filter (fun op => op = Some (f q)) (option_map f <$> ps)) =
    length (filter (fun op => op = Some q) ps).
  Proof.
    intros Hq Hps. induction ps as [|op ps IH]; [done|]. rewrite fmap_cons, !filter_cons.
    assert (forall p, Some p ∈ ps -> is_Some (c_obj w !! p)) as Hps' by (intros p Hp; apply Hps; by right).
    destruct (decide (op = Some q)) as [->|Hne].
    - rewrite decide_True by done. cbn [length]. by rewrite IH.
    - rewrite decide_False; [by apply IH|]. intros E. destruct op as [p|]; [|done]. simpl in E. injection E as E.
      apply Hne. f_equal. eapply (rn_inj _ _ _ _ H); [apply Hps; left|done|done].
  Qed.

  (** Both machines make the same section. *)
  Lemma ren_det x b w' x' b2 w2' x2 :
    ~ reading_stage x -> known w x ->
    section ckn tk x w b w' -> leave b x' -> section ckn tk (ren_stage f x) w2 b2 w2' -> leave b2 x2 ->
    exists f', ren str f' w' w2' /\ x2 = ren_stage f' x' /\ known w' x' /\
      (forall p, is_Some (c_obj w !! p) -> is_Some (c_obj w' !! p) /\ f' p = f p).
  Proof.
    intros Hr Hk He Hb He2 Hb2.
    assert (Hsame : forall (P : Prop) o o2, P -> b = ret_obs o -> w' = w -> b2 = ret_obs o2 -> w2' = w2 -> o2 = o ->
      exists f', ren str f' w' w2' /\ x2 = ren_stage f' x' /\ known w' x' /\
      (forall p, is_Some (c_obj w !! p) -> is_Some (c_obj w' !! p) /\ f' p = f p)).
    { intros P o o2 _ -> -> -> -> ->. simpl in Hb, Hb2. subst x' x2. by exists f. }
    assert (Hset : forall o idx ali, b = ret_obs o -> w' = MkC idx (c_obj w) ali -> b2 = ret_obs o ->
      w2' = MkC (f <$> idx) (c_obj w2) ali ->
      (forall n p, idx !! n = Some p -> exists n', c_idx w !! n' = Some p) ->
      exists f', ren str f' w' w2' /\ x2 = ren_stage f' x' /\ known w' x' /\
      (forall p, is_Some (c_obj w !! p) -> is_Some (c_obj w' !! p) /\ f' p = f p)).
    { intros o idx ali -> E1 -> E2 Hi. simpl in Hb, Hb2. subst x' x2. exists f.
      split; [by eapply ren_sub|]. split; [done|]. split; [done|]. intros p Hp. by subst w'. }
    assert (Hid : forall n p, c_idx w !! n = Some p -> exists n', c_idx w !! n' = Some p) by eauto.
    destruct x as [c|n d [ps|]|n|a i|a]; cbn [ren_stage ren_ps] in He2.
    - destruct c; try (by destruct Hr); simpl in He, He2.
      + destruct He as [-> ->], He2 as [-> ->]. eapply (Hsame True); try done.
        f_equal. apply bool_decide_ext. rewrite ren_lookup. by rewrite fmap_is_Some.
      + destruct He as [-> ->], He2 as [-> ->]. eapply (Hsame True); try done. by rewrite (rn_ali _ _ _ _ H).
      + rewrite (rn_ali _ _ _ _ H) in He2.
        destruct (decide (c_idx w !! index = None \/ index ∈ default [] (c_ali w !! alias))) as [Hd|Hd].
        * rewrite decide_True in He2 by (rewrite ren_None; done).
          destruct He as [-> ->], He2 as [-> ->]. by eapply (Hsame True).
        * rewrite decide_False in He2 by (rewrite ren_None; done).
          destruct He as [-> ->], He2 as [-> ->]. eapply Hset; [done|done|done| |done]. by rewrite <- (rn_idx _ _ _ _ H).
      + rewrite (rn_ali _ _ _ _ H) in He2. destruct (decide (index = ""%string)).
        * destruct He as [-> ->], He2 as [-> ->]. eapply Hset; [done|done|done| |done]. by rewrite <- (rn_idx _ _ _ _ H).
        * destruct (decide (c_idx w !! index = None)) as [Hd|Hd].
          -- rewrite decide_True in He2 by (by rewrite ren_None). destruct He as [-> ->], He2 as [-> ->]. by eapply (Hsame True).
          -- rewrite decide_False in He2 by (by rewrite ren_None). destruct He as [-> ->], He2 as [-> ->].
             simpl in Hb, Hb2. subst x' x2. by exists f.
      + destruct He as [-> ->], He2 as [-> ->]. simpl in Hb, Hb2. subst x' x2. exists f. split; [done|].
        split; [simpl; by rewrite ren_targets|]. split; [|done]. simpl.
        destruct (targets w index) as [ps|] eqn:Et; [|done]. intros p Hp. by eapply targets_known.
      + rewrite ren_lookup in He2. destruct (c_idx w !! old) as [p|] eqn:Eo; simpl in He2.
        * destruct He as [-> ->], He2 as [-> ->]. eapply Hset; [done|done|done| |].
          -- rewrite (rn_idx _ _ _ _ H), (rn_ali _ _ _ _ H). by rewrite fmap_delete, fmap_insert.
          -- intros n q Hq. apply lookup_delete_Some in Hq as [_ Hq].
             apply lookup_insert_Some in Hq as [(_ & <-)|[_ Hq]]; eauto.
        * destruct He as [-> ->], He2 as [-> ->]. by eapply (Hsame True).
      + destruct (decide (c_idx w !! index = None)) as [Hd|Hd].
        * rewrite decide_True in He2 by (by rewrite ren_None). destruct He as [-> ->], He2 as [-> ->]. by eapply (Hsame True).
        * rewrite decide_False in He2 by (by rewrite ren_None). destruct He as [-> ->], He2 as [-> ->].
          simpl in Hb, Hb2. subst x' x2. by exists f.
    - destruct He as (Hn & -> & ->), He2 as (Hn2 & -> & ->). simpl in Hb, Hb2, Hk. subst x' x2.
      exists f. split; [|split; [done|split; [done|]]].
      + split; simpl; [apply H|apply H| | |].
        * intros p nm reqs Hp. rewrite put_objs_lookup in Hp. destruct (c_obj w !! p) as [[nm' reqs']|] eqn:Ep; [|done].
          simpl in Hp. simplify_eq. destruct (rn_obj _ _ _ _ H _ _ _ Ep) as (nm2 & E2 & En). exists nm2.
          split; [|done]. rewrite put_objs_lookup, E2. simpl. by rewrite ren_filter by eauto.
        * intros p q. rewrite !put_objs_is_Some. apply H.
        * intros n' p Hp. rewrite put_objs_is_Some. by eapply (rn_wf _ _ _ _ H).
      + intros p Hp. split; [|done]. simpl. by rewrite put_objs_is_Some.
    - destruct He as (p & Hp & -> & ->), He2 as (p2 & Hp2 & -> & ->). simpl in Hb, Hb2. subst x' x2.
      exists (fun q => if decide (q = p) then p2 else f q).
      assert (Hf : forall q, is_Some (c_obj w !! q) -> (if decide (q = p) then p2 else f q) = f q).
      { intros q Hq. rewrite decide_False; [done|]. intros ->. rewrite Hp in Hq. by destruct Hq. }
      split; [|split; [done|split; [done|]]].
      + split; simpl.
        * rewrite (rn_idx _ _ _ _ H). rewrite fmap_insert. rewrite decide_True by done. f_equal.
          apply map_fmap_ext. intros n' q Hq. symmetry. apply Hf. by eapply (rn_wf _ _ _ _ H).
        * apply H.
        * intros q nm reqs Hq. apply lookup_insert_Some in Hq as [(<- & ?)|[Hne Hq]].
          -- simplify_eq. exists nm. split; [|done]. rewrite decide_True by done. by rewrite lookup_insert.
          -- rewrite Hf by eauto. destruct (rn_obj _ _ _ _ H _ _ _ Hq) as (nm2 & E2 & En). exists nm2. split; [|done].
             rewrite lookup_insert_ne; [done|]. intros ->. congruence.
        * intros q1 q2 H1 H2 E.
          apply lookup_insert_is_Some in H1, H2.
          destruct (decide (q1 = p)) as [->|N1], (decide (q2 = p)) as [->|N2]; try done.
          -- destruct H2 as [?|[_ [[nm reqs] H2]]]; [congruence|]. apply (rn_obj _ _ _ _ H) in H2 as (nm2 & E2 & _). congruence.
          -- destruct H1 as [?|[_ [[nm reqs] H1]]]; [congruence|]. apply (rn_obj _ _ _ _ H) in H1 as (nm2 & E2 & _). congruence.
          -- destruct H1 as [?|[_ H1]]; [congruence|]. destruct H2 as [?|[_ H2]]; [congruence|]. by eapply (rn_inj _ _ _ _ H).
        * intros n' q Hq. apply lookup_insert_is_Some. apply lookup_insert_Some in Hq as [(_ & <-)|[Hne Hq]]; [by left|].
          right. apply (rn_wf _ _ _ _ H) in Hq. split; [|done]. intros <-. rewrite Hp in Hq. by destruct Hq.
      + intros q Hq. split; [|by apply Hf]. simpl. apply lookup_insert_is_Some. right. split; [|done].
        intros <-. rewrite Hp in Hq. by destruct Hq.
    - destruct He as [-> ->], He2 as [-> ->]. eapply Hset; [done|done|done| |].
      + rewrite (rn_idx _ _ _ _ H), (rn_ali _ _ _ _ H). by rewrite fmap_delete.
      + intros n' q Hq. apply lookup_delete_Some in Hq as [_ Hq]. eauto.
    - simpl in He, He2. rewrite (rn_ali _ _ _ _ H) in He2. destruct (c_ali w !! a) as [l|].
      + destruct He as [-> ->], He2 as [-> ->]. eapply Hset; [done|done|done| |done]. by rewrite <- (rn_idx _ _ _ _ H).
      + destruct He as [-> ->], He2 as [-> ->]. by eapply (Hsame True).
    - done.
  Qed.
End ren.

(** ** The machine, with whole sections *)
Notation wpool := (list stage * cview)%type.
Section whole.
  Context (ckn : bool) (tk : Tokenizer).
  Definition wstep (a a' : wpool) : Prop :=
    exists (i : nat) (x : stage) b x', a.1 !! i = Some x /\ tidy_section ckn tk x a.2 b a'.2 /\ leave b x' /\ a'.1 = <[i := x']> a.1.
  Definition wdies (a : wpool) : Prop :=
    exists (i : nat) (x : stage), a.1 !! i = Some x /\ (dies_before x a.2 \/ exists b w', tidy_section ckn tk x a.2 b w' /\ dies_inside b).
  Definition fits (t : cthr) (x : stage) : Prop :=
    match t with Between y => x = y | Inside b => leave b x end.

  Lemma fits_insert l xs i t x : Forall2 fits l xs -> fits t x -> Forall2 fits (<[i := t]> l) (<[i := x]> xs).
  Proof. intros. by apply Forall2_insert. Qed.
  Lemma fits_at l xs i t : Forall2 fits l xs -> l !! i = Some t -> exists x, xs !! i = Some x /\ fits t x.
  Proof. intros H Hi. by eapply Forall2_lookup_l in H. Qed.

  Lemma whole_run l w xsF wF :
    rtc (tstep_of ckn tk) (APool l w) (APool (Between <$> xsF) wF) ->
    exists xs, Forall2 fits l xs /\ rtc wstep (xs, w) (xsF, wF).
  Proof.
    intros Hr. remember (APool l w) as a eqn:Ea. remember (APool (Between <$> xsF) wF) as z eqn:Ez.
    revert l w Ea. induction Hr as [a|a b z Hs Hr IH]; intros l w ->.
    - simplify_eq. exists xsF. split; [|done]. apply Forall2_fmap_l. induction xsF; by constructor.
    - inversion Hs as [l0 w0 i x bb w' Hi He|l0 w0 i bb x Hi Hf|l0 w0 i x Hi Hc|l0 w0 i bb Hi Hc]; subst.
      + destruct (IH eq_refl _ _ eq_refl) as (xs & H2 & Hrun).
        pose proof (lookup_lt_Some _ _ _ Hi) as Hlt.
        destruct (fits_at _ _ i (Inside bb) H2) as (x' & Hx' & Hl); [by apply list_lookup_insert|]. simpl in Hl.
        exists (<[i := x]> xs). split.
        * rewrite <- (list_insert_id l i (Between x)) by done. rewrite <- (list_insert_insert l i _ (Inside bb)).
          by apply fits_insert.
        * eapply rtc_l; [|exact Hrun]. exists i, x, bb, x'. simpl. split_and!; [|done|done|].
          -- apply list_lookup_insert. by eapply lookup_lt_Some.
          -- rewrite list_insert_insert. symmetry. by apply list_insert_id.
      + destruct (IH eq_refl _ _ eq_refl) as (xs & H2 & Hrun). exists xs. split; [|done].
        pose proof (lookup_lt_Some _ _ _ Hi) as Hlt.
        destruct (fits_at _ _ i (Between x) H2) as (x' & Hx' & ->); [by apply list_lookup_insert|].
        rewrite <- (list_insert_id l i (Inside bb)) by done. rewrite <- (list_insert_insert l i _ (Between x)).
        rewrite <- (list_insert_id xs i x) by done. by apply fits_insert.
      + exfalso. clear -Hr. inversion Hr as [|? ? ? Hx]; subst. inversion Hx.
      + exfalso. clear -Hr. inversion Hr as [|? ? ? Hx]; subst. inversion Hx.
  Qed.

  (** Some thread is about to die, or every thread can finish its section. *)
  Lemma dies_or_leaves b : dies_inside b \/ exists x, leave b x.
  Proof.
    destruct b as [x|ol]; [right; by exists x|]. simpl.
    assert (Panic ∈ ol \/ exists bl, ol = Ok <$> bl) as [H|[bl ->]].
    { induction ol as [|[sr|] ol [IH|[bl ->]]].
      - right. by exists [].
      - by left; right. - right. by exists (sr :: bl). - left; left. - left; left. }
    - by left.
    - right. exists (Answered (Returned (OResults (concat bl)))). exists bl, bl. done.
  Qed.
  Lemma fits_or_dies (l : list cthr) :
    (exists i b, l !! i = Some (Inside b) /\ dies_inside b) \/ exists xs, Forall2 fits l xs.
  Proof.
    induction l as [|t l [(i & b & Hi & Hb)|[xs IH]]].
    - right. by exists [].
    - left. by exists (S i), b.
    - destruct t as [x|b].
      + right. exists (x :: xs). by constructor.
      + destruct (dies_or_leaves b) as [Hb|[x Hx]]; [left; by exists 0, b|]. right. exists (x :: xs). by constructor.
  Qed.

  Lemma whole_crash l w :
    rtc (tstep_of ckn tk) (APool l w) ACrashed ->
    (exists i b, l !! i = Some (Inside b) /\ dies_inside b) \/
    exists xs a, Forall2 fits l xs /\ rtc wstep (xs, w) a /\ wdies a.
  Proof.
    intros Hr. remember (APool l w) as a eqn:Ea. remember ACrashed as z eqn:Ez.
    revert l w Ea. induction Hr as [a|a b z Hs Hr IH]; intros l w ->; [done|].
    inversion Hs as [l0 w0 i x bb w' Hi He|l0 w0 i bb x Hi Hf|l0 w0 i x Hi Hc|l0 w0 i bb Hi Hc]; subst.
    - pose proof (lookup_lt_Some _ _ _ Hi) as Hlt.
      destruct (IH eq_refl _ _ eq_refl) as [(j & b & Hj & Hb)|(xs & a & H2 & Hrun & Hd)].
      + destruct (decide (i = j)) as [<-|Hne].
        * rewrite list_lookup_insert in Hj by done. injection Hj as <-.
          destruct (fits_or_dies l) as [?|[xs Hxs]]; [by left|]. right. exists xs, (xs, w). split; [done|]. split; [done|].
          destruct (fits_at _ _ _ _ Hxs Hi) as (x' & Hx' & ->). exists i, x. split; [done|]. right. by exists bb, w'.
        * rewrite list_lookup_insert_ne in Hj by done. left. by exists j, b.
      + right. destruct (fits_at _ _ i (Inside bb) H2) as (x' & Hx' & Hl); [by apply list_lookup_insert|]. simpl in Hl.
        exists (<[i := x]> xs), a. split_and!; [| |done].
        * rewrite <- (list_insert_id l i (Between x)) by done. rewrite <- (list_insert_insert l i _ (Inside bb)).
          by apply fits_insert.
        * eapply rtc_l; [|exact Hrun]. exists i, x, bb, x'. simpl. split_and!; [|done|done|].
          -- apply list_lookup_insert. by eapply lookup_lt_Some.
          -- rewrite list_insert_insert. symmetry. by apply list_insert_id.
    - pose proof (lookup_lt_Some _ _ _ Hi) as Hlt.
      destruct (IH eq_refl _ _ eq_refl) as [(j & b & Hj & Hb)|(xs & a & H2 & Hrun & Hd)].
      + left. destruct (decide (i = j)) as [<-|Hne]; [by rewrite list_lookup_insert in Hj|].
        rewrite list_lookup_insert_ne in Hj by done. by exists j, b.
      + right. exists xs, a. split; [|done].
        destruct (fits_at _ _ i (Between x) H2) as (x' & Hx' & ->); [by apply list_lookup_insert|].
        rewrite <- (list_insert_id l i (Inside bb)) by done. rewrite <- (list_insert_insert l i _ (Between x)).
        rewrite <- (list_insert_id xs i x) by done. by apply fits_insert.
    - destruct (fits_or_dies l) as [?|[xs Hxs]]; [by left|]. right. exists xs, (xs, w). split; [done|]. split; [done|].
      destruct (fits_at _ _ _ _ Hxs Hi) as (x' & Hx' & ->). exists i, x. split; [done|]. by left.
    - left. by exists i, bb.
  Qed.
End whole.

(** ** Everything that the machine can do happens *)
Lemma rtc_thread ts i t s t' s' :
  ts !! i = Some t -> rtc sstep (t, s) (t', s') -> rtc pstep (Pool ts s) (Pool (<[i := t']> ts) s').
Proof.
  intros Hi Hr. remember (t, s) as a eqn:Ea. remember (t', s') as z eqn:Ez. revert ts t s Hi Ea.
  induction Hr as [a|a b z Hs Hr IH]; intros ts t s Hi ->.
  - simplify_eq. by rewrite list_insert_id.
  - inversion Hs as [? ? t1 s1 Ht]; subst. eapply rtc_l; [by econstructor|].
    rewrite <- (list_insert_insert ts i t' t1). eapply IH; [done| |done].
    apply list_lookup_insert. by eapply lookup_lt_Some.
Qed.

Section realize.
  Context (md : mode) (str : bool) (ckn : bool) (tk : Tokenizer).
  Notation shc := (shC false ckn tk).
  Notation link := (linkC md false).
  Notation free s := (alone_ok s none_held).

  Definition no_string (x : stage) : Prop := str = true \/ forall show, x <> Todo (CString show).

  Record real (f : nat -> nat) (w2 : cview) (a : wpool) (ts : list thr) (s : repo) : Prop := {
    re_ren : ren str f a.2 w2;
    re_sh : shc (dat s) w2;
    re_free : free s;
    re_thr : Forall2 (fun x t => exists p, t = TRun p /\ link (ren_stage f x) p (dat s) /\ known a.2 x /\ no_string x) a.1 ts }.

  Lemma ren_leaks f w w2 x : ren str f w w2 -> leaks (ren_stage f x) w2 -> leaks x w.
  Proof.
    intros H. destruct x as [c|n d t|n|a i|a]; simpl; try done.
    - destruct c; try done. intros [Hi Hn]. split; [done|]. by rewrite ren_None in Hn.
    - by rewrite (rn_ali _ _ _ _ H).
  Qed.
  Lemma ren_stage_known f f' w x :
    known w x -> (forall p, is_Some (c_obj w !! p) -> f' p = f p) -> ren_stage f x = ren_stage f' x.
  Proof.
    intros Hk Hf. destruct x as [|n d [ps|]| | |]; try done. simpl in *. f_equal. f_equal.
    apply list_fmap_ext. intros i op Hop. destruct op as [p|]; [|done]. simpl. f_equal. symmetry. apply Hf, Hk.
    by eapply elem_of_list_lookup_2.
  Qed.
  Lemma link_section x p D w b w' : link x p D -> section ckn tk x w b w' -> ~ finished (TRun p).
  Proof.
    intros Hl He Hf. destruct (answers_link _ _ _ _ _ Hf Hl) as (a & -> & _). by destruct He.
  Qed.

  Lemma leave_stage b x w w' y : section ckn tk y w b w' -> leave b x -> forall c, x <> Todo c.
  Proof.
    intros He Hl c ->. destruct b as [x'|ol]; simpl in Hl.
    - subst x'. destruct y as [[]|n d [ps|]|n|a i|a]; simpl in He; repeat first [case_decide|case_match]; naive_solver.
    - destruct Hl as (? & ? & _ & _ & ?). done.
  Qed.

  Lemma real_step f w2 a ts s a' :
    real f w2 a ts s -> wstep ckn tk a a' ->
    exists f' w2' ts' s', rtc pstep (Pool ts s) (Pool ts' s') /\ real f' w2' a' ts' s'.
  Proof.
    intros [Hren Hsh Hfree Hthr] (i & x & b & x' & Hi & [He Hnl] & Hb & Ha').
    destruct a as [xs w], a' as [xs' w']. simpl in *. subst xs'.
    destruct (Forall2_lookup_l _ _ _ _ _ Hthr Hi) as (t & Ht & p & -> & Hl & Hk & Hns).
    pose proof (leave_stage _ _ _ _ _ He Hb) as Hx'.
    assert (Hd : reading_stage x \/ ~ reading_stage x) by (destruct x as [[]| | | |]; simpl; auto).
    destruct Hd as [Hr|Hr].
    - destruct (ren_read str ckn tk f w w2 Hren x b w' Hr Hns He) as [He2 ->].
      assert (ren_stage f x = x) as E by (by destruct x). rewrite E in Hl.
      destruct (read_runs md ckn tk x p s w2 b w2 x' Hr Hl Hsh Hfree He2 Hb) as (p' & s' & R1 & R2 & R3 & R4 & R5).
      assert (exists ans, x' = Answered ans) as [ans ->].
      { clear -He Hb Hr. destruct x as [c| | | |]; try done. destruct c; try done; simpl in He.
        - destruct He as (? & _ & -> & _). simpl in Hb. subst x'. by eexists.
        - destruct He as (? & _ & -> & _). simpl in Hb. subst x'. by eexists.
        - destruct He as [_ He]. destruct (targets w index) as [[|op [|op' ops]]|]; [|destruct (search_obj _ _ _ _ _ _)| |]; subst b; simpl in Hb;
            try (subst x'; by eexists); destruct Hb as (? & ? & _ & _ & ->); by eexists.
        - destruct He as (? & _ & -> & _). simpl in Hb. subst x'. by eexists. }
      exists f, w2, (<[i := TRun p']> ts), s'. split; [by eapply rtc_thread|].
      split; simpl; [done..|]. apply Forall2_insert.
      + eapply Forall2_impl; [exact Hthr|]. intros y t (q & -> & Hq & Hk' & Hn'). exists q. split_and!; [done| |done|done].
        by eapply linkC_G.
      + exists p'. split_and!; [done..|]. by right.
    - assert (Hnf : ~ finished (TRun p)).
      { intros Hf. destruct (answers_link _ _ _ _ _ Hf Hl) as (ans & E & _). destruct x; try done. }
      destruct (section_runs md ckn tk (ren_stage f x) p s w2 Hl Hsh Hfree Hnf) as
        [(p' & s' & b2 & x2 & w2' & R1 & R2 & R3 & R4 & R5 & R6 & R7)|(t' & s' & R1 & R2 & R3)].
      { intros Hlk. apply Hnl. by eapply ren_leaks. }
      + destruct (ren_det str ckn tk f w w2 Hren x b w' x' b2 w2' x2 Hr Hk He Hb R4 R5) as (f' & Hren' & -> & Hk' & Hag).
        exists f', w2', (<[i := TRun p']> ts), s'. split; [by eapply rtc_thread|].
        split; simpl; [done..|]. apply Forall2_insert.
        * eapply Forall2_impl; [exact Hthr|]. intros y t (q & -> & Hq & Hky & Hn'). exists q. split_and!; [done| | |done].
          -- rewrite <- (ren_stage_known f f' w y) by (by try (intros; apply Hag)). by eapply linkC_G.
          -- destruct y as [|n d [ps|]| | |]; try done. intros pp Hp. by apply Hag, Hky.
        * exists p'. split_and!; [done..|]. right. naive_solver.
      + exfalso. destruct R3 as [R3|(b2 & w2' & R3 & R4)].
        * destruct x as [|n d [ps|]| | |]; try done. simpl in R3, He.
          apply elem_of_list_fmap in R3 as ([q|] & E & Hin); [done|]. by destruct He as [? _].
        * clear -R3 R4 Hr. destruct b2 as [|ol]; [done|]. unfold section, ret_obs in R3. destruct x as [[]|n d [ps|]|n|a i|a]; simpl in *; repeat first [case_decide|case_match]; naive_solver.
  Qed.

  Lemma real_run f w2 a ts s a' :
    real f w2 a ts s -> rtc (wstep ckn tk) a a' ->
    exists f' w2' ts' s', rtc pstep (Pool ts s) (Pool ts' s') /\ real f' w2' a' ts' s'.
  Proof.
    intros H Hr. revert f w2 ts s H. induction Hr as [a|a b z Hs Hr IH]; intros f w2 ts s H; [exists f, w2, ts, s; by split|].
    destruct (real_step _ _ _ _ _ _ H Hs) as (f1 & w1 & ts1 & s1 & R1 & H1).
    destruct (IH _ _ _ _ H1) as (f2 & w3 & ts2 & s2 & R2 & H2). exists f2, w3, ts2, s2. split; [by etrans|done].
  Qed.

  Lemma real_dies f w2 a ts s :
    real f w2 a ts s -> wdies ckn tk a -> rtc pstep (Pool ts s) PCrashed.
  Proof.
    intros [Hren Hsh Hfree Hthr] (i & x & Hi & Hx). destruct a as [xs w]. simpl in *.
    destruct (Forall2_lookup_l _ _ _ _ _ Hthr Hi) as (t & Ht & p & -> & Hl & Hk & Hns).
    assert (Hgo : ~ finished (TRun p) -> ~ leaks (ren_stage f x) w2 ->
      (forall b w', section ckn tk (ren_stage f x) w2 b w' -> forall x', ~ leave b x') -> rtc pstep (Pool ts s) PCrashed).
    { intros Hf Hnl Hno.
      destruct (section_runs md ckn tk (ren_stage f x) p s w2 Hl Hsh Hfree Hf Hnl) as
        [(p' & s' & b2 & x2 & w2' & R1 & R2 & R3 & R4 & R5 & _)|(t' & s' & R1 & R2 & R3)].
      - exfalso. by eapply Hno.
      - eapply rtc_r; [by eapply rtc_thread|]. eapply P_crash; [|exact R2].
        apply list_lookup_insert. by eapply lookup_lt_Some. }
    destruct Hx as [Hx|(b & w' & [He Hnl] & Hb)].
    - destruct x as [|n d [ps|]| | |]; try done. simpl in Hx. apply Hgo; [|by intros ?|].
      + destruct Hl as [-> _]. by intros ?.
      + simpl. intros b w' (Hn & _). exfalso. apply Hn. apply elem_of_list_fmap. by exists None.
    - assert (Hr : exists n q e, x = Todo (CSearch n q e)).
      { clear -He Hb. destruct b as [|ol]; [done|]. unfold section, ret_obs in He. destruct x as [[]|n d [ps|]|n|a i|a]; simpl in *; repeat first [case_decide|case_match]; naive_solver. }
      destruct Hr as (n & q & e & ->).
      destruct (ren_read str ckn tk f w w2 Hren (Todo (CSearch n q e)) b w' I Hns He) as [He2 ->].
      apply Hgo; [|by intros ?|].
      + by eapply (link_section (Todo (CSearch n q e))).
      + simpl in He2 |- *. destruct He2 as [_ He2]. intros b2 w3 [_ He3] x' Hlv.
        assert (b2 = b) as ->.
        { destruct (targets w2 n) as [[|op [|op' ops]]|]; [congruence| |congruence..]. destruct (search_obj _ _ _ _ _ _); congruence. }
        destruct b as [|ol]; [done|]. destruct Hlv as (bl & bl' & -> & _). simpl in Hb.
        apply elem_of_list_fmap in Hb as (? & ? & _). done.
  Qed.

  Lemma real_start f w w2 s cs :
    ren str f w w2 -> shc (dat s) w2 -> free s -> Forall (allowed md) cs ->
    (str = true \/ forall show, CString show ∉ cs) -> real f w2 (Todo <$> cs, w) (start cs) s.
  Proof.
    intros H1 H2 H3 H4 H5. split; simpl; [done..|]. unfold start. apply Forall2_fmap.
    assert (H6 : forall c, c ∈ cs -> no_string (Todo c)).
    { intros c Hc. destruct H5 as [H5|H5]; [by left|right]. intros show [= ->]. by eapply H5. }
    clear H5. induction H4 as [|c cs Hc Hcs IH]; constructor.
    - exists (prog_of c). split_and!; [done|done|done|]. apply H6. left.
    - apply IH. intros c' Hc'. apply H6. by right.
  Qed.
End realize.
