(** * Clients that keep to their own names and to shared ones. *)
From Coq Require Import Lia.
From stdpp Require Import list gmap.
From Verif Require Import Entities Search SpecSearch Repo Sem SpecRepo ProofRepo SpecConc ProofConc SpecLin
  ProofMachine ProofLin Properties_Lin SpecClient SpecOwn ProofLink.
Open Scope nat_scope.

(** ** What a client may change *)
Section own.
  Context (ckn : bool) (tk : Tokenizer) (own : owners).

  Record kept (w : cview) : Prop := {
    k_alias : forall a l x, c_ali w !! a = Some l -> x ∈ l -> own x = own a \/ own x = None;
    k_shared : forall n, own n = None -> is_Some (c_idx w !! n) \/ exists l, c_ali w !! n = Some l /\ l <> [] }.

  Lemma kept_view w : wfC w -> arranged own (view_of w) -> kept w.
  Proof.
    intros Hw [H1 H2]. split; [done|]. intros n Hn. destruct (H2 n Hn) as [H|H]; [left|by right].
    by apply view_idx_is_Some.
  Qed.

  (** What is known about a running call. *)
  Definition pends (w : cview) (c : call) (x : stage) : Prop :=
    match x with
    | Todo c' => c' = c
    | PutAt n d t => c = CPut n d /\ (t = targets w n \/ t = Some [])
    | UnAliasAt a i => c = CUnAlias a i /\ i <> ""%string /\ is_Some (c_idx w !! i)
    | DropAt n => c = CDrop n /\ is_Some (c_idx w !! n)
    | Answered (Returned (ORows _)) => c = CListAliases
    | Answered _ => True
    end.

  (** Names of others stay as they are, but for aliases without indices, which any
      Drop takes away. *)
  Definition stays (i : nat) (w w' : cview) : Prop :=
    forall n, own n <> Some i -> c_idx w' !! n = c_idx w !! n /\
      (c_ali w' !! n = c_ali w !! n \/ (c_ali w !! n = Some [] /\ c_ali w' !! n = None)).

  Lemma without_other n l : n ∉ l -> without n l = l.
  Proof.
    unfold without. induction l as [|x l IH]; [done|]. intros H. rewrite filter_cons.
    rewrite decide_True by set_solver. f_equal. apply IH. set_solver.
  Qed.

  Lemma kept_shared i w w' : kept w -> stays i w w' ->
    (forall a l x, c_ali w' !! a = Some l -> x ∈ l -> own x = own a \/ own x = None) -> kept w'.
  Proof.
    intros [_ H2] Hst H1. split; [done|]. intros n Hn. destruct (Hst n) as [E1 E2]; [congruence|]. rewrite E1.
    destruct (H2 n Hn) as [?|(l & Hl & Hne)]; [by left|right]. exists l. split; [|done].
    destruct E2 as [->|[E _]]; [done|]. congruence.
  Qed.

  Lemma section_stays i c x w b w' :
    kept w -> obeys own i c -> pends w c x -> section ckn tk x w b w' -> stays i w w' /\ kept w'.
  Proof.
    intros HK Ho Hp Hs.
    assert (Hsame : c_idx w' = c_idx w -> c_ali w' = c_ali w -> stays i w w' /\ kept w').
    { intros E1 E2. assert (Hst : stays i w w') by (intros n _; rewrite E1, E2; auto).
      split; [done|]. apply (kept_shared i w); [done..|]. rewrite E2. apply HK. }
    assert (Hboth : stays i w w' -> (forall a l x, c_ali w' !! a = Some l -> x ∈ l -> own x = own a \/ own x = None) ->
      stays i w w' /\ kept w').
    { intros Hst H. split; [done|]. by apply (kept_shared i w). }
    destruct x as [c'|n d t|n|a y|a]; [| | | |done].
    - simpl in Hp. subst c'. destruct c; cbn [section] in Hs; repeat case_decide;
        try (destruct Hs as (? & _ & _ & ->); by apply Hsame); try (destruct Hs as (_ & ->); by apply Hsame);
        try (destruct Hs as (-> & _); by apply Hsame).
      + (* Alias *)
        destruct Hs as (_ & ->). destruct Ho as [Ha Hx]. apply Hboth.
        * intros n Hn. cbn [c_idx c_ali]. split; [done|]. left. rewrite lookup_insert_ne; [done|]. congruence.
        * intros a l x. cbn [c_ali]. rewrite lookup_insert_Some. intros [[<- <-]|[Hne Hl]] Hin; [|by eapply HK].
          apply elem_of_app in Hin as [Hin| ->%elem_of_list_singleton].
          { destruct (c_ali w !! alias) as [l|] eqn:El; [|by apply elem_of_nil in Hin]. by eapply HK. }
          rewrite Ha. done.
      + (* UnAlias of everything *)
        destruct Hs as (_ & ->). destruct Ho as [Ha _]. apply Hboth.
        * intros n Hn. cbn [c_idx c_ali]. split; [done|]. left. rewrite lookup_delete_ne; [done|]. congruence.
        * intros a l x. cbn [c_ali]. rewrite lookup_delete_Some. intros [Hne Hl] Hin. by eapply HK.
      + (* Rename *)
        destruct Ho as [Hold Hnew]. destruct (c_idx w !! old) as [p|] eqn:E; destruct Hs as (_ & ->); [|by apply Hsame].
        apply Hboth.
        * intros n Hn. cbn [c_idx c_ali]. rewrite lookup_delete_ne, lookup_insert_ne by congruence. split; [done|].
          left. rewrite lookup_fmap. destruct (c_ali w !! n) as [l|] eqn:El; [|done]. simpl. f_equal.
          rewrite <- (list_fmap_id l) at 2. apply list_fmap_ext. intros j x Hx%elem_of_list_lookup_2. unfold renamed.
          rewrite decide_False; [done|]. intros ->. destruct (k_alias _ HK _ _ _ El Hx); congruence.
        * intros a l x. cbn [c_ali]. rewrite lookup_fmap. destruct (c_ali w !! a) as [l0|] eqn:El; [|done].
          simpl. intros [= <-] Hin. apply elem_of_list_fmap in Hin as (y & -> & Hy). unfold renamed.
          pose proof (k_alias _ HK _ _ _ El Hy) as Hk. case_decide as Hd; [|done]. subst y. left. destruct Hk; congruence.
    - (* the second section of Put *)
      destruct Hp as [-> Hp]. destruct t as [qs|]; cbn [section] in Hs.
      + destruct Hs as (_ & _ & ->). by apply Hsame.
      + destruct Hs as (p & _ & _ & ->). destruct Hp as [Hp|Hp]; [|done].
        assert (Hn : own n = Some i).
        { destruct Ho as [?|Hn]; [done|]. unfold targets in Hp. destruct (k_shared _ HK _ Hn) as [[q Hq]|(l & Hl & _)].
          - by rewrite Hq in Hp.
          - rewrite Hl in Hp. by destruct (c_idx w !! n). }
        apply Hboth.
        * intros m Hm. cbn [c_idx c_ali]. rewrite lookup_insert_ne by congruence. auto.
        * apply HK.
    - (* Drop *)
      destruct Hp as [-> _]. cbn [section] in Hs. destruct Hs as (_ & ->). simpl in Ho. apply Hboth.
      + intros m Hm. cbn [c_idx c_ali]. rewrite lookup_delete_ne by congruence. split; [done|].
        rewrite lookup_omap. destruct (c_ali w !! m) as [l|] eqn:El; [|by left]. simpl. unfold drop_from.
        rewrite without_other.
        2: { intros Hin. destruct (k_alias _ HK _ _ _ El Hin); congruence. }
        destruct l; [by right|by left].
      + intros a l x. cbn [c_ali]. rewrite lookup_omap. destruct (c_ali w !! a) as [l0|] eqn:El; [|done].
        simpl. unfold drop_from. intros Hl Hin. apply (k_alias _ HK a l0 x El).
        assert (Hsub : forall y, y ∈ without n l0 -> y ∈ l0).
        { intros y Hy. unfold without in Hy. by apply elem_of_list_filter in Hy as [_ ?]. }
        destruct (without n l0) as [|z r]; [done|]. injection Hl as <-. by apply Hsub.
    - (* UnAlias of one index *)
      destruct Hp as (-> & _). destruct Ho as [Ha _]. cbn [section] in Hs.
      destruct (c_ali w !! a) as [l|] eqn:El; destruct Hs as (_ & ->); [|by apply Hsame]. apply Hboth.
      + intros n Hn. cbn [c_idx c_ali]. split; [done|]. left. rewrite lookup_insert_ne; [done|]. congruence.
      + intros a' l' x. cbn [c_ali]. rewrite lookup_insert_Some. intros [[<- <-]|[Hne Hl]] Hin; [|by eapply HK].
        unfold without in Hin. apply elem_of_list_filter in Hin as [_ Hin]. by eapply HK.
  Qed.

  (** Others' calls stay on track. *)
  Lemma stays_pends i j c x w w' :
    kept w -> stays i w w' -> j <> i -> obeys own j c -> pends w c x -> pends w' c x.
  Proof.
    intros HK Hst Hne Ho Hp.
    assert (Hu : forall n, may_use own j n -> own n <> Some i) by (intros n [E|E]; congruence).
    destruct x as [c'|n d t|n|a y|a]; simpl in Hp |- *; try done.
    - destruct Hp as [-> Hp]. split; [done|]. destruct Hp as [->|Hp]; [|by right]. simpl in Ho.
      destruct (Hst n (Hu _ Ho)) as [E1 E2]. unfold targets. rewrite E1.
      destruct (c_idx w !! n) as [p|]; [by left|]. destruct E2 as [E2|[E2 E3]].
      + left. rewrite E2. destruct (c_ali w !! n) as [l|] eqn:El; [|done]. f_equal. apply list_fmap_ext.
        intros k x Hx%elem_of_list_lookup_2. symmetry. apply Hst, Hu.
        destruct (k_alias _ HK _ _ _ El Hx) as [E|E]; [|by right]. unfold may_use. rewrite E. exact Ho.
      + right. by rewrite E2.
    - destruct Hp as [-> Hp]. split; [done|]. simpl in Ho. destruct (Hst n) as [-> _]; [congruence|done].
    - destruct Hp as (-> & Hy & Hp). split_and!; [done..|]. destruct Ho as [_ [?|Ho]]; [done|].
      destruct (Hst y (Hu _ Ho)) as [-> _]. done.
  Qed.

  (** ** What a section does, seen by the sequential machine *)
  Lemma explained_pends c a va vb w : explained ckn tk c a va vb -> pends w c (Answered a).
  Proof. intros He. destruct a as [[]|]; try done. by eapply rows_call. Qed.

  Lemma not_both (outs : list (outcome (list SearchResult))) x : Panic ∈ outs -> leave (Gather outs) x -> False.
  Proof. intros Hp (bl & _ & -> & _). by apply elem_of_list_fmap in Hp as (? & ? & _). Qed.

  Lemma eta w : MkC (c_idx w) (c_obj w) (c_ali w) = w.
  Proof. by destruct w. Qed.

  Lemma put_nothing n d w : wfC w -> targets w n = Some [] ->
    explained ckn tk (CPut n d) (Returned OUnit) (view_of w) (view_of w).
  Proof.
    intros Hw Ht. refine (proj2 (explain_put ckn tk n d w (ret_obs OUnit) w (Answered (Returned OUnit)) Hw _ eq_refl)).
    rewrite Ht. cbn [section]. split_and!; [apply not_elem_of_nil|done|]. simpl. by rewrite eta.
  Qed.

  Lemma section_pends c x w b w' x' :
    wfC w -> pends w c x -> section ckn tk x w b w' -> leave b x' -> pends w' c x'.
  Proof.
    intros Hw Hp Hs Hx. destruct x as [c'|n d t|n|a i|a]; [| | | |done].
    - simpl in Hp. subst c'. pose proof (explain_first ckn tk c w b w' x' Hw Hs Hx) as He.
      destruct x' as [c'|n d t|n|a i|a].
      + done.
      + destruct He as (-> & -> & ->). simpl. auto.
      + destruct He as (-> & ? & ->). done.
      + destruct He as (-> & ? & ? & ->). done.
      + by eapply explained_pends.
    - assert (x' = Answered (Returned OUnit)) as ->; [|done].
      destruct t as [qs|]; cbn [section] in Hs.
      + destruct Hs as (_ & -> & _). done.
      + destruct Hs as (p & _ & -> & _). done.
    - destruct Hp as [-> Hp]. by destruct (explain_drop ckn tk n w b w' x' Hw Hp Hs Hx) as [-> _].
    - destruct Hp as (-> & Hi & Hp). destruct (explain_unalias ckn tk a i w b w' x' Hw Hi Hp Hs Hx) as (o & -> & He).
      by eapply explained_pends.
  Qed.

  (** How far the client that takes turns is. *)
  Definition before (x : stage) (c : call) (k : answer -> client) : client :=
    match x with
    | PutAt _ _ (Some []) => k (Returned OUnit)
    | Answered a => k a
    | _ => Ask c k
    end.
  Definition fit (t : cthr) (c : call) (k : answer -> client) (q : client) : Prop :=
    match t with
    | Between x | Inside (Next x) => q = before x c k
    | Inside (Gather outs) =>
        (exists a, leave (Gather outs) (Answered a) /\ q = k a) \/ (Panic ∈ outs /\ q = Ask c k)
    end.

  Lemma fit_exists t c k : exists q, fit t c k q.
  Proof.
    destruct t as [x|[x|outs]]; simpl; [by eexists..|].
    assert (Hd : Panic ∈ outs \/ exists bl, outs = Ok <$> bl).
    { clear. induction outs as [|[sr|] outs IH]; [right; by exists []| |left; by left].
      destruct IH as [IH|[bl ->]]; [left; by right|right; by exists (sr :: bl)]. }
    destruct Hd as [Hp|[bl ->]]; [eexists; by right|]. eexists. left. eexists. split; [|done]. by exists bl, bl.
  Qed.

  Lemma section_turn c x w b w' k q :
    wfC w -> pends w c x -> section ckn tk x w b w' -> fit (Inside b) c k q ->
    (q = before x c k /\ view_of w' = view_of w) \/
    (before x c k = Ask c k /\ exists a, q = k a /\ explained ckn tk c a (view_of w) (view_of w')).
  Proof.
    intros Hw Hp Hs Hq. destruct x as [c'|n d t|n|a i|a]; [| | | |done].
    - simpl in Hp. subst c'. destruct b as [x'|outs].
      + pose proof (explain_first ckn tk c w _ w' x' Hw Hs eq_refl) as He. simpl in Hq.
        destruct x' as [c'|n d t|n|a i|a].
        * done.
        * destruct He as (-> & -> & ->). destruct (targets w n) as [[|op r]|] eqn:Et; [right|by left..].
          split; [done|]. exists (Returned OUnit). split; [done|]. by apply put_nothing.
        * destruct He as (-> & ? & ->). by left.
        * destruct He as (-> & ? & ? & ->). by left.
        * right. split; [done|]. by exists a.
      + destruct Hq as [(a & Hl & ->)|[Hpa ->]].
        * right. split; [done|]. exists a. split; [done|].
          exact (explain_first ckn tk c w _ w' (Answered a) Hw Hs Hl).
        * left. split; [done|]. destruct (leave_or_crash ckn tk _ _ _ _ Hw Hs) as [[x' Hl]|(c' & _ & _ & ->)]; [|done].
          by destruct (not_both outs x').
    - destruct Hp as [-> Hp]. assert (Hdone : t = Some [] \/ (t <> Some [] /\ t = targets w n)).
      { destruct t as [[|op r]|]; [by left|right..]; by destruct Hp. }
      destruct Hdone as [->|[Hne ->]].
      + left. cbn [section] in Hs. destruct Hs as (_ & -> & ->). simpl. split; [done|]. by rewrite eta.
      + right. assert (Hb : before (PutAt n d (targets w n)) (CPut n d) k = Ask (CPut n d) k).
        { destruct (targets w n) as [[|op r]|]; done. }
        rewrite Hb. split; [done|]. exists (Returned OUnit).
        assert (Hx : exists x', leave b x' /\ (fit (Inside b) (CPut n d) k q -> q = before x' (CPut n d) k)).
        { destruct b as [x'|outs]; [by exists x'|]. destruct (targets w n) as [qs|]; cbn [section] in Hs;
            [by destruct Hs as (_ & ? & _)|by destruct Hs as (? & _ & ? & _)]. }
        destruct Hx as (x' & Hl & Hx). destruct (explain_put ckn tk n d w b w' x' Hw Hs Hl) as [-> He].
        split; [|done]. by apply Hx.
    - destruct Hp as [-> Hp]. right. split; [done|].
      assert (Hb : b = ret_obs (OBool true)) by apply Hs. subst b. simpl in Hq. eexists. split; [done|].
      by destruct (explain_drop ckn tk n w _ w' _ Hw Hp Hs eq_refl) as [_ ?].
    - destruct Hp as (-> & Hi & Hp). right. split; [done|].
      assert (Hb : exists o, b = ret_obs o). { cbn [section] in Hs. destruct (c_ali w !! a); destruct Hs as [-> _]; by eexists. }
      destruct Hb as [o ->]. simpl in Hq. exists (Returned o). split; [done|].
      destruct (explain_unalias ckn tk a i w _ w' _ Hw Hi Hp Hs eq_refl) as (o' & E & ?). by simplify_eq.
  Qed.

  (** A Put that kills the process kills it also if it takes its turn now. *)
  Lemma put_crash n d w qs : wfC w -> targets w n = Some qs -> None ∈ qs -> spec ckn tk (CPut n d) (view_of w) OCrash.
  Proof.
    intros Hw Ht Hin. unfold targets in Ht. cbn [spec]. rewrite view_idx.
    destruct (c_idx w !! n) as [p|] eqn:En.
    { simplify_eq. apply elem_of_list_singleton in Hin. done. }
    cbn [mbind option_bind]. change (v_leakA (view_of w)) with false. cbn iota.
    rewrite decide_False by (intros E; by apply E). change (v_ali (view_of w)) with (c_ali w).
    destruct (c_ali w !! n) as [l|]; [|done]. simplify_eq. rewrite decide_True; [done|].
    apply elem_of_list_fmap in Hin as (y & Hy & Hin). apply Exists_exists. exists y. split; [done|]. by apply view_idx_None.
  Qed.

  (** ** The clients and the machine *)
  Context (ps : list client) (v0 : view).

  Definition fit_at (f : nat -> nat) (m : list cthr) (i : nat) (x : cstate) (q : client) : Prop :=
    match x with
    | Idle p => q = p
    | Busy c _ k => exists a, m !! f i = Some a /\ fit a c k q
    end.
  Definition fits (l : list cstate) (f : nat -> nat) (m : list cthr) (qs : list client) : Prop :=
    length qs = length l /\ forall i x q, l !! i = Some x -> qs !! i = Some q -> fit_at f m i x q.

  Record joint (l : list cstate) (f : nat -> nat) (m : list cthr) (w : cview) : Prop := {
    j_wf : wfC w;
    j_kept : kept w;
    j_busy : forall i c t k, l !! i = Some (Busy c t k) ->
      obeys own i c /\ exists a, m !! f i = Some a /\ forall x, ends a x -> pends w c x;
    j_inj : forall i j c t k c' t' k', l !! i = Some (Busy c t k) -> l !! j = Some (Busy c' t' k') -> f i = f j -> i = j;
    j_run : forall qs, fits l f m qs -> rtc (turn ckn tk) (Turn ps v0) (Turn qs (view_of w));
    j_over : forall i c t k outs, l !! i = Some (Busy c t k) -> m !! f i = Some (Inside (Gather outs)) -> Panic ∈ outs ->
      rtc (turn ckn tk) (Turn ps v0) Over }.

  Lemma choose {A B} (P : nat -> A -> B -> Prop) (l : list A) :
    (forall i x, l !! i = Some x -> exists y, P i x y) ->
    exists l', length l' = length l /\ forall i x y, l !! i = Some x -> l' !! i = Some y -> P i x y.
  Proof.
    induction l as [|x l IH] using rev_ind; intros H; [by exists []|].
    destruct IH as (l' & Hl & H'). { intros i y Hi. apply H. by apply lookup_app_l_Some. }
    destruct (H (length l) x) as [y Hy]; [by apply list_lookup_middle|].
    exists (l' ++ [y]). split; [rewrite !app_length; simpl; lia|].
    intros i a b Ha Hb. apply lookup_app_Some in Ha as [Ha|[Ha1 Ha]].
    - apply (H' i); [done|]. rewrite lookup_app_l in Hb; [done|]. rewrite Hl. by eapply lookup_lt_Some.
    - apply list_lookup_singleton_Some in Ha as [Ha <-]. assert (i = length l) as -> by lia.
      rewrite <- Hl in Hb. rewrite list_lookup_middle in Hb by done. by simplify_eq.
  Qed.

  Lemma joint_fits l f m w : joint l f m w -> exists qs, fits l f m qs.
  Proof.
    intros HJ. apply (choose (fit_at f m)). intros i x Hi. destruct x as [p|c t k]; [by exists p|].
    destruct (j_busy _ _ _ _ HJ _ _ _ _ Hi) as (_ & a & Ha & _). destruct (fit_exists a c k) as [q Hq].
    exists q. by exists a.
  Qed.

  Lemma joint_mine l f m w m' w' i c t k :
    joint l f m w -> l !! i = Some (Busy c t k) -> mine ckn tk (f i) (m, w) (m', w') -> joint l f m' w'.
  Proof.
    intros HJ Hi Hm. pose proof HJ as [Hw HK Hb Hinj Hrun Hover].
    destruct (Hb _ _ _ _ Hi) as (Ho & a & Ha & Hp). assert (Hlt := lookup_lt_Some _ _ _ Ha).
    inversion Hm as [? ? x b ? Hx Hs|? ? b x Hx Hl]; simplify_eq.
    - (* a section *)
      assert (Hpx : pends w c x) by (by apply Hp).
      destruct (section_stays i c x w b w' HK Ho Hpx Hs) as [Hst HK'].
      assert (Hne : forall j c1 t1 k1, l !! j = Some (Busy c1 t1 k1) -> j <> i -> f j <> f i).
      { intros j c1 t1 k1 Hj Hne E. apply Hne. by eapply Hinj. }
      assert (Hold : forall j x1 q, l !! j = Some x1 -> j <> i -> fit_at f (<[f i := Inside b]> m) j x1 q -> fit_at f m j x1 q).
      { intros j x1 q Hj Hji Hq. destruct x1 as [p|c1 t1 k1]; [done|]. destruct Hq as (a & Hma & Hq). exists a.
        rewrite list_lookup_insert_ne in Hma by (intros E; by eapply Hne). done. }
      split.
      + by eapply section_wf.
      + done.
      + intros j c1 t1 k1 Hj. destruct (Hb _ _ _ _ Hj) as (Ho1 & a1 & Ha1 & Hp1). split; [done|].
        destruct (decide (j = i)) as [->|Hji].
        * simplify_eq. exists (Inside b). split; [by apply list_lookup_insert|]. intros x' Hx'. by eapply section_pends.
        * exists a1. rewrite list_lookup_insert_ne by (intros E; by eapply Hne). split; [done|].
          intros x' Hx'. exact (stays_pends i j c1 x' w w' HK Hst Hji Ho1 (Hp1 _ Hx')).
      + done.
      + intros qs [Hlen Hq].
        destruct (lookup_lt_is_Some_2 qs i) as [q Hqi]; [rewrite Hlen; by eapply lookup_lt_Some|].
        assert (Hr0 : rtc (turn ckn tk) (Turn ps v0) (Turn (<[i := before x c k]> qs) (view_of w))).
        { apply Hrun. split; [by rewrite insert_length|]. intros j x1 q1 Hj Hq1.
          apply list_lookup_insert_Some in Hq1 as [(<- & <- & _)|[Hji Hq1]].
          - simplify_eq. by exists (Between x).
          - apply Hold; [done|congruence|]. by apply Hq. }
        destruct (Hq _ _ _ Hi Hqi) as (a' & Ha' & Hfit). rewrite list_lookup_insert in Ha' by done. simplify_eq.
        destruct (section_turn c x w b w' k q Hw Hpx Hs Hfit) as [[-> ->]|(Eb & a & -> & He)].
        * by rewrite list_insert_id in Hr0.
        * eapply rtc_r; [exact Hr0|]. rewrite Eb.
          assert (E : qs = <[i := k a]> (<[i := Ask c k]> qs)) by (by rewrite list_insert_insert, list_insert_id).
          rewrite E at 2. eapply (T_call _ _ _ _ i c k); [|exact He]. apply list_lookup_insert. by eapply lookup_lt_Some.
      + intros j c1 t1 k1 outs Hj Hma Hpa. destruct (decide (j = i)) as [->|Hji].
        * simplify_eq. rewrite list_lookup_insert in Hma by done. simplify_eq.
          destruct (leave_or_crash ckn tk _ _ _ _ Hw Hs) as [[x' Hx']|(c' & -> & Hcr & _)]; [by destruct (not_both outs x')|].
          simpl in Hpx. subst c'. destruct (joint_fits _ _ _ _ HJ) as [qs Hqs]. pose proof Hqs as [Hlen Hq].
          destruct (lookup_lt_is_Some_2 qs i) as [q Hqi]; [rewrite Hlen; by eapply lookup_lt_Some|].
          destruct (Hq _ _ _ Hi Hqi) as (a' & Ha' & Hfit). simplify_eq. simpl in Hqi.
          eapply rtc_r; [exact (Hrun _ Hqs)|]. simpl in Hfit. subst q. exact (T_die _ _ _ _ i c k Hqi Hcr).
        * rewrite list_lookup_insert_ne in Hma by (intros E; by eapply Hne). by eapply Hover.
    - (* the end of a section *)
      assert (Hold : forall j x1 q, l !! j = Some x1 -> fit_at f (<[f i := Between x]> m) j x1 q -> fit_at f m j x1 q).
      { intros j x1 q Hj Hq. destruct x1 as [p|c1 t1 k1]; [done|]. destruct Hq as (a & Hma & Hq).
        destruct (decide (f j = f i)) as [E|Hne].
        - rewrite E, list_lookup_insert in Hma by done. simplify_eq. exists (Inside b). rewrite E. split; [done|].
          destruct b as [x'|outs]; simpl in Hl; [by subst x'|]. left. destruct Hl as (bl & bl' & E1 & E2 & ->).
          eexists. split; [|exact Hq]. by exists bl, bl'.
        - rewrite list_lookup_insert_ne in Hma by done. by exists a. }
      split; [done|done| |done| |].
      + intros j c1 t1 k1 Hj. destruct (Hb _ _ _ _ Hj) as (Ho1 & a1 & Ha1 & Hp1). split; [done|].
        destruct (decide (f j = f i)) as [E|Hne].
        * rewrite E in Ha1 |- *. simplify_eq. exists (Between x). split; [by apply list_lookup_insert|].
          intros x' ->. by apply Hp1.
        * exists a1. by rewrite list_lookup_insert_ne.
      + intros qs [Hlen Hq]. apply Hrun. split; [done|]. intros j x1 q1 Hj Hq1. apply Hold; [done|]. by apply Hq.
      + intros j c1 t1 k1 outs Hj Hma Hpa. destruct (decide (f j = f i)) as [E|Hne].
        * by rewrite E, list_lookup_insert in Hma.
        * rewrite list_lookup_insert_ne in Hma by done. by eapply Hover.
  Qed.

  Lemma joint_start w m :
    wfC w -> kept w -> v0 = view_of w -> joint (Idle <$> ps) (fun _ => 0) m w.
  Proof.
    intros Hw HK Hv.
    assert (Hb : forall i c t k, (Idle <$> ps) !! i = Some (Busy c t k) -> False).
    { intros i c t k Hi. rewrite list_lookup_fmap in Hi. by destruct (ps !! i). }
    split; [done|done| | | |].
    - intros i c t k Hi. by destruct (Hb _ _ _ _ Hi).
    - intros i j c t k c' t' k' Hi. by destruct (Hb _ _ _ _ Hi).
    - intros qs [Hlen Hq]. assert (qs = ps) as ->; [|rewrite Hv; apply rtc_refl].
      rewrite fmap_length in Hlen. apply list_eq_same_length with (length ps); [done..|].
      intros i x y _ Hx Hy. specialize (Hq i (Idle y) x). apply Hq; [|done]. by rewrite list_lookup_fmap, Hy.
    - intros i c t k outs Hi. by destruct (Hb _ _ _ _ Hi).
  Qed.

  Lemma joint_ask l f m w i c t k n :
    joint l f m w -> l !! i = Some (Idle (Ask c k)) -> obeys own i c -> m !! n = Some (Between (Todo c)) ->
    (forall j c' t' k', l !! j = Some (Busy c' t' k') -> f j <> n) ->
    joint (<[i := Busy c t k]> l) (fun j => if decide (j = i) then n else f j) m w.
  Proof.
    intros [Hw HK Hb Hinj Hrun Hover] Hi Ho Hm Hnew. assert (Hlt := lookup_lt_Some _ _ _ Hi). split; [done|done| | | |].
    - intros j c1 t1 k1 Hj. apply list_lookup_insert_Some in Hj as [(<- & E & _)|[Hne Hj]].
      + simplify_eq. rewrite decide_True by done. split; [done|]. exists (Between (Todo c1)). split; [done|]. by intros x ->.
      + rewrite decide_False by congruence. by eapply Hb.
    - intros j j' c1 t1 k1 c2 t2 k2 Hj Hj'.
      apply list_lookup_insert_Some in Hj as [(<- & E & _)|[Hne Hj]], Hj' as [(<- & E' & _)|[Hne' Hj']].
      + done.
      + rewrite decide_True, decide_False by congruence. intros E1. by destruct (Hnew _ _ _ _ Hj').
      + rewrite decide_False, decide_True by congruence. intros E1. by destruct (Hnew _ _ _ _ Hj).
      + rewrite !decide_False by congruence. by eapply Hinj.
    - intros qs [Hlen Hq]. apply Hrun. split; [by rewrite insert_length in Hlen|]. intros j x q Hj Hqj.
      destruct (decide (j = i)) as [->|Hne].
      + simplify_eq. destruct (Hq i (Busy c t k) q) as (a & Ha & Hf); [by apply list_lookup_insert|done|].
        rewrite decide_True in Ha by done. rewrite Hm in Ha. by simplify_eq.
      + specialize (Hq j x q). rewrite list_lookup_insert_ne in Hq by congruence. specialize (Hq Hj Hqj).
        destruct x as [p|c1 t1 k1]; [done|]. unfold fit_at in Hq. by rewrite decide_False in Hq.
    - intros j c1 t1 k1 outs Hj. apply list_lookup_insert_Some in Hj as [(<- & E & _)|[Hne Hj]].
      + rewrite decide_True by done. congruence.
      + rewrite decide_False by congruence. by eapply Hover.
  Qed.

  Lemma joint_move l f m w i c t k t' :
    joint l f m w -> l !! i = Some (Busy c t k) -> joint (<[i := Busy c t' k]> l) f m w.
  Proof.
    intros [Hw HK Hb Hinj Hrun Hover] Hi. assert (Hli := lookup_lt_Some _ _ _ Hi).
    assert (Hold : forall j c1 t1 k1, <[i := Busy c t' k]> l !! j = Some (Busy c1 t1 k1) -> exists t2, l !! j = Some (Busy c1 t2 k1)).
    { intros j c1 t1 k1 Hj. apply list_lookup_insert_Some in Hj as [(<- & E & _)|[Hne Hj]]; [simplify_eq|]; eauto. }
    split; [done|done| | | |].
    - intros j c1 t1 k1 [t2 Hj]%Hold. by eapply Hb.
    - intros j j' c1 t1 k1 c2 t2 k2 [? Hj]%Hold [? Hj']%Hold. by eapply Hinj.
    - intros qs [Hlen Hq]. apply Hrun. split; [by rewrite insert_length in Hlen|]. intros j x q Hj Hqj.
      destruct (decide (j = i)) as [->|Hne].
      + simplify_eq. apply (Hq i (Busy c t' k) q); [by apply list_lookup_insert|done].
      + apply (Hq j x q); [by rewrite list_lookup_insert_ne by congruence|done].
    - intros j c1 t1 k1 outs [t2 Hj]%Hold. by eapply Hover.
  Qed.

  Lemma joint_back l f m w i c t k a :
    joint l f m w -> l !! i = Some (Busy c t k) -> m !! f i = Some (Between (Answered a)) ->
    joint (<[i := Idle (k a)]> l) f m w.
  Proof.
    intros [Hw HK Hb Hinj Hrun Hover] Hi Hma. assert (Hli := lookup_lt_Some _ _ _ Hi).
    assert (Hold : forall j c1 t1 k1, <[i := Idle (k a)]> l !! j = Some (Busy c1 t1 k1) -> l !! j = Some (Busy c1 t1 k1) /\ j <> i).
    { intros j c1 t1 k1 Hj. apply list_lookup_insert_Some in Hj as [(<- & E & _)|[Hne Hj]]; done. }
    split; [done|done| | | |].
    - intros j c1 t1 k1 [Hj _]%Hold. by eapply Hb.
    - intros j j' c1 t1 k1 c2 t2 k2 [Hj _]%Hold [Hj' _]%Hold. by eapply Hinj.
    - intros qs [Hlen Hq]. apply Hrun. split; [by rewrite insert_length in Hlen|]. intros j x q Hj Hqj.
      destruct (decide (j = i)) as [->|Hne].
      + simplify_eq. pose proof (Hq i (Idle (k a)) q (list_lookup_insert _ _ _ Hli) Hqj) as E. simpl in E. subst q.
        by exists (Between (Answered a)).
      + apply (Hq j x q); [by rewrite list_lookup_insert_ne by congruence|done].
    - intros j c1 t1 k1 outs [Hj _]%Hold. by eapply Hover.
  Qed.

  (** Where the clients that take turns are. *)
  Lemma joint_turns l f m w :
    joint l f m w -> exists ps', rtc (turn ckn tk) (Turn ps v0) (Turn ps' (view_of w)) /\ Forall2 at_turn l ps'.
  Proof.
    intros HJ. destruct (joint_fits _ _ _ _ HJ) as [qs Hqs]. exists qs. split; [by apply (j_run _ _ _ _ HJ)|].
    destruct Hqs as [Hl Hq]. apply Forall2_same_length_lookup_2; [done|]. intros i x q Hx Hqi.
    specialize (Hq _ _ _ Hx Hqi). destruct x as [p|c t k]; [done|]. destruct Hq as (a & _ & Hf). simpl.
    destruct a as [x|[x|outs]]; simpl in Hf.
    - destruct x as [|? ? [[|]|]| | |]; simpl in Hf; eauto.
    - destruct x as [|? ? [[|]|]| | |]; simpl in Hf; eauto.
    - destruct Hf as [(a & _ & ->)|[_ ->]]; eauto.
  Qed.

  Lemma joint_die l f m w i c t k a :
    joint l f m w -> l !! i = Some (Busy c t k) -> m !! f i = Some a -> dies w a ->
    rtc (turn ckn tk) (Turn ps v0) Over.
  Proof.
    intros HJ Hi Ha Hd. pose proof HJ as [Hw HK Hb Hinj Hrun Hover].
    destruct a as [x|[x|outs]]; [|done|by eapply Hover].
    destruct x as [|n d [qs|]| | |]; try done. simpl in Hd.
    destruct (Hb _ _ _ _ Hi) as (_ & a & Ha' & Hp). rewrite Ha in Ha'. injection Ha' as <-.
    destruct (Hp _ eq_refl) as [-> [Et|Et]]; [|simplify_eq; by apply elem_of_nil in Hd].
    destruct (joint_fits _ _ _ _ HJ) as [qs' Hqs]. pose proof Hqs as [Hlen Hq].
    destruct (lookup_lt_is_Some_2 qs' i) as [q Hqi]; [rewrite Hlen; by eapply lookup_lt_Some|].
    destruct (Hq _ _ _ Hi Hqi) as (a' & Ha' & Hfit). rewrite Ha in Ha'. injection Ha' as <-. simpl in Hfit.
    destruct qs as [|op r]; [by apply elem_of_nil in Hd|]. subst q.
    eapply rtc_r; [exact (Hrun _ Hqs)|]. eapply (T_die _ _ _ _ i _ k Hqi). by eapply put_crash.
  Qed.
End own.
