(** * A client that keeps to names nobody else uses. *)
From Coq Require Import Lia.
From stdpp Require Import list gmap.
From Verif Require Import Entities Search SpecSearch Repo Sem SpecRepo ProofRepo SpecConc ProofConc SpecLin
  ProofMachine ProofLin Properties_Lin SpecClient SpecOwn ProofLink ProofOwn.
Open Scope nat_scope.

(** ** The sequential machine *)
Section spec.
  Context (ckn : bool) (tk : Tokenizer) (N : string -> Prop).

  Definition alike (o o2 : out) : Prop :=
    match o, o2 with
    | ODone r w1, ODone r' w2 => r' = r /\ same_on N w1 w2
    | OPanic w1, OPanic w2 => same_on N w1 w2
    | OCrash, OCrash | OBlock, OBlock => True
    | _, _ => False
    end.

  (** What a call within [N] does depends on [N] only. *)
  Lemma spec_frame c v1 v2 o :
    within N c -> fenced N v1 -> unblocked v1 -> unblocked v2 -> same_on N v1 v2 -> spec ckn tk c v1 o ->
    exists o2, spec ckn tk c v2 o2 /\ alike o o2.
  Proof.
    intros Hc [Hal Hfull] [U1 U2] [V1 V2] Hsame Hs.
    assert (HI : forall n, N n -> v_idx v2 !! n = v_idx v1 !! n) by (intros n Hn; by apply Hsame).
    assert (HA : forall n, N n -> v_ali v2 !! n = v_ali v1 !! n) by (intros n Hn; by apply Hsame).
    assert (Hsn : forall l q e, Forall N l -> search_name ckn tk (v_idx v2) q e <$> l = search_name ckn tk (v_idx v1) q e <$> l).
    { intros l q e Hl. apply list_fmap_ext. intros i x Hx. unfold search_name. rewrite HI; [done|]. by eapply Forall_lookup_1. }
    assert (Hmem : forall a l, N a -> v_ali v1 !! a = Some l -> Forall N l).
    { intros a l Ha El. apply Forall_forall. intros x Hx. by apply (Hal _ _ _ El Hx). }
    assert (Hput : forall d l, same_on N (MkView (put_each d l (v_idx v1)) (v_ali v1) (v_leakI v1) (v_leakA v1))
      (MkView (put_each d l (v_idx v2)) (v_ali v2) (v_leakI v2) (v_leakA v2))).
    { intros d l n Hn. cbn [v_idx v_ali]. rewrite !put_each_lookup. rewrite HI, HA by done. done. }
    destruct c; cbn [within] in Hc; try done; cbn [spec] in Hs |- *.
    - (* Has *) subst o. eexists. split; [done|]. by rewrite HI.
    - (* HasAlias *) rewrite U2 in Hs. rewrite V2. subst o. eexists. split; [done|]. by rewrite HA.
    - (* Alias *)
      destruct Hc as [Ha Hi]. rewrite HI, HA, V2 by done. rewrite U2 in Hs. case_decide; [subst o; by eexists|].
      case_decide; subst o; (eexists; split; [done|]); [done|]. split; [done|]. intros n Hn. cbn [v_idx v_ali].
      split; [by apply HI|]. destruct (decide (n = alias)) as [->|Hne]; [by rewrite !lookup_insert|].
      rewrite !lookup_insert_ne by done. by apply HA.
    - (* UnAlias *)
      destruct Hc as [Ha ->]. destruct (decide _) as [_|]; [|done]. rewrite U2 in Hs. rewrite V2.
      subst o. eexists. split; [done|]. rewrite HA by done. split; [done|]. intros n Hn. cbn [v_idx v_ali].
      split; [by apply HI|]. destruct (decide (n = alias)) as [->|Hne]; [by rewrite !lookup_delete|].
      rewrite !lookup_delete_ne by done. by apply HA.
    - (* Put *)
      rewrite HI, HA, V2 by done. rewrite U2 in Hs.
      destruct (v_idx v1 !! index) as [reqs|] eqn:Ei; (destruct (decide (v_leakI v2 <> 0)) as [|_]; [lia|]); (destruct (decide (v_leakI v1 <> 0)) as [|_]; [lia|]);
        [subst o; eexists; split; [done|by split; [|apply (Hput _ [index])]]|].
      destruct (v_ali v1 !! index) as [l|] eqn:El.
      + pose proof (Hmem _ _ Hc El) as Hl.
        assert (Hex : Exists (fun x => v_idx v2 !! x = None) l <-> Exists (fun x => v_idx v1 !! x = None) l).
        { rewrite !Exists_exists. rewrite Forall_forall in Hl.
          split; intros (x & Hx & E); exists x; (split; [done|]); by rewrite ?HI in * by auto. }
        destruct (decide (Exists (fun x => v_idx v1 !! x = None) l)) as [Hd|Hd], (decide (Exists (fun x => v_idx v2 !! x = None) l)) as [Hd2|Hd2];
          try (exfalso; tauto); subst o; (eexists; split; [done|]); [done|]; (split; [done|apply Hput]).
      + subst o. eexists. split; [done|]. split; [done|]. intros n Hn. cbn [v_idx v_ali]. rewrite HA by done. split; [|done].
        destruct (decide (n = index)) as [->|Hne]; [by rewrite !lookup_insert|]. rewrite !lookup_insert_ne by done. by apply HI.
    - (* Search *)
      rewrite HI, HA, V2 by done. rewrite U2 in Hs.
      destruct (v_idx v1 !! index) as [reqs|] eqn:Ei.
      + destruct (search_docs ckn tk reqs terms engine); subst o; eexists; (split; [done|]); done.
      + destruct (v_ali v1 !! index) as [l|] eqn:El; [|subst o; eexists; by split].
        pose proof (Hsn l terms engine (Hmem _ _ Hc El)) as E.
        assert (Hmany : search_many ckn tk (v_idx v1) terms engine l o v1 ->
          exists o2, search_many ckn tk (v_idx v2) terms engine l o2 v2 /\ alike o o2).
        { unfold search_many. rewrite E. intros [(bl & bl' & E1 & E2 & ->)|[Hp ->]].
          - eexists. split; [left; by exists bl, bl'|]. by split.
          - exists OCrash. split; [by right|done]. }
        destruct l as [|x [|y l]]; [by apply Hmany| |by apply Hmany].
        cbn [fmap list_fmap] in E. injection E as E. rewrite E.
        destruct (search_name ckn tk (v_idx v1) terms engine x); subst o; eexists; (split; [done|]); done.
    - (* Rename *)
      destruct Hc as [Ho Hn]. rewrite HI by done. (destruct (decide (v_leakI v2 <> 0)) as [|_]; [lia|]); (destruct (decide (v_leakI v1 <> 0)) as [|_]; [lia|]).
      destruct (v_idx v1 !! old) as [reqs|] eqn:Eo; [|subst o; by eexists].
      subst o. eexists. split; [done|]. split; [done|]. intros n Hn'. cbn [v_idx v_ali]. rewrite !lookup_fmap, HA by done.
      split; [|done]. destruct (decide (n = old)) as [->|Hne]; [by rewrite !lookup_delete|]. rewrite !lookup_delete_ne by done.
      destruct (decide (n = new)) as [->|Hne2]; [by rewrite !lookup_insert|]. rewrite !lookup_insert_ne by done. by apply HI.
    - (* Drop *)
      rewrite HI, V2 by done. rewrite U2 in Hs. case_decide; [subst o; by eexists|].
      (destruct (decide (v_leakI v2 <> 0)) as [|_]; [lia|]); (destruct (decide (v_leakI v1 <> 0)) as [|_]; [lia|]). subst o. eexists. split; [done|]. split; [done|].
      intros n Hn. cbn [v_idx v_ali]. rewrite !lookup_omap, HA by done. split; [|done].
      destruct (decide (n = index)) as [->|Hne]; [by rewrite !lookup_delete|]. rewrite !lookup_delete_ne by done. by apply HI.
  Qed.

  Lemma explained_frame c a v1 v1' v2 :
    within N c -> fenced N v1 -> unblocked v1 -> unblocked v2 -> same_on N v1 v2 -> explained ckn tk c a v1 v1' ->
    exists v2', explained ckn tk c a v2 v2' /\ same_on N v1' v2' /\ unblocked v2'.
  Proof.
    intros Hc Hf Hu1 Hu2 Hsame He.
    destruct a as [o|]; destruct He as (w & Hs & ->);
      destruct (spec_frame _ _ _ _ Hc Hf Hu1 Hu2 Hsame Hs) as ([] & Hs2 & Hal); try done; simpl in Hal.
    - destruct Hal as [-> Hal]. exists (forget v). split_and!; [by exists v|done|done].
    - exists (forget v). split_and!; [by exists v|done|done].
  Qed.
End spec.

(** ** The machine with atomic sections *)
Section machine.
  Context (ckn : bool) (tk : Tokenizer) (N : string -> Prop).

  Record fencedC (w : cview) : Prop := {
    fc_alias : forall a l x, c_ali w !! a = Some l -> x ∈ l -> N x <-> N a;
    fc_full : forall a, N a -> c_ali w !! a <> Some [] }.

  Lemma fencedC_view w : fencedC w <-> fenced N (view_of w).
  Proof. split; intros [H1 H2]; by split. Qed.

  (** An object no name in [N] stands for, nor will. *)
  Definition foreign (w : cview) (p : nat) : Prop :=
    is_Some (c_obj w !! p) /\ forall n, N n -> c_idx w !! n <> Some p.

  (** What is known about a running call of the others. *)
  Definition pendsO (w : cview) (c : call) (x : stage) : Prop :=
    match x with
    | Todo c' => c' = c
    | PutAt n d t => c = CPut n d /\ forall ps p, t = Some ps -> Some p ∈ ps -> foreign w p
    | UnAliasAt a i => c = CUnAlias a i
    | DropAt n => c = CDrop n
    | Answered _ => True
    end.

  (** What the others leave alone. *)
  Definition untouched (w w' : cview) : Prop :=
    (forall p, is_Some (c_obj w !! p) -> is_Some (c_obj w' !! p)) /\
    forall n, N n -> c_idx w' !! n = c_idx w !! n /\ c_ali w' !! n = c_ali w !! n /\
      forall p, c_idx w !! n = Some p -> c_obj w' !! p = c_obj w !! p.

  Lemma untouched_same w w' : untouched w w' -> same_on N (view_of w) (view_of w').
  Proof.
    intros [_ H] n Hn. destruct (H n Hn) as (E1 & E2 & E3). split; [|done]. rewrite !view_idx, E1.
    destruct (c_idx w !! n) as [p|]; [|done]. simpl. by rewrite E3.
  Qed.

  Lemma untouched_foreign w w' p : untouched w w' -> foreign w p -> foreign w' p.
  Proof. intros [H1 H2] [F1 F2]. split; [by apply H1|]. intros n Hn. destruct (H2 n Hn) as [-> _]. by apply F2. Qed.

  Lemma other_section c x w b w' :
    wfC w -> fencedC w -> spares N c -> pendsO w c x -> section ckn tk x w b w' ->
    untouched w w' /\ fencedC w' /\ forall x', leave b x' -> pendsO w' c x'.
  Proof.
    intros Hw HF Hc Hp Hs. pose proof HF as [Hal Hfull].
    assert (Hsame : w' = w -> untouched w w' /\ fencedC w') by (intros ->; split; [by split|done]).
    assert (Hlook : forall n, ~ N n -> forall ps p, targets w n = Some ps -> Some p ∈ ps -> foreign w p).
    { assert (Hx : forall n p, ~ N n -> c_idx w !! n = Some p -> foreign w p).
      { intros n p Hn Hp'. split; [by eapply wf_obj|]. intros n' Hn' E. apply Hn.
        by rewrite <- (wf_inj _ Hw _ _ _ E Hp'). }
      intros n Hn ps p Ht Hin. unfold targets in Ht. destruct (c_idx w !! n) as [q|] eqn:En.
      - simplify_eq. apply elem_of_list_singleton in Hin. simplify_eq. by eapply Hx.
      - destruct (c_ali w !! n) as [l|] eqn:El; [|done]. simplify_eq. apply elem_of_list_fmap in Hin as (y & Ey & Hy).
        eapply Hx; [|symmetry; exact Ey]. intros HN. apply Hn. by apply (Hal _ _ _ El Hy). }
    destruct x as [c'|n d t|n|a y|a]; [| | | |done].
    - simpl in Hp. subst c'.
      assert (Hnext : forall x', leave b x' -> pendsO w' c x').
      { intros x' Hx'. pose proof (explain_first ckn tk c w b w' x' Hw Hs Hx') as He.
        destruct x' as [c'|n d t|n|a y|a]; [done|..|done].
        - destruct He as (-> & -> & ->). split; [done|]. intros ps p. by apply Hlook.
        - by destruct He as (-> & _ & _).
        - by destruct He as (-> & _ & _). }
      destruct c; cbn [section] in Hs; cbn [spares] in Hc; repeat case_decide;
        try (destruct Hs as (? & _ & _ & ->); by destruct (Hsame eq_refl)); try (destruct Hs as (_ & ->); by destruct (Hsame eq_refl));
        try (destruct Hs as (-> & _); by destruct (Hsame eq_refl)).
      + (* Alias *)
        destruct Hs as (_ & ->). destruct Hc as [Ha Hx]. split_and!; [split; [done|]| |done].
        * intros n Hn. cbn [c_idx c_ali c_obj]. split_and!; [done| |done]. rewrite lookup_insert_ne; [done|]. by intros ->.
        * split; cbn [c_ali].
          -- intros a l x. rewrite lookup_insert_Some. intros [[<- <-]|[Hne Hl]] Hin; [|by eapply Hal].
             apply elem_of_app in Hin as [Hin| ->%elem_of_list_singleton]; [|tauto].
             destruct (c_ali w !! alias) as [l|] eqn:El; [|by apply elem_of_nil in Hin]. by eapply Hal.
          -- intros a Ha'. rewrite lookup_insert_ne; [by apply Hfull|]. by intros ->.
      + (* UnAlias of everything *)
        destruct Hs as (_ & ->). split_and!; [split; [done|]| |done].
        * intros n Hn. cbn [c_idx c_ali c_obj]. split_and!; [done| |done]. rewrite lookup_delete_ne; [done|]. by intros ->.
        * split; cbn [c_ali].
          -- intros a l x. rewrite lookup_delete_Some. intros [Hne Hl]. by eapply Hal.
          -- intros a Ha'. rewrite lookup_delete_ne; [by apply Hfull|]. by intros ->.
      + (* Rename *)
        destruct Hc as [Ho Hn]. destruct (c_idx w !! old) as [p|] eqn:E; destruct Hs as (_ & ->); [|by destruct (Hsame eq_refl)].
        assert (Hmap : forall a l, N a -> c_ali w !! a = Some l -> map (renamed old new) l = l).
        { intros a l Ha El. rewrite <- (list_fmap_id l) at 2. apply list_fmap_ext. intros j x Hx%elem_of_list_lookup_2.
          unfold renamed. rewrite decide_False; [done|]. intros ->. apply Ho. by apply (Hal _ _ _ El Hx). }
        split_and!; [split; [done|]| |done].
        * intros n Hn'. cbn [c_idx c_ali c_obj]. split_and!; [| |done].
          -- rewrite lookup_delete_ne, lookup_insert_ne by (by intros ->). done.
          -- rewrite lookup_fmap. destruct (c_ali w !! n) as [l|] eqn:El; [|done]. simpl. f_equal. by eapply Hmap.
        * split; cbn [c_ali].
          -- intros a l x. rewrite lookup_fmap. destruct (c_ali w !! a) as [l0|] eqn:El; [|done].
             simpl. intros [= <-] Hin. apply elem_of_list_fmap in Hin as (y & -> & Hy). unfold renamed.
             pose proof (Hal _ _ _ El Hy) as Hk. case_decide as Hd; [|done]. subst y. tauto.
          -- intros a Ha. rewrite lookup_fmap. destruct (c_ali w !! a) as [l0|] eqn:El; [|done]. simpl.
             rewrite (Hmap a) by done. rewrite <- El. by apply Hfull.
    - (* the second section of Put *)
      destruct Hp as [-> Hp]. simpl in Hc.
      assert (Hnext : forall x', leave b x' -> pendsO w' (CPut n d) x').
      { intros x' Hx'. destruct t as [qs|]; cbn [section] in Hs.
        - destruct Hs as (_ & -> & _). simpl in Hx'. by subst x'.
        - destruct Hs as (q & _ & -> & _). simpl in Hx'. by subst x'. }
      destruct t as [qs|]; cbn [section] in Hs.
      + destruct Hs as (_ & _ & ->). split_and!; [split| |done].
        * intros p Hp'. cbn [c_obj]. by apply put_objs_is_Some.
        * intros m Hm. cbn [c_idx c_ali c_obj]. split_and!; [done..|]. intros p Hp'. rewrite put_objs_lookup.
          assert (E : filter (fun op => op = Some p) qs = []).
          { apply elem_of_nil_inv. intros op [-> Hin]%elem_of_list_filter. destruct (Hp _ _ eq_refl Hin) as [_ Hf]. by apply (Hf m). }
          rewrite E. simpl. destruct (c_obj w !! p) as [[? ?]|]; [|done]. simpl. by rewrite app_nil_r.
        * done.
      + destruct Hs as (p & Hp' & _ & ->). split_and!; [split| |done].
        * intros q Hq. cbn [c_obj]. apply lookup_insert_is_Some'. by right.
        * intros m Hm. cbn [c_idx c_ali c_obj]. assert (n <> m) by (by intros ->). rewrite lookup_insert_ne by done. split_and!; [done..|].
          intros q Hq. rewrite lookup_insert_ne; [done|]. intros ->. destruct (wf_obj _ Hw _ _ Hq) as [? ?]. congruence.
        * done.
    - (* Drop *)
      simpl in Hp. subst c. cbn [section] in Hs. destruct Hs as (-> & ->). simpl in Hc. split_and!; [split; [done|]| |].
      + intros m Hm. cbn [c_idx c_ali c_obj]. rewrite lookup_delete_ne by (by intros ->). split_and!; [done| |done].
        rewrite lookup_omap. destruct (c_ali w !! m) as [l|] eqn:El; [|done]. simpl. unfold drop_from.
        rewrite without_other.
        2: { intros Hin. apply Hc. by apply (Hal _ _ _ El Hin). }
        destruct l; [|done]. by destruct (Hfull m).
      + assert (Hlk : forall a l, omap (drop_from n) (c_ali w) !! a = Some l -> l <> [] /\ exists l0, c_ali w !! a = Some l0 /\ l = without n l0).
        { intros a l. rewrite lookup_omap. destruct (c_ali w !! a) as [l0|] eqn:El; [|done]. simpl. unfold drop_from.
          intros Hl. destruct (without n l0) eqn:E0; simplify_eq. split; [done|]. exists l0. done. }
        split; cbn [c_ali].
        * intros a l x Hl Hin. destruct (Hlk _ _ Hl) as (_ & l0 & El & ->). unfold without in Hin.
          apply elem_of_list_filter in Hin as [_ Hin]. by eapply Hal.
        * intros a Ha Hl. by destruct (Hlk _ _ Hl) as [? _].
      + intros x' Hx'. simpl in Hx'. by subst x'.
    - (* UnAlias of one index *)
      simpl in Hp. subst c. simpl in Hc. cbn [section] in Hs.
      assert (Hnext : forall x', leave b x' -> pendsO w' (CUnAlias a y) x').
      { intros x' Hx'. destruct (c_ali w !! a); destruct Hs as (-> & _); simpl in Hx'; by subst x'. }
      destruct (c_ali w !! a) as [l|] eqn:El; destruct Hs as (_ & ->); [|by destruct (Hsame eq_refl)]. split_and!; [split; [done|]| |done].
      + intros n Hn. cbn [c_idx c_ali c_obj]. split_and!; [done| |done]. rewrite lookup_insert_ne; [done|]. by intros ->.
      + split; cbn [c_ali].
        * intros a' l' x. rewrite lookup_insert_Some. intros [[<- <-]|[Hne Hl]] Hin; [|by eapply Hal].
          unfold without in Hin. apply elem_of_list_filter in Hin as [_ Hin]. by eapply Hal.
        * intros a' Ha'. rewrite lookup_insert_ne; [by apply Hfull|]. by intros ->.
  Qed.

  (** The sections of the client itself. *)
  Lemma own_section c x w b w' :
    wfC w -> fencedC w -> within N c -> pends w c x -> section ckn tk x w b w' ->
    fencedC w' /\ forall p, foreign w p -> foreign w' p.
  Proof.
    intros Hw HF Hc Hp Hs. pose proof HF as [Hal Hfull].
    assert (Hsame : w' = w -> fencedC w' /\ forall p, foreign w p -> foreign w' p) by (by intros ->).
    destruct x as [c'|n d t|n|a y|a]; [| | | |done].
    - simpl in Hp. subst c'.
      destruct c; cbn [section] in Hs; cbn [within] in Hc; try done; repeat case_decide;
        try (destruct Hs as (? & _ & _ & ->); by apply Hsame); try (destruct Hs as (_ & ->); by apply Hsame);
        try (destruct Hs as (-> & _); by apply Hsame).
      + (* Alias *)
        destruct Hs as (_ & ->). destruct Hc as [Ha Hx]. split; [|done]. split; cbn [c_ali].
        * intros a l x. rewrite lookup_insert_Some. intros [[<- <-]|[Hne Hl]] Hin; [|by eapply Hal].
          apply elem_of_app in Hin as [Hin| ->%elem_of_list_singleton]; [|tauto].
          destruct (c_ali w !! alias) as [l|] eqn:El; [|by apply elem_of_nil in Hin]. by eapply Hal.
        * intros a Ha'. destruct (decide (a = alias)) as [->|Hne]; [rewrite lookup_insert|rewrite lookup_insert_ne by done; by apply Hfull].
          by destruct (default [] (c_ali w !! alias)).
      + (* UnAlias of everything *)
        destruct Hs as (_ & ->). split; [|done]. split; cbn [c_ali].
        * intros a l x. rewrite lookup_delete_Some. intros [Hne Hl]. by eapply Hal.
        * intros a Ha'. rewrite lookup_delete_Some. intros [Hne Hl]. by eapply Hfull.
      + (* Rename *)
        destruct Hc as [Ho Hn]. destruct (c_idx w !! old) as [p|] eqn:E; destruct Hs as (_ & ->); [|by apply Hsame].
        split; [split|]; cbn [c_ali].
        * intros a l x. rewrite lookup_fmap. destruct (c_ali w !! a) as [l0|] eqn:El; [|done].
          simpl. intros [= <-] Hin. apply elem_of_list_fmap in Hin as (y & -> & Hy). unfold renamed.
          pose proof (Hal _ _ _ El Hy) as Hk. case_decide as Hd; [|done]. subst y. tauto.
        * intros a Ha. rewrite lookup_fmap. destruct (c_ali w !! a) as [l0|] eqn:El; [|done]. simpl.
          intros [= Hl]. apply (fmap_nil_inv (renamed old new) l0) in Hl. subst l0. by destruct (Hfull a).
        * intros q [F1 F2]. split; [done|]. cbn [c_idx]. intros n Hn'. rewrite lookup_delete_Some, lookup_insert_Some.
          intros [_ [[_ <-]|[_ Hq]]]; [by destruct (F2 old)|by destruct (F2 n)].
    - (* the second section of Put *)
      destruct Hp as [-> Hp]. simpl in Hc. destruct t as [qs|]; cbn [section] in Hs.
      + destruct Hs as (_ & _ & ->). split; [done|]. intros p [F1 F2]. split; [|done]. cbn [c_obj]. by apply put_objs_is_Some.
      + destruct Hs as (p & Hp' & _ & ->). split; [done|]. intros q [F1 F2]. split; cbn [c_obj c_idx].
        * apply lookup_insert_is_Some'. by right.
        * intros m Hm. rewrite lookup_insert_Some. intros [[_ <-]|[_ Hq]]; [|by destruct (F2 m)].
          rewrite Hp' in F1. by destruct F1.
    - (* Drop *)
      destruct Hp as [-> _]. cbn [section] in Hs. destruct Hs as (_ & ->). simpl in Hc.
      assert (Hlk : forall a l, omap (drop_from n) (c_ali w) !! a = Some l -> l <> [] /\ exists l0, c_ali w !! a = Some l0 /\ l = without n l0).
      { intros a l. rewrite lookup_omap. destruct (c_ali w !! a) as [l0|] eqn:El; [|done]. simpl. unfold drop_from.
        intros Hl. destruct (without n l0) eqn:E0; simplify_eq. split; [done|]. exists l0. done. }
      split; [split|]; cbn [c_ali].
      + intros a l x Hl Hin. destruct (Hlk _ _ Hl) as (_ & l0 & El & ->). unfold without in Hin.
        apply elem_of_list_filter in Hin as [_ Hin]. by eapply Hal.
      + intros a Ha Hl. by destruct (Hlk _ _ Hl) as [? _].
      + intros q [F1 F2]. split; [done|]. cbn [c_idx]. intros m Hm. rewrite lookup_delete_Some. intros [_ Hq]. by destruct (F2 m).
    - destruct Hp as (-> & Hy & _). by destruct Hc as [_ ?].
  Qed.

  Lemma foreign_pendsO w w' c x : (forall p, foreign w p -> foreign w' p) -> pendsO w c x -> pendsO w' c x.
  Proof. intros H. destruct x; simpl; try done. intros [-> Hp]. split; [done|]. eauto. Qed.

  (** The client's lookups stay valid. *)
  Lemma untouched_pends w w' c x : fencedC w -> untouched w w' -> within N c -> pends w c x -> pends w' c x.
  Proof.
    intros HF [_ Hun] Hc Hp. destruct x as [c'|n d t|n|a y|a]; simpl in Hp |- *; try done.
    - destruct Hp as [-> Hp]. split; [done|]. destruct Hp as [->|Hp]; [left|by right]. simpl in Hc.
      destruct (Hun n Hc) as (E1 & E2 & _). unfold targets. rewrite E1, E2. destruct (c_idx w !! n); [done|].
      destruct (c_ali w !! n) as [l|] eqn:El; [|done]. f_equal. apply list_fmap_ext. intros j x Hx%elem_of_list_lookup_2.
      symmetry. apply Hun. by apply (fc_alias _ HF _ _ _ El Hx).
    - destruct Hp as [-> Hp]. split; [done|]. simpl in Hc. by destruct (Hun n Hc) as [-> _].
    - destruct Hp as (-> & Hy & _). by destruct Hc as [_ ?].
  Qed.
End machine.

(** ** One client among others *)
Section among.
  Context (ckn : bool) (tk : Tokenizer) (N : string -> Prop) (i0 : nat) (p0 : client) (v0 : view).

  Record isolated (l : list cstate) (f : nat -> nat) (m : list cthr) (w : cview) : Prop := {
    is_wf : wfC w;
    is_fenced : fencedC N w;
    is_busy : forall i c t k, l !! i = Some (Busy c t k) -> exists a, m !! f i = Some a /\
      if decide (i = i0) then within N c /\ forall x, ends a x -> pends w c x
      else spares N c /\ forall x, ends a x -> pendsO N w c x;
    is_inj : forall i j c t k c' t' k', l !! i = Some (Busy c t k) -> l !! j = Some (Busy c' t' k') -> f i = f j -> i = j;
    is_run : forall x q, l !! i0 = Some x -> fit_at f m i0 x q ->
      exists v, rtc (turn ckn tk) (Turn [p0] v0) (Turn [q] v) /\ same_on N (view_of w) v /\ unblocked v;
    is_over : forall c t k outs, l !! i0 = Some (Busy c t k) -> m !! f i0 = Some (Inside (Gather outs)) -> Panic ∈ outs ->
      rtc (turn ckn tk) (Turn [p0] v0) Over }.

  Lemma same_on_trans v1 v2 v3 : same_on N v2 v1 -> same_on N v2 v3 -> same_on N v1 v3.
  Proof. intros H1 H2 n Hn. destruct (H1 n Hn) as [-> ->]. by apply H2. Qed.

  Lemma turn_one c k a v v' : explained ckn tk c a v v' -> turn ckn tk (Turn [Ask c k] v) (Turn [k a] v').
  Proof. intros He. exact (T_call ckn tk [Ask c k] v 0 c k a v' eq_refl He). Qed.

  Lemma isolated_mine l f m w m' w' i c t k :
    isolated l f m w -> l !! i = Some (Busy c t k) -> mine ckn tk (f i) (m, w) (m', w') -> isolated l f m' w'.
  Proof.
    intros HJ Hi Hm. pose proof HJ as [Hw HF Hb Hinj Hrun Hover].
    destruct (Hb _ _ _ _ Hi) as (a & Ha & Hp). assert (Hlt := lookup_lt_Some _ _ _ Ha).
    assert (Hne : forall j c1 t1 k1, l !! j = Some (Busy c1 t1 k1) -> j <> i -> f j <> f i).
    { intros j c1 t1 k1 Hj Hne E. apply Hne. by eapply Hinj. }
    inversion Hm as [? ? x b ? Hx Hs|? ? b x Hx Hl]; simplify_eq.
    - (* a section *)
      assert (Hold : forall j x1 q, l !! j = Some x1 -> j <> i -> fit_at f (<[f i := Inside b]> m) j x1 q -> fit_at f m j x1 q).
      { intros j x1 q Hj Hji Hq. destruct x1 as [p|c1 t1 k1]; [done|]. destruct Hq as (a & Hma & Hq). exists a.
        rewrite list_lookup_insert_ne in Hma by (intros E; by eapply Hne). done. }
      destruct (decide (i = i0)) as [->|Hi0].
      + (* of the client itself *)
        destruct Hp as [Hc Hp]. assert (Hpx : pends w c x) by (by apply Hp).
        destruct (own_section ckn tk N c x w b w' Hw HF Hc Hpx Hs) as [HF' Hfor].
        split.
        * by eapply section_wf.
        * done.
        * intros j c1 t1 k1 Hj. destruct (Hb _ _ _ _ Hj) as (a1 & Ha1 & Hp1). destruct (decide (j = i0)) as [->|Hji].
          -- simplify_eq. exists (Inside b). split; [by apply list_lookup_insert|]. split; [done|]. intros x' Hx'. by eapply section_pends.
          -- exists a1. rewrite list_lookup_insert_ne by (intros E; by eapply Hne). split; [done|]. destruct Hp1 as [? Hp1]. split; [done|].
             intros x' Hx'. apply (foreign_pendsO N w w' c1 x' Hfor). by apply Hp1.
        * done.
        * intros x1 q Hx1 Hq. rewrite Hi in Hx1. injection Hx1 as <-. destruct Hq as (a1 & Ha1 & Hfit).
          rewrite list_lookup_insert in Ha1 by done. injection Ha1 as <-.
          destruct (Hrun _ (before x c k) Hi) as (v & Hr & Hsm & Hu); [by exists (Between x)|].
          destruct (section_turn ckn tk c x w b w' k q Hw Hpx Hs Hfit) as [[-> Ev]|(Eb & a & -> & He)].
          -- exists v. by rewrite Ev.
          -- rewrite Eb in Hr.
             destruct (explained_frame ckn tk N c a (view_of w) (view_of w') v Hc (proj1 (fencedC_view N w) HF) (conj eq_refl eq_refl) Hu Hsm He) as (v' & He' & Hsm' & Hu').
             exists v'. split_and!; [|done..]. eapply rtc_r; [exact Hr|]. by apply turn_one.
        * intros c1 t1 k1 outs Hj Hma Hpa. simplify_eq. rewrite list_lookup_insert in Hma by done. simplify_eq.
          destruct (leave_or_crash ckn tk _ _ _ _ Hw Hs) as [[x' Hx']|(c' & -> & Hcr & _)]; [by destruct (not_both outs x')|].
          simpl in Hpx. subst c'.
          destruct (Hrun _ (Ask c k) Hi) as (v & Hr & Hsm & Hu); [by exists (Between (Todo c))|].
          destruct (spec_frame ckn tk N c (view_of w) v OCrash Hc (proj1 (fencedC_view N w) HF) (conj eq_refl eq_refl) Hu Hsm Hcr) as (o2 & Ho2 & Hal). destruct o2; try done.
          eapply rtc_r; [exact Hr|]. exact (T_die ckn tk [Ask c k] v 0 c k eq_refl Ho2).
      + (* of another one *)
        destruct Hp as [Hc Hp]. assert (Hpx : pendsO N w c x) by (by apply Hp).
        destruct (other_section ckn tk N c x w b w' Hw HF Hc Hpx Hs) as (Hun & HF' & Hnext).
        split.
        * by eapply section_wf.
        * done.
        * intros j c1 t1 k1 Hj. destruct (Hb _ _ _ _ Hj) as (a1 & Ha1 & Hp1). destruct (decide (j = i0)) as [->|Hj0].
          -- exists a1. rewrite list_lookup_insert_ne by (intros E; by eapply Hne). split; [done|]. destruct Hp1 as [? Hp1]. split; [done|].
             intros x' Hx'. apply (untouched_pends N w w' c1 x' HF Hun); [done|by apply Hp1].
          -- destruct (decide (j = i)) as [->|Hji].
             ++ simplify_eq. exists (Inside b). split; [by apply list_lookup_insert|]. by split.
             ++ exists a1. rewrite list_lookup_insert_ne by (intros E; by eapply Hne). split; [done|]. destruct Hp1 as [? Hp1]. split; [done|].
                intros x' Hx'. apply (foreign_pendsO N w w' c1 x'); [|by apply Hp1]. intros p. by apply untouched_foreign.
        * done.
        * intros x1 q Hx1 Hq. destruct (Hrun x1 q Hx1) as (v & Hr & Hsm & Hu); [by apply Hold|].
          exists v. split_and!; [done| |done]. eapply same_on_trans; [by apply untouched_same|done].
        * intros c1 t1 k1 outs Hj Hma. rewrite list_lookup_insert_ne in Hma by (intros E; by eapply Hne). by eapply Hover.
    - (* the end of a section *)
      assert (Hold : forall j x1 q, l !! j = Some x1 -> fit_at f (<[f i := Between x]> m) j x1 q -> fit_at f m j x1 q).
      { intros j x1 q Hj Hq. destruct x1 as [p|c1 t1 k1]; [done|]. destruct Hq as (a & Hma & Hq).
        destruct (decide (f j = f i)) as [E|Hn].
        - rewrite E, list_lookup_insert in Hma by done. simplify_eq. exists (Inside b). rewrite E. split; [done|].
          destruct b as [x'|outs]; simpl in Hl; [by subst x'|]. left. destruct Hl as (bl & bl' & E1 & E2 & ->).
          eexists. split; [|exact Hq]. by exists bl, bl'.
        - rewrite list_lookup_insert_ne in Hma by done. by exists a. }
      split; [done|done| |done| |].
      + intros j c1 t1 k1 Hj. destruct (Hb _ _ _ _ Hj) as (a1 & Ha1 & Hp1).
        destruct (decide (f j = f i)) as [E|Hn].
        * rewrite E in Ha1 |- *. simplify_eq. exists (Between x). split; [by apply list_lookup_insert|].
          case_decide; destruct Hp1 as [? Hp1]; (split; [done|]); intros x' ->; by apply Hp1.
        * exists a1. by rewrite list_lookup_insert_ne.
      + intros x1 q Hx1 Hq. apply (Hrun x1 q Hx1). by apply Hold.
      + intros c1 t1 k1 outs Hj Hma. destruct (decide (f i0 = f i)) as [E|Hn].
        * by rewrite E, list_lookup_insert in Hma.
        * rewrite list_lookup_insert_ne in Hma by done. by eapply Hover.
  Qed.

  Lemma isolated_start w m ps :
    wfC w -> fencedC N w -> v0 = view_of w -> ps !! i0 = Some p0 -> isolated (Idle <$> ps) (fun _ => 0) m w.
  Proof.
    intros Hw HF Hv Hp0.
    assert (Hb : forall i c t k, (Idle <$> ps) !! i = Some (Busy c t k) -> False).
    { intros i c t k Hi. rewrite list_lookup_fmap in Hi. by destruct (ps !! i). }
    split; [done|done| | | |].
    - intros i c t k Hi. by destruct (Hb _ _ _ _ Hi).
    - intros i j c t k c' t' k' Hi. by destruct (Hb _ _ _ _ Hi).
    - intros x q Hx Hq. rewrite list_lookup_fmap, Hp0 in Hx. simplify_eq/=. exists (view_of w).
      split_and!; [apply rtc_refl|by intros n _|done].
    - intros c t k outs Hi. by destruct (Hb _ _ _ _ Hi).
  Qed.

  Definition may_make (i : nat) (c : call) : Prop := if decide (i = i0) then within N c else spares N c.

  Lemma isolated_ask l f m w i c t k n :
    isolated l f m w -> l !! i = Some (Idle (Ask c k)) -> may_make i c -> m !! n = Some (Between (Todo c)) ->
    (forall j c' t' k', l !! j = Some (Busy c' t' k') -> f j <> n) ->
    isolated (<[i := Busy c t k]> l) (fun j => if decide (j = i) then n else f j) m w.
  Proof.
    intros [Hw HF Hb Hinj Hrun Hover] Hi Ho Hm Hnew. assert (Hlt := lookup_lt_Some _ _ _ Hi). split; [done|done| | | |].
    - intros j c1 t1 k1 Hj. apply list_lookup_insert_Some in Hj as [(<- & E & _)|[Hne Hj]].
      + simplify_eq. rewrite (decide_True (P := i = i)) by done. exists (Between (Todo c1)). split; [done|].
        unfold may_make in Ho. case_decide; (split; [done|]); by intros x ->.
      + rewrite (decide_False (P := j = i)) by congruence. by eapply Hb.
    - intros j j' c1 t1 k1 c2 t2 k2 Hj Hj'.
      apply list_lookup_insert_Some in Hj as [(<- & E & _)|[Hne Hj]], Hj' as [(<- & E' & _)|[Hne' Hj']].
      + done.
      + rewrite decide_True, decide_False by congruence. intros E1. by destruct (Hnew _ _ _ _ Hj').
      + rewrite decide_False, decide_True by congruence. intros E1. by destruct (Hnew _ _ _ _ Hj).
      + rewrite !decide_False by congruence. by eapply Hinj.
    - intros x q Hx Hq. apply list_lookup_insert_Some in Hx as [(E & <- & _)|[Hne Hx]].
      + subst i. destruct Hq as (a & Ha & Hf). rewrite decide_True in Ha by done. rewrite Hm in Ha. simplify_eq. by apply (Hrun _ _ Hi).
      + apply (Hrun x q Hx). destruct x as [p|c1 t1 k1]; [done|]. unfold fit_at in Hq. by rewrite decide_False in Hq by congruence.
    - intros c1 t1 k1 outs Hj. apply list_lookup_insert_Some in Hj as [(<- & E & _)|[Hne Hj]].
      + rewrite decide_True by done. congruence.
      + rewrite decide_False by congruence. by eapply Hover.
  Qed.

  Lemma isolated_move l f m w i c t k t' :
    isolated l f m w -> l !! i = Some (Busy c t k) -> isolated (<[i := Busy c t' k]> l) f m w.
  Proof.
    intros [Hw HF Hb Hinj Hrun Hover] Hi. assert (Hli := lookup_lt_Some _ _ _ Hi).
    assert (Hold : forall j c1 t1 k1, <[i := Busy c t' k]> l !! j = Some (Busy c1 t1 k1) -> exists t2, l !! j = Some (Busy c1 t2 k1)).
    { intros j c1 t1 k1 Hj. apply list_lookup_insert_Some in Hj as [(<- & E & _)|[Hne Hj]]; [simplify_eq|]; eauto. }
    split; [done|done| | | |].
    - intros j c1 t1 k1 [t2 Hj]%Hold. by eapply Hb.
    - intros j j' c1 t1 k1 c2 t2 k2 [? Hj]%Hold [? Hj']%Hold. by eapply Hinj.
    - intros x q Hx Hq. apply list_lookup_insert_Some in Hx as [(E & <- & _)|[Hne Hx]].
      + subst i. by apply (Hrun _ q Hi).
      + by apply (Hrun x q Hx).
    - intros c1 t1 k1 outs [t2 Hj]%Hold. by eapply Hover.
  Qed.

  Lemma isolated_back l f m w i c t k a a' :
    isolated l f m w -> l !! i = Some (Busy c t k) -> m !! f i = Some (Between (Answered a)) ->
    a' = a \/ (exists l, a = Returned (ORows l)) ->
    isolated (<[i := Idle (k a')]> l) f m w.
  Proof.
    intros [Hw HF Hb Hinj Hrun Hover] Hi Hma Ha'. assert (Hli := lookup_lt_Some _ _ _ Hi).
    assert (Hold : forall j c1 t1 k1, <[i := Idle (k a')]> l !! j = Some (Busy c1 t1 k1) -> l !! j = Some (Busy c1 t1 k1) /\ j <> i).
    { intros j c1 t1 k1 Hj. apply list_lookup_insert_Some in Hj as [(<- & E & _)|[Hne Hj]]; done. }
    split; [done|done| | | |].
    - intros j c1 t1 k1 [Hj _]%Hold. by eapply Hb.
    - intros j j' c1 t1 k1 c2 t2 k2 [Hj _]%Hold [Hj' _]%Hold. by eapply Hinj.
    - intros x q Hx Hq. apply list_lookup_insert_Some in Hx as [(E & <- & _)|[Hne Hx]]; [|by apply (Hrun x q Hx)].
      subst i. simpl in Hq. subst q. apply (Hrun _ _ Hi). exists (Between (Answered a)). split; [done|]. simpl.
      destruct Ha' as [->|[la ->]]; [done|exfalso].
      destruct (Hb _ _ _ _ Hi) as (a1 & Ha1 & Hp). rewrite decide_True in Hp by done. destruct Hp as [Hc Hp].
      rewrite Hma in Ha1. simplify_eq. specialize (Hp _ eq_refl). simpl in Hp. subst c. done.
    - intros c1 t1 k1 outs [Hj _]%Hold. by eapply Hover.
  Qed.

  Lemma isolated_turns l f m w x :
    isolated l f m w -> l !! i0 = Some x ->
    exists q v, rtc (turn ckn tk) (Turn [p0] v0) (Turn [q] v) /\ at_turn x q /\ same_on N (view_of w) v.
  Proof.
    intros [Hw HF Hb Hinj Hrun Hover] Hx.
    assert (Hq : exists q, fit_at f m i0 x q).
    { destruct x as [p|c t k]; [by exists p|]. destruct (Hb _ _ _ _ Hx) as (a & Ha & _).
      destruct (fit_exists a c k) as [q Hq]. by exists q, a. }
    destruct Hq as [q Hq]. destruct (Hrun _ _ Hx Hq) as (v & Hr & Hsm & _). exists q, v. split_and!; [done| |done].
    destruct x as [p|c t k]; [done|]. destruct Hq as (a & _ & Hf). simpl.
    destruct a as [x|[x|outs]]; simpl in Hf.
    - destruct x as [|? ? [[|]|]| | |]; simpl in Hf; eauto.
    - destruct x as [|? ? [[|]|]| | |]; simpl in Hf; eauto.
    - destruct Hf as [(a & _ & ->)|[_ ->]]; eauto.
  Qed.

  Lemma isolated_die l f m w c t k a :
    isolated l f m w -> l !! i0 = Some (Busy c t k) -> m !! f i0 = Some a -> dies w a ->
    rtc (turn ckn tk) (Turn [p0] v0) Over.
  Proof.
    intros [Hw HF Hb Hinj Hrun Hover] Hi Ha Hd.
    destruct a as [x|[x|outs]]; [|done|by eapply Hover].
    destruct x as [|n d [qs|]| | |]; try done. simpl in Hd.
    destruct (Hb _ _ _ _ Hi) as (a & Ha' & Hp). rewrite Ha in Ha'. injection Ha' as <-. rewrite decide_True in Hp by done.
    destruct Hp as [Hc Hp]. destruct (Hp _ eq_refl) as [-> [Et|Et]]; [|simplify_eq; by apply elem_of_nil in Hd].
    destruct (fit_exists (Between (PutAt n d (Some qs))) (CPut n d) k) as [q Hfit].
    destruct (Hrun _ q Hi) as (v & Hr & Hsm & Hu); [by eexists|].
    simpl in Hfit. destruct qs as [|op r]; [by apply elem_of_nil in Hd|]. subst q.
    assert (Hcr : spec ckn tk (CPut n d) (view_of w) OCrash) by (by eapply put_crash).
    destruct (spec_frame ckn tk N (CPut n d) (view_of w) v OCrash Hc (proj1 (fencedC_view N w) HF) (conj eq_refl eq_refl) Hu Hsm Hcr) as (o2 & Ho2 & Hal).
    destruct o2; try done. eapply rtc_r; [exact Hr|]. exact (T_die ckn tk [Ask (CPut n d) k] v 0 _ k eq_refl Ho2).
  Qed.
End among.
