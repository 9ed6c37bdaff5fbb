(** * Two calls of the machine with atomic sections. *)
From Coq Require Import Lia.
From stdpp Require Import gmap list.
From Verif Require Import Entities Search SpecSearch Repo Sem SpecRepo ProofRepo SpecConc ProofConc SpecLin ProofMachine ProofLin SpecPair.
Open Scope nat_scope.

Section pair.
  Context (ckn : bool) (tk : Tokenizer).

  (** No Search, so that no section gathers results. *)
  Definition quiet (x : stage) : Prop := match x with Todo (CSearch _ _ _) => False | _ => True end.
  Lemma quiet_section x w b w' : quiet x -> section ckn tk x w b w' -> exists x', b = Next x' /\ quiet x'.
  Proof.
    intros Hq Hs. destruct x as [c|n d [ps|]|n|a i|a]; cbn [section] in Hs.
    - destruct c; repeat case_decide; try (destruct Hs as (? & _ & -> & _); eexists; split; [reflexivity|done]);
        try (destruct Hs as (-> & _); eexists; split; [reflexivity|done]); try done.
      destruct (c_idx w !! old); destruct Hs as (-> & _); eexists; (split; [reflexivity|done]).
    - destruct Hs as (_ & -> & _); eexists; (split; [reflexivity|done]).
    - destruct Hs as (? & _ & -> & _); eexists; (split; [reflexivity|done]).
    - destruct Hs as (-> & _); eexists; (split; [reflexivity|done]).
    - destruct (c_ali w !! a); destruct Hs as (-> & _); eexists; (split; [reflexivity|done]).
    - done.
  Qed.

  (** Two calls taking turns, a section at a time. *)
  Inductive turn : stage * stage * cview -> stage * stage * cview -> Prop :=
  | turn_l x x' y w w' : section ckn tk x w (Next x') w' -> turn (x, y, w) (x', y, w')
  | turn_r x y y' w w' : section ckn tk y w (Next y') w' -> turn (x, y, w) (x, y', w').

  Definition at_stage (t : cthr) (x : stage) : Prop := t = Between x \/ t = Inside (Next x).

  Definition turns_inv (x0 y0 : stage) (w0 : cview) (l : list cthr) (w : cview) : Prop :=
    exists t u x y, l = [t; u] /\ at_stage t x /\ at_stage u y /\ quiet x /\ quiet y /\ rtc turn (x0, y0, w0) (x, y, w).
  Lemma turns_step x0 y0 w0 l w l' w' :
    turns_inv x0 y0 w0 l w -> cstep ckn tk (APool l w) (APool l' w') -> turns_inv x0 y0 w0 l' w'.
  Proof.
    intros (t & u & x & y & -> & Ht & Hu & Hx & Hy & Hr) Hs.
    inversion Hs as [? ? i z b ? Hi Heff|? ? i b z Hi Hfin| |]; simplify_eq; destruct i as [|[|i]]; simplify_eq/=.
    - destruct Ht as [Ht|Ht]; simplify_eq. destruct (quiet_section _ _ _ _ Hx Heff) as (x' & -> & Hx').
      exists (Inside (Next x')), u, x', y. split_and!; [done|by right|done..|]. eapply rtc_r; [exact Hr|by constructor].
    - destruct Hu as [Ht'|Ht']; simplify_eq. destruct (quiet_section _ _ _ _ Hy Heff) as (x' & -> & Hx').
      exists t, (Inside (Next x')), x, x'. split_and!; [done|done|by right|done..|]. eapply rtc_r; [exact Hr|by constructor].
    - destruct Ht as [Ht|Ht]; simplify_eq. simpl in Hfin. subst z. exists (Between x), u, x, y. split_and!; try done. by left.
    - destruct Hu as [Ht'|Ht']; simplify_eq. simpl in Hfin. subst z. exists t, (Between y), x, y. split_and!; try done. by left.
  Qed.

  Lemma turns_of_run c c' w l w' :
    quiet (Todo c) -> quiet (Todo c') -> rtc (cstep ckn tk) (APool (cstart [c; c']) w) (APool l w') ->
    turns_inv (Todo c) (Todo c') w l w'.
  Proof.
    intros H1 H2 Hr. eapply (machine_inv ckn tk (turns_inv (Todo c) (Todo c') w)); [|..|exact Hr].
    - intros. by eapply turns_step.
    - exists (Between (Todo c)), (Between (Todo c')), (Todo c), (Todo c'). split_and!; try done; by left.
  Qed.

  Lemma turn_swap x y w x' y' w' : rtc turn (x, y, w) (x', y', w') -> rtc turn (y, x, w) (y', x', w').
  Proof.
    intros Hr.
    refine (rtc_ind_r (R := turn) (fun p => rtc turn (y, x, w) (p.1.2, p.1.1, p.2)) _ _ _ _ Hr); [done|].
    intros p q _ Hs IH. eapply rtc_r; [exact IH|]. inversion Hs; subst; by constructor.
  Qed.

  (** A call on its own. *)
  Definition whole (c : call) (w : cview) (a : answer) (w' : cview) : Prop :=
    section ckn tk (Todo c) w (Next (Answered a)) w' \/
    exists x, section ckn tk (Todo c) w (Next x) w /\ section ckn tk x w (Next (Answered a)) w'.

  Lemma whole_explained c w a w' : wfC w -> whole c w a w' -> explained ckn tk c a (view_of w) (view_of w') /\ wfC w'.
  Proof.
    intros Hw [Hs|(x & Hs1 & Hs2)].
    - split; [|by eapply section_wf]. exact (explain_first ckn tk c w _ w' _ Hw Hs eq_refl).
    - split; [|by eapply section_wf]. pose proof (explain_first ckn tk c w _ w _ Hw Hs1 eq_refl) as H.
      destruct x as [c'|n d t|n|a' i|a']; [done|..].
      + destruct H as (-> & -> & _). destruct (explain_put ckn tk n d w _ w' _ Hw Hs2 eq_refl) as [E ?]. by injection E as ->.
      + destruct H as (-> & Hn & _). destruct (explain_drop ckn tk n w _ w' _ Hw Hn Hs2 eq_refl) as [E ?]. by injection E as ->.
      + destruct H as (-> & Hi & Hn & _). destruct (explain_unalias ckn tk a' i w _ w' _ Hw Hi Hn Hs2 eq_refl) as (o & E & ?).
        by injection E as ->.
      + done.
  Qed.

  (** One call after the other. *)
  Definition in_turn (c c' : call) (w : cview) (a a' : answer) (w' : cview) : Prop :=
    exists w1, whole c w a w1 /\ whole c' w1 a' w'.
  Definition ordered (c c' : call) (w : cview) (a a' : answer) (w' : cview) : Prop :=
    in_turn c c' w a a' w' \/ in_turn c' c w a' a w'.
  Lemma ordered_swap c c' w a a' w' : ordered c c' w a a' w' -> ordered c' c w a' a w'.
  Proof. intros [H|H]; [by right|by left]. Qed.

  (** The calls other than Put that change something: they read the tables, not the
      objects. *)
  Definition mover (c : call) : Prop :=
    match c with CAlias _ _ | CUnAlias _ _ | CRename _ _ | CDrop _ => True | _ => False end.
  Definition moving (x : stage) : Prop :=
    match x with Todo c => mover c | DropAt _ | UnAliasAt _ _ | Answered _ => True | PutAt _ _ _ => False end.
  Definition with_obj (w : cview) obj : cview := MkC (c_idx w) obj (c_ali w).

  Lemma moving_section x w x' w' obj :
    moving x -> section ckn tk x w (Next x') w' ->
    moving x' /\ c_obj w' = c_obj w /\ section ckn tk x (with_obj w obj) (Next x') (with_obj w' obj) /\
    ((forall a, x' <> Answered a) -> w' = w).
  Proof.
    intros Hm Hs. destruct x as [c|n d [ps|]|n|a i|a]; cbn [section moving] in *; try done.
    - destruct c; try done; cbn [with_obj c_idx c_obj c_ali] in *; repeat case_decide; try done;
        try (destruct Hs as [E ->]; unfold ret_obs in E; simplify_eq; split_and!; try done; intros Kx; first [done|by destruct (Kx _ eq_refl)]).
      destruct (c_idx w !! old); destruct Hs as [E ->]; unfold ret_obs in E; simplify_eq; split_and!; try done; intros Kx; first [done|by destruct (Kx _ eq_refl)].
    - destruct Hs as [E ->]. unfold ret_obs in E; simplify_eq. split_and!; try done. intros Kx; by destruct (Kx _ eq_refl).
    - cbn [with_obj c_idx c_obj c_ali]. destruct (c_ali w !! a); destruct Hs as [E ->]; unfold ret_obs in E; simplify_eq; split_and!; try done; intros Kx; first [done|by destruct (Kx _ eq_refl)].
  Qed.

  (** The rest of a call, on its own. *)
  Inductive rest : stage -> cview -> answer -> cview -> Prop :=
  | rest_done a w : rest (Answered a) w a w
  | rest_step x x' w w' a w2 : section ckn tk x w (Next x') w' -> rest x' w' a w2 -> rest x w a w2.

  Lemma whole_rest c w a w' : rest (Todo c) w a w' -> quiet (Todo c) -> wfC w -> whole c w a w'.
  Proof.
    intros Hr Hq Hw. inversion Hr as [|? x' ? w1 ? ? H1 H2]; subst.
    pose proof (explain_first ckn tk c w _ w1 _ Hw H1 eq_refl) as Hx.
    destruct x' as [c2|n d t|n|b i|b]; [done|..].
    1-3: assert (w1 = w) as -> by (by destruct_and!); right; eexists; (split; [exact H1|]);
      inversion H2 as [|? x2 ? w2 ? ? H3 H4]; subst.
    - destruct t as [ps|]; cbn [section] in H3.
      + destruct H3 as (Hno & E & ->). unfold ret_obs in E. simplify_eq. inversion H4 as [|? ? ? ? ? ? H5]; subst; [|done]. by cbn [section].
      + destruct H3 as (p & Hp & E & ->). unfold ret_obs in E. simplify_eq. inversion H4 as [|? ? ? ? ? ? H5]; subst; [|done].
        cbn [section]. by exists p.
    - cbn [section] in H3. destruct H3 as (E & ->). unfold ret_obs in E. simplify_eq. inversion H4 as [|? ? ? ? ? ? H5]; subst; [|done]. by cbn [section].
    - assert (E : exists b', x2 = Answered b').
      { cbn [section] in H3. destruct (c_ali w !! b); destruct H3 as (E & _); unfold ret_obs in E; simplify_eq; eauto. }
      destruct E as [b' ->]. inversion H4 as [|? ? ? ? ? ? H5]; subst; [done|done].
    - left. inversion H2 as [|? ? ? ? ? ? H5]; subst; [done|done].
  Qed.

  (** When the first call has been answered. *)
  Lemma turns_rest a0 a y w a' w' : rtc turn (Answered a0, y, w) (Answered a, Answered a', w') -> a = a0 /\ rest y w a' w'.
  Proof.
    intros Hr.
    assert (H : forall p q, rtc turn p q -> forall y w, p = (Answered a0, y, w) -> q = (Answered a, Answered a', w') -> a = a0 /\ rest y w a' w').
    { clear. intros p q Hr. induction Hr as [p|p p1 q Hs Hr IH]; intros y w -> E; simplify_eq; [by split; [|constructor]|].
      inversion Hs; subst; [done|]. destruct (IH _ _ eq_refl eq_refl) as [-> Hrest]. split; [done|]. by econstructor. }
    by eapply H.
  Qed.

  (** A Put that has found its target might as well write at once. *)
  Definition written (d : DocRequest) (ps : list (option nat)) (w : cview) : cview :=
    with_obj w (put_objs d ps (c_obj w)).
  Lemma put_found n d ps y w a a' w' :
    moving y -> rtc turn (PutAt n d (Some ps), y, w) (Answered a, Answered a', w') ->
    a = Returned OUnit /\ None ∉ ps /\ rest y (written d ps w) a' w'.
  Proof.
    intros Hm Hr.
    assert (H : forall p q, rtc turn p q -> forall y w, moving y -> p = (PutAt n d (Some ps), y, w) -> q = (Answered a, Answered a', w') ->
      a = Returned OUnit /\ None ∉ ps /\ rest y (written d ps w) a' w').
    { clear. intros p q Hr. induction Hr as [p|p p1 q Hs Hr IH]; intros y w Hm -> E; simplify_eq.
      inversion Hs as [? x' ? ? w1 H1|? ? y' ? w1 H1]; subst.
      - cbn [section] in H1. destruct H1 as (Hno & E & ->). unfold ret_obs in E. simplify_eq.
        destruct (turns_rest _ _ _ _ _ _ Hr) as [-> Hrest]. done.
      - destruct (moving_section y w y' w1 (put_objs d ps (c_obj w)) Hm H1) as (Hm' & Eo & Hsec & _).
        destruct (IH y' w1 Hm' eq_refl eq_refl) as (-> & Hno & Hrest). split_and!; [done..|].
        econstructor; [exact Hsec|]. unfold written in Hrest. by rewrite Eo in Hrest. }
    by eapply H.
  Qed.

  (** The moment at which a Put looks its target up. *)
  Lemma put_looks n d y w x y' w1 :
    rtc turn (Todo (CPut n d), y, w) (x, y', w1) -> x <> Todo (CPut n d) ->
    exists y1 w2, rtc (fun p q => section ckn tk p.1 p.2 (Next q.1) q.2) (y, w) (y1, w2) /\
      rtc turn (PutAt n d (targets w2 n), y1, w2) (x, y', w1).
  Proof.
    intros Hr Hx.
    assert (H : forall p q, rtc turn p q -> forall y w, p = (Todo (CPut n d), y, w) -> forall x y' w1, q = (x, y', w1) -> x <> Todo (CPut n d) ->
      exists y1 w2, rtc (fun p q => section ckn tk p.1 p.2 (Next q.1) q.2) (y, w) (y1, w2) /\
      rtc turn (PutAt n d (targets w2 n), y1, w2) q).
    { clear. intros p q Hr. induction Hr as [p|p p1 q Hs Hr IH]; intros y w -> x y' w1 E Hx; simplify_eq.
      inversion Hs as [? x' ? ? w2 H1|? ? y2 ? w2 H1]; subst.
      - cbn [section] in H1. destruct H1 as (E & ->). simplify_eq. by exists y, w.
      - destruct (IH _ _ eq_refl _ _ _ eq_refl Hx) as (y1 & w3 & Hr1 & Hr2). exists y1, w3. split; [|done].
        eapply rtc_l; [|exact Hr1]. done. }
    by eapply H.
  Qed.

  (** How far a call can get on its own. *)
  Lemma solo_stage c w y w1 :
    mover c -> wfC w -> rtc (fun p q => section ckn tk p.1 p.2 (Next q.1) q.2) (Todo c, w) (y, w1) ->
    (y = Todo c /\ w1 = w) \/ (section ckn tk (Todo c) w (Next y) w /\ moving y /\ (forall a, y <> Answered a) /\ w1 = w) \/
    exists a, y = Answered a /\ whole c w a w1.
  Proof.
    intros Hm Hw Hr. apply rtc_inv in Hr as [[= <- <-]|([y1 w2] & H1 & Hr)]; [by left|]. right. simpl in H1.
    destruct (moving_section (Todo c) w y1 w2 (c_obj w2) Hm H1) as (Hm1 & _ & _ & Hsame).
    assert (Hd : (exists a, y1 = Answered a) \/ forall a, y1 <> Answered a) by (destruct y1; eauto).
    destruct Hd as [[a ->]|Hna].
    - right. apply rtc_inv in Hr as [[= <- <-]|([y2 w3] & H2 & _)]; [|done]. exists a. split; [done|by left].
    - specialize (Hsame Hna) as ->. apply rtc_inv in Hr as [[= <- <-]|([y2 w3] & H2 & Hr)]; [by left|]. right. simpl in H2.
      assert (E : exists a, y2 = Answered a).
      { pose proof (explain_first ckn tk c w _ w _ Hw H1 eq_refl) as Hx.
        destruct y1 as [|? ? ?|?|b i|b]; try done; cbn [section] in H2.
        - destruct H2 as (E & _). unfold ret_obs in E. simplify_eq. eauto.
        - destruct (c_ali w !! b); destruct H2 as (E & _); unfold ret_obs in E; simplify_eq; eauto. }
      destruct E as [a ->]. apply rtc_inv in Hr as [[= <- <-]|([y3 w4] & H3 & _)]; [|done].
      exists a. split; [done|]. right. by exists y1.
  Qed.

  Lemma whole_put n d w ps : targets w n = Some ps -> None ∉ ps -> whole (CPut n d) w (Returned OUnit) (written d ps w).
  Proof.
    intros E Hno. right. exists (PutAt n d (Some ps)). cbn [section]. rewrite E. done.
  Qed.

  (** A Put and another call, unless the Put finds nothing while the other call has not
      taken effect. *)
  Lemma put_mover n d c w a a' w' :
    mover c -> wfC w -> rtc turn (Todo (CPut n d), Todo c, w) (Answered a, Answered a', w') ->
    ordered (CPut n d) c w a a' w' \/
    (targets w n = None /\ exists y, (y = Todo c \/ section ckn tk (Todo c) w (Next y) w /\ forall b, y <> Answered b) /\
      rtc turn (PutAt n d None, y, w) (Answered a, Answered a', w')).
  Proof.
    intros Hm Hw Hr. destruct (put_looks _ _ _ _ _ _ _ Hr ltac:(done)) as (y1 & w2 & Hr1 & Hr2).
    assert (Hq : quiet (Todo c)) by (by destruct c).
    destruct (targets w2 n) as [ps|] eqn:Et.
    - left. assert (Hmy : moving y1).
      { destruct (solo_stage _ _ _ _ Hm Hw Hr1) as [(-> & _)|[(_ & ? & _)|(? & -> & _)]]; done. }
      destruct (put_found _ _ _ _ _ _ _ _ Hmy Hr2) as (-> & Hno & Hrest).
      destruct (solo_stage _ _ _ _ Hm Hw Hr1) as [(-> & ->)|[(H1 & _ & Hna & ->)|(a1 & -> & Hwh)]].
      + left. exists (written d ps w). split; [by apply whole_put|]. apply whole_rest; [done|done|].
        by eapply whole_explained, whole_put.
      + left. exists (written d ps w). split; [by apply whole_put|]. apply whole_rest; [|done|by eapply whole_explained, whole_put].
        econstructor; [|exact Hrest].
        by destruct (moving_section (Todo c) w y1 w (put_objs d ps (c_obj w)) Hm H1) as (_ & _ & ? & _).
      + inversion Hrest as [|? ? ? ? ? ? H5]; subst; [|done]. right. exists w2. split; [done|by apply whole_put].
    - destruct (solo_stage _ _ _ _ Hm Hw Hr1) as [(-> & ->)|[(H1 & _ & Hna & ->)|(a1 & -> & Hwh)]].
      + right. split; [done|]. exists (Todo c). auto.
      + right. split; [done|]. exists y1. auto.
      + left. right. exists w2. apply turn_swap, turns_rest in Hr2 as [-> Hrest]. split; [done|].
        apply whole_rest; [|done|by eapply whole_explained]. econstructor; [|exact Hrest]. cbn [section]. by rewrite Et.
  Qed.

  (** Of two states, the second call takes its only section or the first one finishes. *)
  Lemma put_unused n d c w a a' w' :
    rtc turn (PutAt n d None, Todo c, w) (Answered a, Answered a', w') ->
    wfC w -> mover c -> (forall w1 y w2, section ckn tk (Todo c) w1 (Next y) w2 -> exists b, y = Answered b) ->
    targets w n = None ->
    ordered (CPut n d) c w a a' w' \/
    a = Returned OUnit /\ exists w1 p, section ckn tk (Todo c) w (Next (Answered a')) w1 /\ c_obj w1 = c_obj w /\ c_obj w !! p = None /\
      w' = MkC (<[n := p]> (c_idx w1)) (<[p := (n, [d])]> (c_obj w)) (c_ali w1).
  Proof.
    intros Hr Hw Hm Hone Et. apply rtc_inv in Hr as [?|([[x y] w1] & Hs & Hr)]; [done|].
    inversion Hs as [? x' ? ? ? H1|? ? y' ? ? H1]; subst.
    - cbn [section] in H1. destruct H1 as (p & Hp & E & ->). unfold ret_obs in E. simplify_eq.
      apply turns_rest in Hr as [-> Hrest]. left. left. eexists. split.
      + right. exists (PutAt n d None). cbn [section]. rewrite Et. split; [done|]. exists p. done.
      + apply whole_rest; [done|by destruct c|]. eapply (section_wf ckn tk (PutAt n d None) w); [done|]. cbn [section]. exists p. done.
    - destruct (Hone _ _ _ H1) as [b ->]. right.
      destruct (moving_section (Todo c) w _ w1 (c_obj w) Hm H1) as (_ & Eo & _ & _).
      apply turn_swap, turns_rest in Hr as [-> Hrest]. inversion Hrest as [|? ? ? w2 ? ? H2 H3]; subst.
      cbn [section] in H2. destruct H2 as (p & Hp & E & ->). unfold ret_obs in E. simplify_eq.
      inversion H3 as [|? ? ? ? ? ? H5]; subst; [|done]. split; [done|]. exists w1, p. rewrite Eo in *. done.
  Qed.

  Lemma unused w n : targets w n = None -> c_idx w !! n = None /\ c_ali w !! n = None.
  Proof. unfold targets. destruct (c_idx w !! n); [done|]. destruct (c_ali w !! n); done. Qed.

  Lemma put_alias n d i w a a' w' :
    wfC w -> rtc turn (Todo (CPut n d), Todo (CAlias n i), w) (Answered a, Answered a', w') ->
    ordered (CPut n d) (CAlias n i) w a a' w'.
  Proof.
    intros Hw Hr. destruct (put_mover n d (CAlias n i) w a a' w' I Hw Hr) as [|(Ht & y & Hy & Hr2)]; [done|].
    assert (Hone : forall w1 y w2, section ckn tk (Todo (CAlias n i)) w1 (Next y) w2 -> exists b, y = Answered b).
    { intros w1 y1 w2 Hs. cbn [section] in Hs. case_decide; destruct Hs as [E _]; unfold ret_obs in E; simplify_eq; eauto. }
    assert (y = Todo (CAlias n i)) as ->.
    { destruct Hy as [->|[Hy Hna]]; [done|]. destruct (Hone _ _ _ Hy) as [b ->]. by destruct (Hna b). }
    destruct (unused _ _ Ht) as [Hn Ha].
    destruct (put_unused _ _ _ _ _ _ _ Hr2 Hw I Hone Ht) as [|(-> & w1 & p & Hs & Eo & Hp & ->)]; [done|].
    pose proof Hs as Hs'. cbn [section] in Hs. case_decide as Hd; destruct Hs as [E ->]; unfold ret_obs in E; simplify_eq.
    - right. exists w. split; [by left|]. right. exists (PutAt n d None). cbn [section]. rewrite Ht. split; [done|]. by exists p.
    - left. exists (MkC (<[n := p]> (c_idx w)) (<[p := (n, [d])]> (c_obj w)) (c_ali w)). split.
      + right. exists (PutAt n d None). cbn [section]. rewrite Ht. split; [done|]. by exists p.
      + left. cbn [section c_idx c_obj c_ali]. rewrite decide_False; [done|]. intros [H|H]; apply Hd; [|by right].
        left. destruct (decide (i = n)) as [->|Hne]; [done|]. by rewrite lookup_insert_ne in H.
  Qed.

  (** A Put under an unused name, and a Rename to it. *)
  Lemma put_rename n d old w a a' w' :
    wfC w -> rtc turn (Todo (CPut n d), Todo (CRename old n), w) (Answered a, Answered a', w') ->
    ordered (CPut n d) (CRename old n) w a a' w' \/
    (targets w n = None /\ a = Returned OUnit /\ a' = Returned (OBool true) /\ exists p q,
      c_idx w !! old = Some q /\ c_obj w !! p = None /\
      w' = MkC (<[n := p]> (delete old (<[n := q]> (c_idx w)))) (<[p := (n, [d])]> (c_obj w)) (map (renamed old n) <$> c_ali w)).
  Proof.
    intros Hw Hr. destruct (put_mover n d (CRename old n) w a a' w' I Hw Hr) as [|(Ht & y & Hy & Hr2)]; [by left|].
    assert (Hone : forall w1 y w2, section ckn tk (Todo (CRename old n)) w1 (Next y) w2 -> exists b, y = Answered b).
    { intros w1 y1 w2 Hs. cbn [section] in Hs. destruct (c_idx w1 !! old); destruct Hs as [E _]; unfold ret_obs in E; simplify_eq; eauto. }
    assert (y = Todo (CRename old n)) as ->.
    { destruct Hy as [->|[Hy Hna]]; [done|]. destruct (Hone _ _ _ Hy) as [b ->]. by destruct (Hna b). }
    destruct (put_unused _ _ _ _ _ _ _ Hr2 Hw I Hone Ht) as [|(-> & w1 & p & Hs & Eo & Hp & ->)]; [by left|].
    pose proof Hs as Hs'. cbn [section] in Hs. destruct (c_idx w !! old) as [q|] eqn:Eq; destruct Hs as [E ->]; unfold ret_obs in E; simplify_eq.
    - right. split_and!; try done. exists p, q. done.
    - left. right. exists w. split; [by left|]. right. exists (PutAt n d None). cbn [section]. rewrite Ht. split; [done|]. by exists p.
  Qed.

  (** Two calls that change nothing and always give the same answer. *)
  Lemma still c c' w b b' a a' w' :
    (forall y w1, section ckn tk (Todo c) w (Next y) w1 -> y = Answered b /\ w1 = w) ->
    (forall y w1, section ckn tk (Todo c') w (Next y) w1 -> y = Answered b' /\ w1 = w) ->
    rtc turn (Todo c, Todo c', w) (Answered a, Answered a', w') -> ordered c c' w a a' w'.
  Proof.
    intros H1 H2 Hr. apply rtc_inv in Hr as [?|([[x y] w1] & Hs & Hr)]; [done|].
    inversion Hs as [? x' ? ? ? Hx|? ? y' ? ? Hx]; subst.
    - destruct (H1 _ _ Hx) as [-> ->]. apply turns_rest in Hr as [-> Hrest]. inversion Hrest as [|? ? ? w2 ? ? Hy Hz]; subst.
      destruct (H2 _ _ Hy) as [-> ->]. inversion Hz as [|? ? ? ? ? ? H5]; subst; [|done]. left. eexists. split; left; eassumption.
    - destruct (H2 _ _ Hx) as [-> ->]. apply turn_swap, turns_rest in Hr as [-> Hrest]. inversion Hrest as [|? ? ? w2 ? ? Hy Hz]; subst.
      destruct (H1 _ _ Hy) as [-> ->]. inversion Hz as [|? ? ? ? ? ? H5]; subst; [|done]. left. eexists. split; left; eassumption.
  Qed.

  Lemma drop_missing n w y w1 :
    c_idx w !! n = None -> section ckn tk (Todo (CDrop n)) w (Next y) w1 -> y = Answered (Returned (OBool false)) /\ w1 = w.
  Proof. intros Hn Hs. cbn [section] in Hs. rewrite decide_True in Hs by done. destruct Hs as [E ->]. unfold ret_obs in E. by simplify_eq. Qed.
  Lemma rename_missing n m w y w1 :
    c_idx w !! n = None -> section ckn tk (Todo (CRename n m)) w (Next y) w1 -> y = Answered (Returned (OBool false)) /\ w1 = w.
  Proof. intros Hn Hs. cbn [section] in Hs. rewrite Hn in Hs. destruct Hs as [E ->]. unfold ret_obs in E. by simplify_eq. Qed.

  (** UnAlias of an index that is dropped. *)
  Lemma unalias_drop_late a0 i w a a' w' :
    wfC w -> i <> ""%string -> is_Some (c_idx w !! i) -> rtc turn (UnAliasAt a0 i, DropAt i, w) (Answered a, Answered a', w') ->
    ordered (CUnAlias a0 i) (CDrop i) w a a' w'.
  Proof.
    intros Hw Hi Hn Hr. assert (Hn' : c_idx w !! i <> None) by (by apply not_eq_None_Some).
    assert (HU : section ckn tk (Todo (CUnAlias a0 i)) w (Next (UnAliasAt a0 i)) w).
    { cbn [section]. by rewrite !decide_False by done. }
    apply rtc_inv in Hr as [?|([[x y] w1] & Hs & Hr)]; [done|].
    inversion Hs as [? x' ? ? ? Hx|? ? y' ? ? Hx]; subst.
    - left. exists w1.
      assert (exists o, x = Answered o /\ c_idx w1 = c_idx w) as (o & -> & Ei).
      { cbn [section] in Hx. destruct (c_ali w !! a0); destruct Hx as [E ->]; unfold ret_obs in E; simplify_eq; eauto. }
      apply turns_rest in Hr as [-> Hrest]. split; [right; by exists (UnAliasAt a0 i)|].
      apply whole_rest; [|done|by eapply section_wf]. econstructor; [|exact Hrest]. cbn [section]. rewrite Ei. by rewrite decide_False by done.
    - cbn [section] in Hx. destruct Hx as [E ->]. unfold ret_obs in E. simplify_eq.
      apply turn_swap, turns_rest in Hr as [-> Hrest]. inversion Hrest as [|? x1 ? w2 ? ? Hy Hz]; subst.
      cbn [section c_idx c_obj c_ali] in Hy. rewrite lookup_omap in Hy.
      destruct (c_ali w !! a0) as [l|] eqn:Ea; cbn [mbind option_bind] in Hy.
      + destruct (drop_from i l) as [l'|] eqn:El; destruct Hy as [E ->]; unfold ret_obs in E; simplify_eq;
          (inversion Hz as [|? ? ? ? ? ? H5]; subst; [|done]).
        * left. exists (MkC (c_idx w) (c_obj w) (<[a0 := without i l]> (c_ali w))). split.
          -- right. exists (UnAliasAt a0 i). split; [done|]. cbn [section]. by rewrite Ea.
          -- right. exists (DropAt i). cbn [section c_idx c_obj c_ali]. rewrite decide_False by done. split_and!; try done. f_equal.
             apply map_eq. intros m. rewrite lookup_omap. destruct (decide (m = a0)) as [->|Hne].
             ++ rewrite !lookup_insert. cbn. unfold drop_from in *. destruct (without i l) as [|z l2] eqn:Ew; [done|]. simplify_eq.
                assert (without i (without i l) = without i l) as Eww.
                { unfold without. rewrite list_filter_filter. apply list_filter_iff. tauto. }
                rewrite <- Ew, Eww, Ew. done.
             ++ rewrite !lookup_insert_ne by done. by rewrite lookup_omap.
        * right. eexists. split; [right; exists (DropAt i); split; [cbn [section]; by rewrite decide_False by done|by cbn [section]]|].
          left. cbn [section c_idx c_obj c_ali]. rewrite decide_False by done. rewrite decide_True by (by rewrite lookup_delete). done.
      + destruct Hy as [E ->]. unfold ret_obs in E; simplify_eq. inversion Hz as [|? ? ? ? ? ? H5]; subst; [|done].
        right. eexists. split; [right; exists (DropAt i); split; [cbn [section]; by rewrite decide_False by done|by cbn [section]]|].
        left. cbn [section c_idx c_obj c_ali]. rewrite decide_False by done. rewrite decide_True by (by rewrite lookup_delete). done.
  Qed.

  Lemma unalias_drop a0 i w a a' w' :
    wfC w -> rtc turn (Todo (CUnAlias a0 i), Todo (CDrop i), w) (Answered a, Answered a', w') ->
    ordered (CUnAlias a0 i) (CDrop i) w a a' w'.
  Proof.
    intros Hw Hr. destruct (c_idx w !! i) as [p|] eqn:Hn.
    2:{ destruct (decide (i = ""%string)) as [->|Hi].
        - (* one section, and a Drop that fails *)
          apply rtc_inv in Hr as [?|([[x y] w1] & Hs & Hr)]; [done|].
          inversion Hs as [? x' ? ? ? Hx|? ? y' ? ? Hx]; subst.
          + assert (exists o, x = Answered o) as [o ->].
            { cbn [section] in Hx. rewrite decide_True in Hx by done. destruct Hx as [E _]. unfold ret_obs in E. simplify_eq. eauto. }
            apply turns_rest in Hr as [-> Hrest]. left. exists w1. split; [by left|]. apply whole_rest; [done|done|by eapply section_wf].
          + destruct (drop_missing _ _ _ _ Hn Hx) as [-> ->]. apply turn_swap, turns_rest in Hr as [-> Hrest].
            right. exists w. split; [by left|]. by apply whole_rest.
        - eapply (still _ _ _ (Returned (OBool false)) (Returned (OBool false))); [| |exact Hr].
          + intros y w1 Hs. cbn [section] in Hs. rewrite decide_False in Hs by done. rewrite decide_True in Hs by done.
            destruct Hs as [E ->]. unfold ret_obs in E. by simplify_eq.
          + intros y w1. by apply drop_missing. }
    assert (Hsome : is_Some (c_idx w !! i)) by eauto.
    assert (HD : forall w1, c_idx w1 = c_idx w -> section ckn tk (Todo (CDrop i)) w1 (Next (DropAt i)) w1).
    { intros w1 E. cbn [section]. rewrite E, Hn. by rewrite decide_False by done. }
    assert (HD' : forall y w1, section ckn tk (Todo (CDrop i)) w (Next y) w1 -> y = DropAt i /\ w1 = w).
    { intros y w1 Hs. cbn [section] in Hs. rewrite Hn in Hs. rewrite decide_False in Hs by done. destruct Hs as [E ->]. by simplify_eq. }
    destruct (decide (i = ""%string)) as [Hi|Hi].
    - assert (HU : forall w1 x w2, section ckn tk (Todo (CUnAlias a0 i)) w1 (Next x) w2 -> (exists o, x = Answered o) /\ c_idx w2 = c_idx w1).
      { intros w1 x w2 Hs. cbn [section] in Hs. rewrite decide_True in Hs by done. destruct Hs as [E ->]. unfold ret_obs in E. simplify_eq. eauto. }
      assert (Hfirst : forall y, (y = Todo (CDrop i) \/ y = DropAt i) -> forall x w1, section ckn tk (Todo (CUnAlias a0 i)) w (Next x) w1 ->
        rtc turn (x, y, w1) (Answered a, Answered a', w') -> ordered (CUnAlias a0 i) (CDrop i) w a a' w').
      { intros y Hy x w1 Hs Hr1. destruct (HU _ _ _ Hs) as [[o ->] Ei]. apply turns_rest in Hr1 as [-> Hrest]. left. exists w1.
        split; [by left|]. apply whole_rest; [|done|by eapply section_wf]. destruct Hy as [->| ->]; [done|]. econstructor; [by apply HD|done]. }
      apply rtc_inv in Hr as [?|([[x y] w1] & Hs & Hr)]; [done|].
      inversion Hs as [? x' ? ? ? Hx|? ? y' ? ? Hx]; subst; [eapply Hfirst; [by left|done|done]|].
      destruct (HD' _ _ Hx) as [-> ->]. clear Hs Hx.
      apply rtc_inv in Hr as [?|([[x y] w2] & Hs & Hr)]; [done|].
      inversion Hs as [? x' ? ? ? Hx|? ? y' ? ? Hx]; subst; [eapply Hfirst; [by right|done|done]|].
      pose proof Hx as Hx'. cbn [section] in Hx. destruct Hx as [E Ew]. unfold ret_obs in E. simplify_eq.
      apply turn_swap, turns_rest in Hr as [-> Hrest]. right. eexists. split; [right; exists (DropAt ""); split; [by apply HD|exact Hx']|].
      apply whole_rest; [done|done|by eapply section_wf].
    - assert (HU : section ckn tk (Todo (CUnAlias a0 i)) w (Next (UnAliasAt a0 i)) w).
      { cbn [section]. rewrite Hn. by rewrite !decide_False by done. }
      assert (HU' : forall y w1, section ckn tk (Todo (CUnAlias a0 i)) w (Next y) w1 -> y = UnAliasAt a0 i /\ w1 = w).
      { intros y w1 Hs. cbn [section] in Hs. rewrite Hn in Hs. rewrite !decide_False in Hs by done. destruct Hs as [E ->]. by simplify_eq. }
      apply rtc_inv in Hr as [?|([[x y] w1] & Hs & Hr)]; [done|].
      inversion Hs as [? x' ? ? ? Hx|? ? y' ? ? Hx]; subst.
      + destruct (HU' _ _ Hx) as [-> ->]. clear Hs Hx.
        apply rtc_inv in Hr as [?|([[x y] w1] & Hs & Hr)]; [done|].
        inversion Hs as [? x' ? ? ? Hx|? ? y' ? ? Hx]; subst.
        * assert (exists o, x = Answered o /\ c_idx w1 = c_idx w) as (o & -> & Ei).
          { cbn [section] in Hx. destruct (c_ali w !! a0); destruct Hx as [E ->]; unfold ret_obs in E; simplify_eq; eauto. }
          apply turns_rest in Hr as [-> Hrest]. left. exists w1. split; [right; by exists (UnAliasAt a0 i)|].
          apply whole_rest; [done|done|by eapply section_wf].
        * destruct (HD' _ _ Hx) as [-> ->]. by apply unalias_drop_late.
      + destruct (HD' _ _ Hx) as [-> ->]. clear Hs Hx.
        apply rtc_inv in Hr as [?|([[x y] w1] & Hs & Hr)]; [done|].
        inversion Hs as [? x' ? ? ? Hx|? ? y' ? ? Hx]; subst.
        * destruct (HU' _ _ Hx) as [-> ->]. by apply unalias_drop_late.
        * pose proof Hx as Hx'. cbn [section] in Hx. destruct Hx as [E Ew]. unfold ret_obs in E. simplify_eq.
          apply turn_swap, turns_rest in Hr as [-> Hrest]. right. eexists. split; [right; exists (DropAt i); split; [by apply HD|exact Hx']|].
          apply whole_rest; [done|done|by eapply section_wf].
  Qed.
End pair.
