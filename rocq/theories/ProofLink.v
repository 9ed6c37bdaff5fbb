(** * Linking clients at once to the machine with atomic sections. *)
From Coq Require Import Lia.
From stdpp Require Import list gmap.
From Verif Require Import Entities Search Repo Sem SpecRepo SpecConc ProofMachine SpecClient.
Open Scope nat_scope.

(** ** Steps of the machine in which one thread takes part *)
Section steps.
  Context (ckn : bool) (tk : Tokenizer).

  Inductive mine (n : nat) : list cthr * cview -> list cthr * cview -> Prop :=
  | mine_in l w x b w' :
      l !! n = Some (Between x) -> section ckn tk x w b w' -> mine n (l, w) (<[n := Inside b]> l, w')
  | mine_out l w b x : l !! n = Some (Inside b) -> leave b x -> mine n (l, w) (<[n := Between x]> l, w).

  (** How far a call is. *)
  Definition progress (x : stage) : nat :=
    match x with Todo _ => 0 | Answered _ => 4 | _ => 2 end.
  Definition how_far (t : cthr) : nat :=
    match t with
    | Between x => S (progress x)
    | Inside (Next x) => progress x
    | Inside (Gather _) => 4
    end.

  Lemma section_further x w b w' : section ckn tk x w b w' -> how_far (Between x) < how_far (Inside b).
  Proof.
    intros Hs. destruct x as [c|n d [ps|]|n|a i|a]; cbn [section] in Hs.
    - destruct c; repeat case_decide; try (destruct Hs as (? & _ & -> & _); simpl; lia); try (destruct Hs as (-> & _); simpl; lia).
      + destruct Hs as (_ & Hs). destruct (targets w index) as [[|op [|op' r]]|]; try (subst b; simpl; lia).
        destruct (search_obj _ _ _ _ _ _); subst b; simpl; lia.
      + destruct (c_idx w !! old); destruct Hs as (-> & _); simpl; lia.
    - destruct Hs as (_ & -> & _). simpl. lia.
    - destruct Hs as (p & _ & -> & _). simpl. lia.
    - destruct Hs as (-> & _). simpl. lia.
    - destruct (c_ali w !! a); destruct Hs as (-> & _); simpl; lia.
    - done.
  Qed.

  Definition far_at (l : list cthr) (n : nat) : nat := match l !! n with Some t => how_far t | None => 0 end.

  Lemma cstep_far l w l' w' :
    cstep ckn tk (APool l w) (APool l' w') ->
    exists n, mine n (l, w) (l', w') /\ far_at l n < far_at l' n /\ forall j, j <> n -> l' !! j = l !! j.
  Proof.
    intros Hs. inversion Hs as [? ? n x b ? Hn He|? ? n b x Hn He| |]; simplify_eq; exists n.
    - split_and!; [by econstructor| |by intros j Hj; rewrite list_lookup_insert_ne].
      unfold far_at. rewrite Hn, list_lookup_insert by (by eapply lookup_lt_Some). by eapply section_further.
    - split_and!; [by econstructor| |by intros j Hj; rewrite list_lookup_insert_ne].
      unfold far_at. rewrite Hn, list_lookup_insert by (by eapply lookup_lt_Some).
      destruct b as [x'|outs]; simpl in He; [subst x; simpl; lia|]. destruct He as (bl & bl' & _ & _ & ->). simpl. lia.
  Qed.

  Lemma csteps_far l w l' w' n :
    rtc (cstep ckn tk) (APool l w) (APool l' w') -> far_at l n <= far_at l' n.
  Proof.
    intros Hr.
    refine (machine_inv ckn tk (fun l1 _ => far_at l n <= far_at l1 n) l w l' w' _ _ Hr); [|done].
    intros l1 w1 l2 w2 H1 (m & _ & H2 & H3)%cstep_far. destruct (decide (n = m)) as [->|Hne]; [lia|].
    unfold far_at in *. by rewrite H3.
  Qed.

  Lemma csteps_mine n l w l' w' :
    rtc (cstep ckn tk) (APool l w) (APool l' w') -> (forall j, j <> n -> l' !! j = l !! j) ->
    rtc (mine n) (l, w) (l', w').
  Proof.
    intros Hr. remember (APool l w) as p eqn:Ep. remember (APool l' w') as p' eqn:Ep'.
    revert l w Ep. induction Hr as [p|p p1 p2 Hs Hr IH]; intros l w ->; [intros _; simplify_eq; apply rtc_refl|]. subst p2.
    destruct p1 as [l1 w1|].
    2: { exfalso. inversion Hr; simplify_eq. rename select (astep _ _ _ _ ACrashed _) into Hb. inversion Hb. }
    destruct (cstep_far _ _ _ _ Hs) as (m & Hm & Hlt & Hoff). intros Hj.
    assert (m = n) as ->.
    { destruct (decide (m = n)) as [|Hne]; [done|exfalso]. pose proof (csteps_far _ _ _ _ m Hr) as Hle.
      unfold far_at in *. rewrite (Hj m Hne) in Hle. lia. }
    eapply rtc_l; [exact Hm|]. apply IH; [done..|]. intros j Hne. by rewrite Hj, <- Hoff.
  Qed.
End steps.

(** ** The clients and the code *)
Section world.
  Context (ckn : bool) (tk : Tokenizer) (cs : list call) (rows : bool)
    (R : list thr -> repo -> list cthr -> cview -> Prop) (HS : simulation ckn tk rows R).
  (** [O i c]: client [i] may make the call [c]; [J l f m w]: what is kept while the
      clients are at [l], the call of client [i] has the number [f i], and the machine
      is at [m] and [w]. *)
  Context (O : nat -> call -> Prop) (J : list cstate -> (nat -> nat) -> list cthr -> cview -> Prop).
  Context (J_inj : forall l f m w i j c t k c' t' k', J l f m w ->
    l !! i = Some (Busy c t k) -> l !! j = Some (Busy c' t' k') -> f i = f j -> i = j).
  Context (J_ask : forall l f m w i c t k n, J l f m w -> l !! i = Some (Idle (Ask c k)) -> O i c ->
    m !! n = Some (Between (Todo c)) -> (forall j c' t' k', l !! j = Some (Busy c' t' k') -> f j <> n) ->
    J (<[i := Busy c t k]> l) (fun j => if decide (j = i) then n else f j) m w).
  Context (J_mine : forall l f m w m' w' i c t k, J l f m w -> l !! i = Some (Busy c t k) ->
    mine ckn tk (f i) (m, w) (m', w') -> J l f m' w').
  Context (J_move : forall l f m w i c t k t', J l f m w -> l !! i = Some (Busy c t k) ->
    J (<[i := Busy c t' k]> l) f m w).
  Context (J_back : forall l f m w i c t k a a', J l f m w -> l !! i = Some (Busy c t k) -> c ∈ cs ->
    m !! f i = Some (Between (Answered a)) -> a' = a \/ (rows = false /\ exists l, a = Returned (ORows l)) ->
    J (<[i := Idle (k a')]> l) f m w).

  Definition allowed_by (i : nat) (x : cstate) : Prop :=
    match x with Idle p => makes_only (O i) p | Busy c _ k => O i c /\ forall a, makes_only (O i) (k a) end.

  Record linked (l : list cstate) (s : repo) (cs1 : list call) (ts : list thr) (m : list cthr) (w : cview)
    (f : nat -> nat) : Prop := {
    ln_R : R ts s m w;
    ln_joint : J l f m w;
    ln_obey : forall i x, l !! i = Some x -> allowed_by i x;
    ln_busy : forall i c t k, l !! i = Some (Busy c t k) -> f i < length cs1 /\ cs !! f i = Some c /\ ts !! f i = Some t;
    ln_todo : forall n c, length cs1 <= n -> cs !! n = Some c ->
      ts !! n = Some (TRun (prog_of c)) /\ m !! n = Some (Between (Todo c));
    ln_rest : forall n t, n < length cs1 -> ts !! n = Some t -> finished t \/ exists i c k, l !! i = Some (Busy c t k) /\ f i = n }.

  Lemma linked_start s w ps :
    R (start cs) s (cstart cs) w -> J (Idle <$> ps) (fun _ => 0) (cstart cs) w ->
    (forall i p, ps !! i = Some p -> makes_only (O i) p) ->
    linked (Idle <$> ps) s [] (start cs) (cstart cs) w (fun _ => 0).
  Proof.
    intros HR HJ Hob.
    split; [done|done|..].
    - intros i x Hi. rewrite list_lookup_fmap in Hi. destruct (ps !! i) as [p|] eqn:Ep; [|done]. simplify_eq/=. by apply Hob.
    - intros i c t k Hi. rewrite list_lookup_fmap in Hi. by destruct (ps !! i).
    - intros n c _ Hc. unfold start, cstart. by rewrite !list_lookup_fmap, Hc.
    - intros n t Hn. simpl in Hn. lia.
  Qed.

  Lemma linked_ask l s cs1 ts m w f i c k :
    linked l s cs1 ts m w f -> l !! i = Some (Idle (Ask c k)) -> cs1 ++ [c] `prefix_of` cs ->
    linked (<[i := Busy c (TRun (prog_of c)) k]> l) s (cs1 ++ [c]) ts m w
      (fun j => if decide (j = i) then length cs1 else f j).
  Proof.
    intros [HR HJ Hob Hbusy Htodo Hrest] Hi Hpre.
    assert (Hn : cs !! length cs1 = Some c).
    { destruct Hpre as [r ->]. rewrite <- app_assoc. by apply list_lookup_middle. }
    destruct (Htodo (length cs1) c) as [Ht Hm]; [done..|].
    assert (Hlt := lookup_lt_Some _ _ _ Hi). destruct (Hob _ _ Hi) as [Ho1 Ho2].
    split.
    - done.
    - apply J_ask; [done..|]. intros j c' t' k' Hj. destruct (Hbusy _ _ _ _ Hj). lia.
    - intros j x Hj. apply list_lookup_insert_Some in Hj as [(<- & <- & _)|[Hne Hj]]; [done|by apply Hob].
    - intros j c1 t1 k1 Hj. rewrite app_length. simpl. apply list_lookup_insert_Some in Hj as [(<- & E & _)|[Hne Hj]].
      + simplify_eq. rewrite decide_True by done. split; [lia|done].
      + rewrite decide_False by congruence. destruct (Hbusy _ _ _ _ Hj) as (? & ? & ?). split_and!; [lia|done..].
    - intros n c1. rewrite app_length. simpl. intros Hle. apply Htodo. lia.
    - intros n t. rewrite app_length. simpl. intros Hle Htn. destruct (decide (n = length cs1)) as [->|Hne].
      + simplify_eq. right. exists i, c, k. rewrite decide_True by done. split; [by apply list_lookup_insert|done].
      + destruct (Hrest n t) as [?|(j & c' & k' & Hj & <-)]; [lia|done|by left|right]. exists j, c', k'.
        assert (j <> i) by (intros ->; simplify_eq). rewrite list_lookup_insert_ne, decide_False by congruence. done.
  Qed.

  Lemma J_steps l f m w m' w' i c t k :
    J l f m w -> l !! i = Some (Busy c t k) -> rtc (mine ckn tk (f i)) (m, w) (m', w') -> J l f m' w'.
  Proof.
    intros HJ Hi Hr.
    refine (rtc_ind_r (R := mine ckn tk (f i)) (fun y => J l f y.1 y.2) (m, w) HJ _ (m', w') Hr).
    intros [m1 w1] [m2 w2] _ Hs H. by eapply J_mine.
  Qed.

  Lemma linked_run l s cs1 ts m w f i c t k t' s' :
    linked l s cs1 ts m w f -> l !! i = Some (Busy c t k) -> tstep s t (TNext t' s') ->
    exists ts' m' w', linked (<[i := Busy c t' k]> l) s' cs1 ts' m' w' f.
  Proof.
    intros [HR HJ Hob Hbusy Htodo Hrest] Hi Hs.
    destruct (Hbusy _ _ _ _ Hi) as (Hlt & Hc & Ht).
    destruct (sim_next _ _ _ _ HS _ _ _ _ _ _ _ _ HR Ht Hs) as (m' & w' & HR' & Hr & Hoff).
    pose proof (J_steps _ _ _ _ _ _ _ _ _ _ HJ Hi (csteps_mine _ _ _ _ _ _ _ Hr Hoff)) as HJ'.
    assert (Hli := lookup_lt_Some _ _ _ Hi). assert (Hlf := lookup_lt_Some _ _ _ Ht).
    exists (<[f i := t']> ts), m', w'. split.
    - done.
    - by eapply J_move.
    - intros j x Hj. apply list_lookup_insert_Some in Hj as [(<- & <- & _)|[Hne Hj]]; [apply (Hob _ _ Hi)|by apply Hob].
    - intros j c1 t1 k1 Hj. apply list_lookup_insert_Some in Hj as [(<- & E & _)|[Hne Hj]].
      + simplify_eq. split_and!; [done..|]. by apply list_lookup_insert.
      + destruct (Hbusy _ _ _ _ Hj) as (? & ? & ?). split_and!; [done..|]. rewrite list_lookup_insert_ne; [done|].
        intros E. apply Hne. by eapply J_inj.
    - intros n c1 Hle Hc1. destruct (Htodo n c1 Hle Hc1) as [? ?]. rewrite list_lookup_insert_ne by lia.
      split; [done|]. rewrite Hoff; [done|lia].
    - intros n t1 Hle Htn. apply list_lookup_insert_Some in Htn as [(<- & <- & _)|[Hne Htn]].
      + right. exists i, c, k. split; [by apply list_lookup_insert|done].
      + destruct (Hrest n t1) as [?|(j & c' & k' & Hj & <-)]; [done..|by left|right]. exists j, c', k'. split; [|done].
        rewrite list_lookup_insert_ne; [done|]. congruence.
  Qed.

  Lemma linked_back l s cs1 ts m w f i c p k :
    linked l s cs1 ts m w f -> l !! i = Some (Busy c (TRun p) k) -> finished (TRun p) ->
    linked (<[i := Idle (k (match p with Ret r => Returned (see s r) | _ => Threw end))]> l) s cs1 ts m w f.
  Proof.
    intros [HR HJ Hob Hbusy Htodo Hrest] Hi Hf.
    destruct (Hbusy _ _ _ _ Hi) as (Hlt & Hc & Ht).
    destruct (sim_agrees _ _ _ _ HS _ _ _ _ HR) as [A1 A2 A3 A4 A5].
    destruct (A2 _ _ Ht Hf) as (a & Hma & Han).
    assert (Hli := lookup_lt_Some _ _ _ Hi).
    split.
    - done.
    - eapply (J_back l f m w i c (TRun p) k a); [done|done|by eapply elem_of_list_lookup_2|done|].
      destruct p; try done; [|left; by destruct a].
      destruct r; try (left; destruct a as [o|]; [|done]; cbn [answers] in Han; by rewrite <- (Han s)).
      cbn [answers] in Han. destruct a as [[]|]; try done. destruct rows; [left|right; eauto].
      specialize (A5 eq_refl _ _ Ht). rewrite Hma in A5. by simplify_eq.
    - intros j x Hj. apply list_lookup_insert_Some in Hj as [(<- & <- & _)|[Hne Hj]]; [apply (Hob _ _ Hi)|by apply Hob].
    - intros j c1 t1 k1 Hj. apply list_lookup_insert_Some in Hj as [(<- & E & _)|[Hne Hj]]; [done|]. exact (Hbusy _ _ _ _ Hj).
    - done.
    - intros n t1 Hle Htn. destruct (Hrest n t1) as [?|(j & c' & k' & Hj & <-)]; [done..|by left|].
      destruct (decide (j = i)) as [->|Hne]; [left; by simplify_eq|]. right. exists j, c', k'.
      by rewrite list_lookup_insert_ne by congruence.
  Qed.

  Lemma linked_reach s w0 ps l s' cs1 :
    R (start cs) s (cstart cs) w0 -> J (Idle <$> ps) (fun _ => 0) (cstart cs) w0 ->
    (forall i p, ps !! i = Some p -> makes_only (O i) p) ->
    rtc wstep (Live (Idle <$> ps) s []) (Live l s' cs1) -> cs1 `prefix_of` cs ->
    exists ts m w f, linked l s' cs1 ts m w f.
  Proof.
    intros HR HJ Hob Hr.
    refine (rtc_ind_r (R := wstep) (fun w => match w with
      | Live l s' cs1 => cs1 `prefix_of` cs -> exists ts m w f, linked l s' cs1 ts m w f
      | Dead => True end) (Live (Idle <$> ps) s []) _ _ _ Hr).
    - intros _. eexists _, _, _, _. by eapply linked_start.
    - intros y z _ Hs IH. inversion Hs as [l1 s1 cs2 i c k Hi|l1 s1 cs2 i c t k t' s2 Hi Ht|l1 s1 cs2 i c r k Hi|l1 s1 cs2 i c k Hi|]; subst; try done; intros Hpre.
      + destruct IH as (ts & m & w & f & HI); [etrans; [by eexists|done]|].
        pose proof (linked_ask _ _ _ _ _ _ _ _ _ _ HI Hi Hpre). eauto.
      + destruct (IH Hpre) as (ts & m & w & f & HI).
        destruct (linked_run _ _ _ _ _ _ _ _ _ _ _ _ _ HI Hi Ht) as (? & ? & ? & ?). eauto.
      + destruct (IH Hpre) as (ts & m & w & f & HI). exists ts, m, w, f. exact (linked_back _ _ _ _ _ _ _ _ _ _ _ HI Hi I).
      + destruct (IH Hpre) as (ts & m & w & f & HI). exists ts, m, w, f. exact (linked_back _ _ _ _ _ _ _ _ _ _ _ HI Hi I).
  Qed.

  (** What the repo shows when it is at rest. *)
  Lemma linked_shows l s ts m w f :
    linked l s cs ts m w f -> length ts = length cs -> at_rest s \/ Forall idle l -> shows_indices tk s w /\ shows_aliases s w.
  Proof.
    intros [HR HJ Hob Hbusy Htodo Hrest] Hlen Hx.
    destruct (sim_agrees _ _ _ _ HS _ _ _ _ HR) as [A1 A2 A3 A4 A5].
    assert (Hx' : at_rest s \/ Forall finished ts).
    { destruct Hx as [?|Hid]; [by left|right]. apply Forall_lookup. intros n t Hn.
      destruct (Hrest n t) as [?|(i & c & k & Hi & _)]; [rewrite <- Hlen; by eapply lookup_lt_Some|done|done|].
      by destruct (Forall_lookup_1 _ _ _ _ Hid Hi). }
    split; [apply A3|apply A4; done]. destruct Hx' as [[? _]|?]; [by left|by right].
  Qed.
End world.
