(** * Property C87: programs with names of their own. *)
From Coq Require Import Lia.
From stdpp Require Import gmap list.
From Verif Require Import Entities Search SpecSearch Properties_Search Repo Sem RepoWp SpecRepo
  ProofRepo ProofTotal ProofReach Properties_Repo SpecConc Locks Race ProofRace Reduce ProofConc ProofSim Run
  Properties_Conc SpecLin ProofMachine ProofLin Properties_Lin Serial Properties_Clash SpecClient Properties_Client
  SpecOwn ProofLink ProofOwn.
Open Scope nat_scope.
Open Scope string_scope.
Open Scope list_scope.

Lemma orderly_separate cs : orderly cs -> separate cs.
Proof. intros [H|[H _]]; [by left|by right]. Qed.

(** The simulation of C57, for the calls [cs]. *)
Lemma simulation_of cs ckn tk s w :
  separate cs -> shC false ckn tk (dat s) w -> r_imu s = rw_free -> r_amu s = rw_free ->
  exists rows R, simulation ckn tk rows R /\ R (start cs) s (cstart cs) w /\
    (forall ts s l w, R ts s l w -> length ts = length cs) /\ (without_rename cs -> rows = true).
Proof.
  intros Hsep Hsh E1 E2. destruct (separate_mode cs Hsep) as (md & Hmd & Hal & Hrow).
  pose proof (simR_simulation md Hmd false ckn tk cs ltac:(done)) as HS.
  exists (bool_decide (md = NoRename)), (fun ts s l w => simR md false ckn tk cs ts s l w /\ length ts = length cs).
  split_and!.
  - split.
    + intros ts s1 l1 w1 i t t' s2 [HR Hl] Hi Hs. destruct (sim_next _ _ _ _ HS _ _ _ _ _ _ _ _ HR Hi Hs) as (l' & w' & ? & ? & ?).
      exists l', w'. split; [split; [done|by rewrite insert_length]|split; done].
    + intros ts s1 l1 w1 i t [HR _]. exact (sim_dies _ _ _ _ HS _ _ _ _ i t HR).
    + intros ts s1 l1 w1 [HR _]. exact (sim_agrees _ _ _ _ HS _ _ _ _ HR).
  - by apply simR_start.
  - unfold start. by rewrite fmap_length.
  - by intros ts s1 l1 w1 [_ ?].
  - intros H. apply bool_decide_eq_true. by apply Hrow.
Qed.

(** The states of clients at once, linked to clients that take turns. *)
Lemma linked_clients ckn tk own s v ps l s' cs :
  tracks ckn tk s v -> unblocked v -> arranged own v -> obedient own ps -> orderly cs ->
  rtc wstep (Live (Idle <$> ps) s []) (Live l s' cs) ->
  exists rows R ts m w f, simulation ckn tk rows R /\ length ts = length cs /\
    linked cs R (obeys own) (joint ckn tk own ps v) l s' cs ts m w f.
Proof.
  intros Ht Hu Har Hob Hord Hr.
  destruct (init_view false ckn tk s v (reach_shape _ _ _ _ _ Ht) Hu ltac:(done)) as (w0 & Hsh & Hv & E1 & E2).
  assert (Hw0 := shC_wf _ _ _ _ _ Hsh). subst v.
  destruct (simulation_of cs ckn tk s w0 (orderly_separate _ Hord) Hsh E1 E2) as (rows & R & HS & HR & Hlen & Hrow).
  destruct (linked_reach ckn tk cs rows R HS (obeys own) (joint ckn tk own ps (view_of w0))) with
    (s := s) (w0 := w0) (ps := ps) (l := l) (s' := s') (cs1 := cs) as (ts & m & w & f & HL); try done.
  - intros. by eapply (j_inj _ _ _ _ _ _ _ _ _ H).
  - intros. by apply joint_ask.
  - intros. by eapply joint_mine.
  - intros. by eapply joint_move.
  - intros l1 f m w i c t k a a' HJ Hi Hc Ha Ha'. destruct Ha' as [->|[-> [la ->]]]; [by eapply joint_back|].
    exfalso. destruct Hord as [H|[_ H]]; [by specialize (Hrow H)|]. apply H.
    destruct (j_busy _ _ _ _ _ _ _ _ _ HJ _ _ _ _ Hi) as (_ & a & Ha1 & Hp). rewrite Ha in Ha1. simplify_eq.
    specialize (Hp _ eq_refl). simpl in Hp. by subst c.
  - apply joint_start; [done| |done]. by apply kept_view.
  - exists rows, R, ts, m, w, f. split_and!; [done| |done]. apply (Hlen _ _ _ _ (ln_R _ _ _ _ _ _ _ _ _ _ _ HL)).
Qed.

(** Clients that create, rename, alias and drop only names of their own, and put
    documents into those and into shared indices, run at once as if they took turns. *)
Theorem C87_clients :
  forall ckn tk own s v ps l s' cs,
    tracks ckn tk s v -> unblocked v -> arranged own v -> obedient own ps -> orderly cs ->
    rtc wstep (Live (Idle <$> ps) s []) (Live l s' cs) ->
    exists ps' v',
      rtc (turn ckn tk) (Turn ps v) (Turn ps' v') /\ Forall2 at_turn l ps' /\
      (at_rest s' \/ Forall idle l -> shows tk s' v').
Proof.
  intros ckn tk own s v ps l s' cs Ht Hu Har Hob Hord Hr.
  destruct (linked_clients _ _ _ _ _ _ _ _ _ Ht Hu Har Hob Hord Hr) as (rows & R & ts & m & w & f & HS & Hlen & HL).
  destruct (joint_turns _ _ _ _ _ _ _ _ _ (ln_joint _ _ _ _ _ _ _ _ _ _ _ HL)) as (ps' & G1 & G2).
  exists ps', (view_of w). split_and!; [done..|]. intros Hx.
  destruct (linked_shows _ _ _ _ _ HS _ _ _ _ _ _ _ _ HL Hlen Hx). by exists w.
Qed.
Print Assumptions C87_clients.

Theorem C87_death :
  forall ckn tk own s v ps l s' cs,
    tracks ckn tk s v -> unblocked v -> arranged own v -> obedient own ps -> orderly cs ->
    rtc wstep (Live (Idle <$> ps) s []) (Live l s' cs) -> wstep (Live l s' cs) Dead ->
    rtc (turn ckn tk) (Turn ps v) Over.
Proof.
  intros ckn tk own s v ps l s' cs Ht Hu Har Hob Hord Hr Hd.
  destruct (linked_clients _ _ _ _ _ _ _ _ _ Ht Hu Har Hob Hord Hr) as (rows & R & ts & m & w & f & HS & Hlen & HL).
  destruct HL as [HR HJ Hob' Hbusy _ _]. inversion Hd as [| | | |? ? ? i c t k Hi Hs]; simplify_eq.
  destruct (Hbusy _ _ _ _ Hi) as (_ & _ & Htn).
  destruct (sim_dies _ _ _ _ HS _ _ _ _ _ _ HR Htn Hs) as (a & Ha & Hdie).
  exact (joint_die _ _ _ _ _ _ _ _ _ _ _ _ _ _ HJ Hi Ha Hdie).
Qed.
Print Assumptions C87_death.

(** The same, with a condition on the programs instead of the calls made. *)
Theorem C87_programs :
  forall ckn tk own s v (P : call -> Prop) ps w,
    tracks ckn tk s v -> unblocked v -> arranged own v -> obedient own ps -> Forall (makes_only P) ps ->
    (forall old new, ~ P (CRename old new)) \/ ((forall a x, ~ P (CUnAlias a x)) /\ ~ P CListAliases) ->
    rtc wstep (Live (Idle <$> ps) s []) w ->
    match w with
    | Live l s' _ =>
        exists ps' v',
          rtc (turn ckn tk) (Turn ps v) (Turn ps' v') /\ Forall2 at_turn l ps' /\
          (at_rest s' \/ Forall idle l -> shows tk s' v')
    | Dead => rtc (turn ckn tk) (Turn ps v) Over
    end.
Proof.
  intros ckn tk own s v P ps w Ht Hu Har Hob HP Hord Hr.
  assert (Hcs : forall cs, Forall P cs -> orderly cs).
  { intros cs Hcs. rewrite Forall_forall in Hcs.
    destruct Hord as [H|[H1 H2]]; [left; intros old new Hin; by apply (H old new), Hcs|right].
    split; [intros a x Hin; by apply (H1 a x), Hcs|intros Hin; by apply H2, Hcs]. }
  destruct w as [l s' cs|].
  - destruct (only_calls _ _ _ _ HP Hr) as [_ HPc]. eapply C87_clients; eauto.
  - apply rtc_inv_r in Hr as [E|(w & Hr & Hs)]; [done|]. destruct w as [l s' cs|]; [|inversion Hs].
    destruct (only_calls _ _ _ _ HP Hr) as [_ HPc]. eapply C87_death; eauto.
Qed.
Print Assumptions C87_programs.

(** ** Example *)

(** "a" is shared; "p" belongs to the first client, "q" and "qa" to the second. *)
Definition own1 : owners := fun n =>
  if decide (n = "a") then None else if decide (n = "p") then Some 0
  else if decide (n = "q" \/ n = "qa") then Some 1 else Some 2.
(** Creates an index, fills it, looks into it, drops it and reports. *)
Definition worker : client :=
  Ask (CPut "p" dB) (fun _ => Ask (CPut "p" dC) (fun _ => Ask (CSearch "p" "b" LinearSearch) (fun _ =>
    Ask (CDrop "p") (fun _ => Ask (CPut "a" dC) (fun _ => Stop))))).
(** Creates an index, and an alias for it and the shared one, and writes to both. *)
Definition keeper : client :=
  Ask (CPut "q" dB) (fun _ => Ask (CAlias "qa" "q") (fun _ => Ask (CAlias "qa" "a") (fun _ =>
    Ask (CPut "qa" dC) (fun _ => Ask (CUnAlias "qa" "a") (fun _ => Ask CListAliases (fun _ => Stop)))))).
Example C87_example :
  tracks true letters one_repo one_view /\ unblocked one_view /\ arranged own1 one_view /\
  obedient own1 [worker; keeper] /\
  Forall (makes_only (fun c => forall old new, c <> CRename old new)) [worker; keeper].
Proof.
  split_and!; [apply one_tracks|done|..].
  - split.
    + intros a l x Ha. done.
    + intros n Hn. left. unfold own1 in Hn. destruct (decide (n = "a")) as [->|]; [by eexists|].
      by repeat case_decide.
  - intros [|[|i]] p Hp; simplify_eq/=;
      repeat match goal with |- _ /\ _ => split | |- forall _, _ => intro end; try done; vm_compute; auto.
  - repeat constructor; try done; intros; repeat (split; intros; try done).
Qed.

(** ** What is shared must exist *)

(** Two clients that share a name which is not there yet: one may not find what it
    has put, although nobody drops or renames anything. *)
Definition missing : client := Ask CList (fun _ => Stop).
Definition saver : client :=
  Ask (CPut "n" dA) (fun _ => Ask (CSearch "n" "a" LinearSearch) (fun a =>
    match a with Returned (OResults []) => missing | _ => Stop end)).
Definition other : client := Ask (CPut "n" dB) (fun _ => Stop).

Lemma one_run l i c k t s t' s' cs :
  i < length l -> rtc pstep (Pool [t] s) (Pool [t'] s') ->
  rtc wstep (Live (<[i := Busy c t k]> l) s cs) (Live (<[i := Busy c t' k]> l) s' cs).
Proof.
  intros Hi Hr.
  refine (rtc_ind_r (R := pstep) (fun p => match p with
    | Pool [t'] s' => rtc wstep (Live (<[i := Busy c t k]> l) s cs) (Live (<[i := Busy c t' k]> l) s' cs)
    | _ => True end) (Pool [t] s) _ _ _ Hr); [apply rtc_refl|].
  intros y z _ Hs IH. inversion Hs as [ts s1 j t1 t2 s2 Hj Ht|]; simplify_eq; [|done].
  destruct ts as [|t0 [|t3 ts]]; [done| |].
  - destruct j as [|j]; simplify_eq/=. eapply rtc_r; [exact IH|].
    rewrite <- (list_insert_insert l i (Busy c t2 k) (Busy c t1 k)). eapply W_run; [|done]. by apply list_lookup_insert.
  - by destruct j as [|[|j]].
Qed.

Theorem C87_not_created_refuted :
  exists own,
    tracks true letters fresh new_view /\ unblocked new_view /\ obedient own [saver; other] /\
    (forall a l x, v_ali new_view !! a = Some l -> x ∈ l -> own x = own a \/ own x = None) /\
    (exists s' cs, orderly cs /\ rtc wstep (Live (Idle <$> [saver; other]) fresh []) (Live [Idle missing; Idle Stop] s' cs)) /\
    forall v, ~ rtc (turn true letters) (Turn [saver; other] new_view) (Turn [missing; Stop] v).
Proof.
  exists (fun _ => None). split_and!; [apply tracks_new|done| | |..].
  - intros [|[|i]] p Hp; simplify_eq/=; unfold may_use.
    + split; [by right|]. intros _. split; [done|]. intros [[| | | |[|]| |]|]; simpl; try done.
    + split; [by right|done].
  - done.
  - set (cs := [CPut "n" dA; CPut "n" dB]). set (sched := steps 0 6 ++ steps 1 6 ++ steps 0 20 ++ steps 1 20).
    set (s1 := (after_run sched cs).2).
    set (s2 := (run (steps 0 30) [TRun (prog_of (CSearch "n" "a" LinearSearch))] s1).2).
    assert (E1 : (after_run sched cs).1 = [TRun (Ret RUnit); TRun (Ret RUnit)]) by calc.
    assert (E2 : (run (steps 0 30) [TRun (prog_of (CSearch "n" "a" LinearSearch))] s1).1 = [TRun (Ret (RResults []))]) by calc.
    exists s2, (cs ++ [CSearch "n" "a" LinearSearch]). split.
    { left. intros old new H. by repeat (apply elem_of_cons in H as [?|H]); [..|by apply elem_of_nil in H]. }
    eapply rtc_transitive.
    { refine (two_clients (CPut "n" dA) (CPut "n" dB) _ _ fresh s1 RUnit RUnit _). rewrite <- E1. apply after_run_reach. }
    cbn [see].
    eapply rtc_l; [apply (W_ask _ _ _ 0 (CSearch "n" "a" LinearSearch)); reflexivity|].
    eapply rtc_transitive.
    { apply (one_run _ 0 _ _ _ _ (TRun (Ret (RResults []))) s2); [simpl; lia|]. rewrite <- E2. apply run_sound. }
    apply rtc_once.
    exact (W_return [Busy (CSearch "n" "a" LinearSearch) (TRun (Ret (RResults [])))
      (fun a => match a with Returned (OResults []) => missing | _ => Stop end); Idle Stop] s2 _ 0 _ (RResults []) _ eq_refl).
  - intros v Hr.
    set (saver2 := Ask (CSearch "n" "a" LinearSearch) (fun a => match a with Returned (OResults []) => missing | _ => Stop end)).
    set (inv := fun w => match w with
      | Over => True
      | Turn l v => unblocked v /\ v_ali v = ∅ /\ exists p q, l = [p; q] /\
          ((p = saver /\ q = other /\ v_idx v !! "n" = None) \/ (p = saver /\ q = Stop /\ v_idx v !! "n" = Some [dB]) \/
           ((p = saver2 \/ p = Stop) /\ q = other /\ v_idx v !! "n" = Some [dA]) \/
           ((p = saver2 \/ p = Stop) /\ q = Stop /\ (v_idx v !! "n" = Some [dA; dB] \/ v_idx v !! "n" = Some [dB; dA])))
      end).
    assert (H : inv (Turn [missing; Stop] v)).
    { refine (rtc_ind_r (R := turn true letters) inv (Turn [saver; other] new_view) _ _ _ Hr).
      { split_and!; [done..|]. exists saver, other. split; [done|]. by left. }
      intros y z _ Hs IH. inversion Hs as [l0 v0 i c k a v1 Hi Hx|]; simplify_eq; [|done].
      destruct IH as (Hu & Hal & p & q & -> & IH). pose proof Hu as [U1 U2].
      assert (Hput : forall d, c = CPut "n" d -> unblocked v1 /\ v_ali v1 = ∅ /\
        v_idx v1 !! "n" = Some (default [] (v_idx v0 !! "n") ++ [d])).
      { intros d ->. destruct a as [o|]; destruct Hx as (v2 & Hs2 & ->); cbn [spec] in Hs2; unfold forget;
          (destruct (v_idx v0 !! "n") as [reqs|] eqn:En;
            [rewrite decide_False in Hs2 by lia|rewrite U2, decide_False, Hal, lookup_empty in Hs2 by lia]); simplify_eq;
          (split_and!; [done|done|]); cbn [v_idx].
        - by rewrite lookup_alter, En.
        - by rewrite lookup_insert. }
      assert (Hsearch : c = CSearch "n" "a" LinearSearch ->
        v_idx v0 !! "n" = Some [dA] \/ v_idx v0 !! "n" = Some [dA; dB] \/ v_idx v0 !! "n" = Some [dB; dA] ->
        unblocked v1 /\ v_ali v1 = ∅ /\ v_idx v1 = v_idx v0 /\ exists r rs, a = Returned (OResults (r :: rs))).
      { intros -> Hn. destruct a as [o|]; destruct Hx as (v2 & Hs2 & ->); cbn [spec] in Hs2; unfold forget;
          destruct Hn as [Hn|[Hn|Hn]]; rewrite Hn in Hs2; vm_compute in Hs2; simplify_eq; (split_and!; [done|done|done|eauto]). }
      destruct IH as [(-> & -> & Hn)|[(-> & -> & Hn)|[(Hp & -> & Hn)|(Hp & -> & Hn)]]].
      - destruct i as [|[|i]]; simplify_eq/=.
        + injection Hi as <- <-. destruct (Hput _ eq_refl) as (? & ? & E). rewrite Hn in E. split_and!; [done..|]. exists saver2, other. split; [done|].
          right. right. left. split_and!; [by left|done..].
        + injection Hi as <- <-. destruct (Hput _ eq_refl) as (? & ? & E). rewrite Hn in E. split_and!; [done..|]. exists saver, Stop. split; [done|].
          right. left. done.
      - destruct i as [|[|i]]; simplify_eq/=.
        injection Hi as <- <-. destruct (Hput _ eq_refl) as (? & ? & E). rewrite Hn in E. split_and!; [done..|]. exists saver2, Stop. split; [done|].
        right. right. right. split_and!; [by left|done|by right].
      - destruct i as [|[|i]]; simplify_eq/=.
        + destruct Hp as [Hp|]; [|done]. injection Hp as -> ->.
          destruct (Hsearch eq_refl) as (? & ? & E & r & rs & ->); [by left|]. split_and!; [done..|].
          exists Stop, other. split; [done|]. right. right. left. rewrite E. split_and!; [by right|done..].
        + injection Hi as <- <-. destruct (Hput _ eq_refl) as (? & ? & E). rewrite Hn in E. split_and!; [done..|]. exists p, Stop. split; [done|].
          right. right. right. split_and!; [done|done|by left].
      - destruct i as [|[|i]]; simplify_eq/=.
        destruct Hp as [Hp|]; [|done]. injection Hp as -> ->.
        destruct (Hsearch eq_refl) as (? & ? & E & r & rs & ->); [by right|]. split_and!; [done..|].
        exists Stop, Stop. split; [done|]. right. right. right. rewrite E. split_and!; [by right|done..]. }
    destruct H as (_ & _ & p & q & E & H). injection E as <- <-.
    destruct H as [(? & _)|[(? & _)|[([?|?] & _)|([?|?] & _)]]]; done.
Qed.
Print Assumptions C87_not_created_refuted.
