(** * Property C88: one client, whatever the others do. *)
From Coq Require Import Lia.
From stdpp Require Import gmap list.
From Verif Require Import Entities Search SpecSearch Properties_Search Repo Sem RepoWp SpecRepo
  ProofRepo ProofTotal ProofReach Properties_Repo SpecConc Locks Race ProofRace Reduce ProofConc ProofSim Run
  Properties_Conc SpecLin ProofMachine ProofLin Properties_Lin Serial Properties_Clash SpecClient Properties_Client
  SpecOwn ProofLink ProofOwn Properties_Own ProofFence.
Open Scope nat_scope.
Open Scope string_scope.
Open Scope list_scope.

Lemma linked_alone ckn tk N s v ps i p l s' cs :
  tracks ckn tk s v -> unblocked v -> fenced N v -> ps !! i = Some p -> alone_in N i ps -> separate cs ->
  rtc wstep (Live (Idle <$> ps) s []) (Live l s' cs) ->
  exists rows R ts m w f, simulation ckn tk rows R /\ length ts = length cs /\
    linked cs R (may_make N i) (isolated ckn tk N i p v) l s' cs ts m w f.
Proof.
  intros Ht Hu Hf Hp Hal Hsep Hr.
  destruct (init_view false ckn tk s v (reach_shape _ _ _ _ _ Ht) Hu ltac:(done)) as (w0 & Hsh & Hv & E1 & E2).
  assert (Hw0 := shC_wf _ _ _ _ _ Hsh). subst v.
  destruct (simulation_of cs ckn tk s w0 Hsep Hsh E1 E2) as (rows & R & HS & HR & Hlen & _).
  destruct (linked_reach ckn tk cs rows R HS (may_make N i) (isolated ckn tk N i p (view_of w0))) with
    (s := s) (w0 := w0) (ps := ps) (l := l) (s' := s') (cs1 := cs) as (ts & m & w & f & HL); try done.
  - intros. by eapply (is_inj _ _ _ _ _ _ _ _ _ _ H).
  - intros. by apply isolated_ask.
  - intros. by eapply isolated_mine.
  - intros. by eapply isolated_move.
  - intros l1 f m w j c t k a a' HJ Hj Hc Ha Ha'. eapply isolated_back; [done..|].
    destruct Ha' as [->|[_ ?]]; [by left|by right].
  - apply isolated_start; [done| |done|done]. by apply fencedC_view.
  - intros j q Hq. specialize (Hal j q Hq). unfold may_make. by destruct (decide (j = i)).
  - exists rows, R, ts, m, w, f. split_and!; [done| |done]. apply (Hlen _ _ _ _ (ln_R _ _ _ _ _ _ _ _ _ _ _ HL)).
Qed.

(** What client [i] sees while the others run is what it could see on its own, and
    what its names stand for afterwards is what they would stand for then.  Nothing is
    asked of the others except that they leave its names alone. *)
Theorem C88_isolated :
  forall ckn tk N s v ps i p l s' cs,
    tracks ckn tk s v -> unblocked v -> fenced N v -> ps !! i = Some p -> alone_in N i ps -> separate cs ->
    rtc wstep (Live (Idle <$> ps) s []) (Live l s' cs) ->
    exists x q v',
      l !! i = Some x /\ at_turn x q /\ rtc (turn ckn tk) (Turn [p] v) (Turn [q] v') /\
      (at_rest s' \/ Forall idle l -> exists v'', shows tk s' v'' /\ same_on N v' v'').
Proof.
  intros ckn tk N s v ps i p l s' cs Ht Hu Hf Hp Hal Hsep Hr.
  destruct (linked_alone _ _ _ _ _ _ _ _ _ _ _ Ht Hu Hf Hp Hal Hsep Hr) as (rows & R & ts & m & w & f & HS & Hlen & HL).
  assert (Hll : length l = length ps).
  { refine (rtc_ind_r (R := wstep) (fun w => match w with Live l _ _ => length l = length ps | Dead => True end)
      (Live (Idle <$> ps) s []) _ _ _ Hr); [by rewrite fmap_length|].
    intros y z _ Hs IH. inversion Hs; subst; rewrite ?insert_length; done. }
  destruct (lookup_lt_is_Some_2 l i) as [x Hx]; [rewrite Hll; by eapply lookup_lt_Some|].
  destruct (isolated_turns _ _ _ _ _ _ _ _ _ _ _ (ln_joint _ _ _ _ _ _ _ _ _ _ _ HL) Hx) as (q & v' & G1 & G2 & G3).
  exists x, q, v'. split_and!; [done..|]. intros Hy. exists (view_of w). split.
  - destruct (linked_shows _ _ _ _ _ HS _ _ _ _ _ _ _ _ HL Hlen Hy). by exists w.
  - intros n Hn. by destruct (G3 n Hn) as [-> ->].
Qed.
Print Assumptions C88_isolated.

(** A call of client [i] brings the process down only if it could on its own. *)
Theorem C88_death :
  forall ckn tk N s v ps i p l s' cs c t k,
    tracks ckn tk s v -> unblocked v -> fenced N v -> ps !! i = Some p -> alone_in N i ps -> separate cs ->
    rtc wstep (Live (Idle <$> ps) s []) (Live l s' cs) ->
    l !! i = Some (Busy c t k) -> tstep s' t TCrash ->
    rtc (turn ckn tk) (Turn [p] v) Over.
Proof.
  intros ckn tk N s v ps i p l s' cs c t k Ht Hu Hf Hp Hal Hsep Hr Hi Hs.
  destruct (linked_alone _ _ _ _ _ _ _ _ _ _ _ Ht Hu Hf Hp Hal Hsep Hr) as (rows & R & ts & m & w & f & HS & Hlen & HL).
  destruct HL as [HR HJ Hob' Hbusy _ _].
  destruct (Hbusy _ _ _ _ Hi) as (_ & _ & Htn).
  destruct (sim_dies _ _ _ _ HS _ _ _ _ _ _ HR Htn Hs) as (a & Ha & Hdie).
  exact (isolated_die _ _ _ _ _ _ _ _ _ _ _ _ _ _ HJ Hi Ha Hdie).
Qed.
Print Assumptions C88_death.

(** ** Example *)

(** The first client keeps to "p" and "pa"; the others both drop and fill "a". *)
Definition mineN (n : string) : Prop := n = "p" \/ n = "pa".
Definition hermit : client :=
  Ask (CPut "p" dB) (fun _ => Ask (CAlias "pa" "p") (fun _ => Ask (CPut "pa" dC) (fun _ =>
    Ask (CSearch "pa" "b" LinearSearch) (fun _ => Ask (CDrop "p") (fun _ => Ask (CHasAlias "pa") (fun _ => Stop)))))).
Definition vandal : client :=
  Ask (CDrop "a") (fun _ => Ask (CPut "a" dB) (fun _ => Ask (CUnAlias "x" "a") (fun _ => Ask CListAliases (fun _ => Stop)))).
Example C88_example :
  tracks true letters one_repo one_view /\ unblocked one_view /\ fenced mineN one_view /\
  alone_in mineN 0 [hermit; vandal; vandal].
Proof.
  split_and!; [apply one_tracks|done|..].
  - split; [intros a l x Ha; done|intros a _; done].
  - intros [|[|[|j]]] q Hq; simplify_eq/=; unfold mineN;
      repeat match goal with |- _ /\ _ => split | |- ~ _ => intros [?|?] | |- forall _, _ => intro end; try done; auto.
Qed.

(** ** Not for UnAlias of one index *)

(** A client that keeps to its own names may see an alias of its own disappear, if
    UnAlias has left it empty: somebody else's Drop of an index of theirs takes it away. *)
Definition gone : client := Ask (CHas "p") (fun _ => Stop).
Definition tester : client :=
  Ask (CPut "p" dB) (fun _ => Ask (CAlias "pa" "p") (fun _ => Ask (CUnAlias "pa" "p") (fun _ =>
    Ask (CHasAlias "pa") (fun a => match a with Returned (OBool false) => gone | _ => Stop end)))).
Definition dropper : client := Ask (CDrop "a") (fun _ => Stop).

(** A call made and answered while nobody else does anything. *)
Lemma one_call l i c k s s' r cs :
  l !! i = Some (Idle (Ask c k)) -> rtc pstep (Pool [TRun (prog_of c)] s) (Pool [TRun (Ret r)] s') ->
  rtc wstep (Live l s cs) (Live (<[i := Idle (k (Returned (see s' r)))]> l) s' (cs ++ [c])).
Proof.
  intros Hi Hr. assert (Hlt := lookup_lt_Some _ _ _ Hi).
  eapply rtc_l; [by apply W_ask|]. eapply rtc_transitive; [by apply one_run|].
  apply rtc_once. rewrite <- (list_insert_insert l i (Idle (k (Returned (see s' r)))) (Busy c (TRun (Ret r)) k)).
  apply (W_return _ _ _ _ c). by apply list_lookup_insert.
Qed.

Theorem C88_empty_alias_refuted :
  tracks true letters one_repo one_view /\ unblocked one_view /\ fenced mineN one_view /\
  makes_only (fun c => within mineN c \/ c = CUnAlias "pa" "p") tester /\ makes_only (spares mineN) dropper /\
  (exists s' cs, separate cs /\
    rtc wstep (Live (Idle <$> [tester; dropper]) one_repo []) (Live [Idle gone; Idle Stop] s' cs)) /\
  forall v, ~ rtc (turn true letters) (Turn [tester] one_view) (Turn [gone] v).
Proof.
  split_and!; [apply one_tracks|done|apply C88_example|..].
  - unfold mineN. do 3 (split; [simpl; tauto|intros _]). split; [simpl; tauto|].
    intros [[|[]| | | | |]|]; try done. split; [simpl; tauto|done].
  - split; [intros [?|?]; done|done].
  - set (s1 := (alone 20 (CPut "p" dB) one_repo).2). set (s2 := (alone 20 (CAlias "pa" "p") s1).2).
    set (s3 := (alone 20 (CUnAlias "pa" "p") s2).2). set (s4 := (alone 30 (CDrop "a") s3).2).
    set (s5 := (alone 20 (CHasAlias "pa") s4).2).
    assert (E1 : (alone 20 (CPut "p" dB) one_repo).1 = [TRun (Ret RUnit)]) by calc.
    assert (E2 : (alone 20 (CAlias "pa" "p") s1).1 = [TRun (Ret (RBool true))]) by calc.
    assert (E3 : (alone 20 (CUnAlias "pa" "p") s2).1 = [TRun (Ret (RBool true))]) by calc.
    assert (E4 : (alone 30 (CDrop "a") s3).1 = [TRun (Ret (RBool true))]) by calc.
    assert (E5 : (alone 20 (CHasAlias "pa") s4).1 = [TRun (Ret (RBool false))]) by calc.
    exists s5, [CPut "p" dB; CAlias "pa" "p"; CUnAlias "pa" "p"; CDrop "a"; CHasAlias "pa"]. split.
    { left. intros old new H. by repeat (apply elem_of_cons in H as [?|H]); [..|by apply elem_of_nil in H]. }
    assert (Hone : forall k c s r, (alone k c s).1 = [TRun (Ret r)] ->
      rtc pstep (Pool [TRun (prog_of c)] s) (Pool [TRun (Ret r)] (alone k c s).2)).
    { intros k c s r E. rewrite <- E. apply run_sound. }
    eapply rtc_transitive; [eapply (one_call _ 0 (CPut "p" dB) _ one_repo); [reflexivity|exact (Hone _ _ _ _ E1)]|].
    eapply rtc_transitive; [eapply (one_call _ 0 (CAlias "pa" "p") _ s1); [reflexivity|exact (Hone _ _ _ _ E2)]|].
    eapply rtc_transitive; [eapply (one_call _ 0 (CUnAlias "pa" "p") _ s2); [reflexivity|exact (Hone _ _ _ _ E3)]|].
    eapply rtc_transitive; [eapply (one_call _ 1 (CDrop "a") _ s3); [reflexivity|exact (Hone _ _ _ _ E4)]|].
    eapply rtc_transitive; [eapply (one_call _ 0 (CHasAlias "pa") _ s4); [reflexivity|exact (Hone _ _ _ _ E5)]|].
    apply rtc_refl.
  - intros v Hr.
    set (tester4 := Ask (CHasAlias "pa") (fun a => match a with Returned (OBool false) => gone | _ => Stop end)).
    set (tester3 := Ask (CUnAlias "pa" "p") (fun _ => tester4)).
    set (tester2 := Ask (CAlias "pa" "p") (fun _ => tester3)).
    set (inv := fun w => match w with
      | Over => True
      | Turn l v => unblocked v /\
          ((l = [tester] /\ v_idx v !! "p" = None /\ v_ali v = ∅) \/
           (l = [tester2] /\ is_Some (v_idx v !! "p") /\ v_ali v = ∅) \/
           (l = [tester3] /\ is_Some (v_idx v !! "p") /\ is_Some (v_ali v !! "pa")) \/
           (l = [tester4] /\ is_Some (v_ali v !! "pa")) \/ l = [Stop])
      end).
    assert (H : inv (Turn [gone] v)).
    { refine (rtc_ind_r (R := turn true letters) inv (Turn [tester] one_view) _ _ _ Hr).
      { split; [done|]. left. by split_and!. }
      intros y z _ Hs IH. inversion Hs as [l0 v0 i c k a v1 Hi Hx|]; simplify_eq; [|done].
      destruct IH as (Hu & IH). pose proof Hu as [U1 U2].
      destruct IH as [(-> & H1 & H2)|[(-> & [d H1] & H2)|[(-> & [d H1] & [la H2])|[(-> & [la H2])| ->]]]];
        destruct i as [|i]; simplify_eq/=; try (injection Hi as <- <-);
        destruct a as [o|]; destruct Hx as (v2 & Hs2 & ->); cbn [spec] in Hs2; unfold forget.
      - rewrite H1, U2, decide_False, H2, lookup_empty in Hs2 by lia. simplify_eq. split; [done|]. right. left.
        split_and!; [done| |done]. cbn [v_idx]. rewrite lookup_insert. by eexists.
      - rewrite H1, U2, decide_False, H2, lookup_empty in Hs2 by lia. done.
      - rewrite H1, U2, H2, lookup_empty in Hs2. cbn in Hs2. rewrite decide_False, decide_False in Hs2; [|by intros ?%elem_of_nil|done].
        simplify_eq. split; [done|]. right. right. left.
        split_and!; [done|by eexists|]. cbn [v_ali]. rewrite lookup_insert. by eexists.
      - rewrite H1, U2, H2, lookup_empty in Hs2. cbn in Hs2. rewrite decide_False, decide_False in Hs2; [|by intros ?%elem_of_nil|done]. done.
      - rewrite H1, U2, H2 in Hs2. rewrite decide_False, decide_False in Hs2 by done. simplify_eq. split; [done|]. right. right. right. left.
        split; [done|]. cbn [v_ali]. rewrite lookup_insert. by eexists.
      - rewrite H1, U2, H2 in Hs2. rewrite decide_False, decide_False in Hs2 by done. done.
      - rewrite U2, H2 in Hs2. simplify_eq. split; [done|]. by do 4 right.
      - rewrite U2, H2 in Hs2. done. }
    destruct H as (_ & H). by destruct H as [(? & _)|[(? & _)|[(? & _)|[(? & _)|?]]]].
Qed.
Print Assumptions C88_empty_alias_refuted.
