(** * Properties C28-C47: the repository, one call at a time.

    [tracks ckn tk s v]: the code's state [s] was reached from NewIndexRepo by
    some sequence of calls, and [v] is what a caller knows about it.
    [returns ckn tk any_call c s P v']: in state [s] the call [c], in every
    execution, returns a value observed as some [b] with [P b], leaving a state
    that [tracks v']. *)
From Coq Require Import Lia.
From stdpp Require Import gmap list.
From Verif Require Import Entities Search SpecSearch Properties_Search Repo Sem RepoWp SpecRepo
  ProofRepo ProofTotal ProofReach ProofExact ProofRows.
Open Scope nat_scope.

Notation ret_ ckn tk := (returns ckn tk any_call).

Ltac us Ho := cbn beta iota zeta delta [spec v_idx v_ali v_leakI v_leakA] in Ho.

(** Building concrete reachable states. *)
Lemma tracks_new ckn tk : tracks ckn tk (NewIndexRepo ckn (NewMemoryIndexBuilder tk)) new_view.
Proof. constructor. Qed.

Lemma next_put_new ckn tk ok s idx ali n d :
  reach ckn tk ok s (MkView idx ali 0 false) -> ok (MkView idx ali 0 false) (CPut n d) ->
  idx !! n = None -> ali !! n = None ->
  exists s', reach ckn tk ok s' (MkView (<[n := [d]]> idx) ali 0 false).
Proof.
  intros H Hok H1 H2. eapply reach_next; [exact H|exact Hok|]. intros o Ho. us Ho.
  rewrite H1, H2 in Ho. rewrite decide_False in Ho by (intros E; by apply E). eauto.
Qed.
Lemma next_alias ckn tk ok s idx ali a i :
  reach ckn tk ok s (MkView idx ali 0 false) -> ok (MkView idx ali 0 false) (CAlias a i) ->
  is_Some (idx !! i) -> i ∉ default [] (ali !! a) ->
  exists s', reach ckn tk ok s' (MkView idx (<[a := default [] (ali !! a) ++ [i]]> ali) 0 false).
Proof.
  intros H Hok [x H1] H2. eapply reach_next; [exact H|exact Hok|]. intros o Ho. us Ho.
  rewrite decide_False in Ho by congruence. rewrite decide_False in Ho by done. eauto.
Qed.

(** Two indices "p" and "q" and an alias "both" listing them. *)
Definition dA : DocRequest := NewDocRequest "1" "a b".
Definition dB : DocRequest := NewDocRequest "2" "b c".
Definition two_idx : gmap string (list DocRequest) := <["p" := [dA]]> (<["q" := [dB]]> ∅).
Definition two_ali : gmap string (list string) := {["both" := ["p"; "q"]]}.
Definition two_view : view := MkView two_idx two_ali 0 false.

Lemma example_two (ok : view -> call -> Prop) ckn tk :
  (forall v n d, ok v (CPut n d)) -> (forall v a i, ok v (CAlias a i)) ->
  exists s, reach ckn tk ok s two_view.
Proof.
  intros H1 H2.
  destruct (next_put_new ckn tk ok _ ∅ ∅ "q" dB (R_start _ _ _ _ _)) as [s1 R1]; try done.
  destruct (next_put_new ckn tk ok _ _ _ "p" dA R1) as [s2 R2]; try done.
  destruct (next_alias ckn tk ok _ _ _ "both" "p" R2) as [s3 R3]; try done.
  { simpl. apply not_elem_of_nil. }
  destruct (next_alias ckn tk ok _ _ _ "both" "q" R3) as [s4 R4]; try done.
  { simpl. by apply (bool_decide_unpack _). }
  exists s4. match type of R4 with reach _ _ _ _ (MkView ?a ?b _ _) =>
    change a with two_idx in R4;
    replace b with two_ali in R4 by (by apply (bool_decide_unpack _)) end. exact R4.
Qed.

Lemma returns_after ckn tk ok c s P v' s' :
  returns ckn tk ok c s P v' -> after c s s' -> reach ckn tk ok s' v'.
Proof. intros [_ H] [r Hr]. destruct (H _ Hr) as (r1 & s1 & E & _ & Hx). by simplify_eq. Qed.

Lemma returns_weaken ckn tk ok c s (P Q : obs -> Prop) v' :
  returns ckn tk ok c s P v' -> (forall b, P b -> Q b) -> returns ckn tk ok c s Q v'.
Proof.
  intros [H1 H2] HPQ. split; [done|]. intros res Hres.
  destruct (H2 _ Hres) as (r & s' & -> & HP & Hr). eauto 6.
Qed.

Lemma ret_det ckn tk s v c b v' :
  tracks ckn tk s v -> (forall o, spec ckn tk c v o -> o = ODone b v') -> ret_ ckn tk c s (eq b) v'.
Proof. intros H Ho. eapply returns_intro; [exact H|done|]. intros o Hs. apply Ho in Hs as ->. eauto. Qed.

Lemma search_index ckn tk s v n reqs q e l :
  tracks ckn tk s v -> v_idx v !! n = Some reqs -> search_docs ckn tk reqs q e = Ok l ->
  ret_ ckn tk (CSearch n q e) s (eq (OResults l)) v.
Proof. intros H H1 H2. eapply ret_det; [exact H|]. intros o Ho. us Ho. by rewrite H1, H2 in Ho. Qed.

Lemma has_index ckn tk s v n : tracks ckn tk s v ->
  ret_ ckn tk (CHas n) s (eq (OBool (bool_decide (is_Some (v_idx v !! n))))) v.
Proof. intros H. eapply ret_det; [exact H|]. done. Qed.

Lemma and_search_snoc tk reqs d ts :
  and_search tk (reqs ++ [d]) ts =
  and_search tk reqs ts ++
  (if bool_decide (ts <> []) && contains_all tk ts d
   then [MkSR (doc_of d) (Z.of_nat (length ts))] else []).
Proof.
  unfold and_search. destruct ts as [|t ts]; [done|].
  rewrite filter_app, map_app. f_equal. rewrite filter_cons, filter_nil.
  rewrite bool_decide_true by done. cbn [andb]. destruct (contains_all tk (t :: ts) d) eqn:E; [by rewrite decide_True|by rewrite decide_False].
Qed.

(** ** C28 *)
Definition docs_of (v : view) (n : string) : list DocRequest := default [] (v_idx v !! n).

Theorem C28_put_then_search :
  forall ckn tk s v n d q,
    tracks ckn tk s v -> unblocked v -> v_ali v !! n = None ->
    (is_Some (v_idx v !! n) ->
     ret_ ckn tk (CSearch n q LinearSearch) s (eq (OResults (and_search tk (docs_of v n) (tk q)))) v) /\
    exists v',
      ret_ ckn tk (CPut n d) s (eq OUnit) v' /\
      forall s', after (CPut n d) s s' ->
        ret_ ckn tk (CHas n) s' (eq (OBool true)) v' /\
        ret_ ckn tk (CSearch n q LinearSearch) s'
          (eq (OResults (and_search tk (docs_of v n) (tk q) ++
                         (if bool_decide (tk q <> []) && contains_all tk (tk q) d
                          then [MkSR (doc_of d) (Z.of_nat (length (tk q)))] else [])))) v'.
Proof.
  intros ckn tk s v n d q Ht [HI HA] Ha. split.
  { intros [reqs Hn]. eapply search_index; [done|done|]. unfold docs_of. rewrite Hn.
    apply C01_linear_search_exact. }
  exists (MkView (<[n := docs_of v n ++ [d]]> (v_idx v)) (v_ali v) (v_leakI v) (v_leakA v)).
  assert (Hp : ret_ ckn tk (CPut n d) s (eq OUnit)
    (MkView (<[n := docs_of v n ++ [d]]> (v_idx v)) (v_ali v) (v_leakI v) (v_leakA v))).
  { eapply ret_det; [exact Ht|]. intros o Ho. us Ho. rewrite HA, HI, Ha in Ho. rewrite decide_False in Ho by (intros E; by apply E).
    unfold docs_of, put_each in *. destruct (v_idx v !! n) as [reqs|] eqn:E; simpl in *; rewrite HA, HI; [|done].
    subst. f_equal. f_equal. apply map_eq. intros i. destruct (decide (i = n)) as [->|Hne].
    - by rewrite lookup_alter, E, lookup_insert.
    - by rewrite lookup_alter_ne, lookup_insert_ne. }
  split; [done|]. intros s' Hs'. pose proof (returns_after _ _ _ _ _ _ _ _ Hp Hs') as Ht'. split.
  - eapply returns_weaken; [by apply has_index|]. simpl. intros b <-. rewrite lookup_insert.
    by rewrite bool_decide_true by eauto.
  - rewrite <- and_search_snoc. eapply search_index; [done|simpl; apply lookup_insert|].
    apply C01_linear_search_exact.
Qed.
Print Assumptions C28_put_then_search.

Example C28_example : exists s, tracks true letters s two_view /\ unblocked two_view /\
  v_ali two_view !! "p" = None /\ v_ali two_view !! "fresh" = None /\
  and_search letters (docs_of two_view "p") (letters "b") = [MkSR (doc_of dA) 1].
Proof.
  destruct (example_two any_call true letters) as [s Hs]; try done. exists s. done.
Qed.

(** ** C29 *)
Definition agree (x : call * result) (y : call * out) : Prop :=
  x.1 = y.1 /\
  match x.2, y.2 with
  | Done r s, ODone b _ => see s r = b
  | Panicked _, OPanic _ => True
  | _, _ => False
  end.

Theorem C29_histories_refine :
  forall ckn tk h s,
    history (NewIndexRepo ckn (NewMemoryIndexBuilder tk)) h s ->
    exists ah v, spec_history ckn tk new_view ah v /\ Forall2 agree h ah /\ tracks ckn tk s v.
Proof.
  intros ckn tk h s Hh.
  assert (forall s0 v0, tracks ckn tk s0 v0 -> history s0 h s ->
    exists ah v, spec_history ckn tk v0 ah v /\ Forall2 agree h ah /\ tracks ckn tk s v) as G.
  { clear Hh. intros s0 v0 Ht Hh. revert v0 Ht.
    induction Hh as [s0|s0 c r s1 l s2 Hc Hh IH|s0 c s1 l s2 Hc Hh IH]; intros v0 Ht.
    - exists [], v0. split; [constructor|]. split; [constructor|done].
    - destruct (reach_call _ _ _ _ _ _ _ Ht I Hc) as (v1 & Hs & Ht1).
      destruct (IH _ Ht1) as (ah & v & H1 & H2 & H3).
      exists ((c, ODone (see s1 r) v1) :: ah), v. split; [by constructor|]. split; [|done].
      by constructor.
    - destruct (reach_call _ _ _ _ _ _ _ Ht I Hc) as (v1 & Hs & Ht1).
      destruct (IH _ Ht1) as (ah & v & H1 & H2 & H3).
      exists ((c, OPanic v1) :: ah), v. split; [by constructor|]. split; [|done].
      by constructor. }
  eapply G; [apply tracks_new|done].
Qed.
Print Assumptions C29_histories_refine.

(** Every call comes to an end in one of the four ways, and the abstract
    machine predicts which. *)
Theorem C29_calls_refine :
  forall ckn tk s v c,
    tracks ckn tk s v ->
    (exists res, call_result c s res) /\
    forall res, call_result c s res ->
      match res with
      | Done r s' => exists v', spec ckn tk c v (ODone (see s' r) v') /\ tracks ckn tk s' v'
      | Panicked s' => exists v', spec ckn tk c v (OPanic v') /\ tracks ckn tk s' v'
      | Crashed => spec ckn tk c v OCrash
      | Blocked => spec ckn tk c v OBlock
      end.
Proof.
  intros ckn tk s v c Ht. split; [apply call_total|]. intros res Hres.
  exact (reach_call _ _ _ _ _ _ _ Ht I Hres).
Qed.
Print Assumptions C29_calls_refine.

(** Conversely nothing the abstract machine allows is impossible for the code. *)
Theorem C29_machine_is_exact :
  forall ckn tk s v c o,
    tracks ckn tk s v -> (forall show, c <> CString show) -> spec ckn tk c v o ->
    match o with
    | ODone b v' => exists r s', call_result c s (Done r s') /\ see s' r = b /\ tracks ckn tk s' v'
    | OPanic v' => exists s', call_result c s (Panicked s') /\ tracks ckn tk s' v'
    | OCrash => call_result c s Crashed
    | OBlock => call_result c s Blocked
    end.
Proof.
  intros ckn tk s v c o Ht Hc Ho.
  pose proof (spec_exact ckn tk c s v o Hc (reach_shape _ _ _ _ _ Ht) Ho) as Hx.
  destruct o as [b v'|v'| |]; simpl in Hx; try done.
  - destruct Hx as (r & s' & H1 & H2 & _). exists r, s'. split; [done|]. split; [done|].
    subst. by eapply R_done.
  - destruct Hx as (s' & H1 & _). exists s'. split; [done|]. by eapply R_panic.
Qed.
Print Assumptions C29_machine_is_exact.

Example C29_example : exists h s,
  history (NewIndexRepo true (NewMemoryIndexBuilder letters)) h s /\
  h.*1 = [CPut "p" dA; CSearch "p" "b" LinearSearch] /\
  (snd <$> h) !! 1 = Some (Done (RResults [MkSR (doc_of dA) 1]) s).
Proof.
  destruct (C28_put_then_search true letters _ _ "p" dA "b" (tracks_new true letters)) as [_ (v1 & [[res Hres] H1] & H2)]; [done|done|].
  destruct (H1 _ Hres) as (r & s1 & -> & _ & Ht1).
  destruct (H2 s1) as [_ [[res2 Hres2] H3]]; [by exists r|].
  destruct (H3 _ Hres2) as (r2 & s2 & -> & E & Ht2).
  exists [(CPut "p" dA, Done r s1); (CSearch "p" "b" LinearSearch, Done r2 s2)], s2.
  split; [apply H_done; [exact Hres|]; apply H_done; [exact Hres2|]; apply H_nil|].
  split; [reflexivity|]. cbn [fmap list_fmap snd lookup list_lookup]. f_equal. f_equal.
  destruct r2; cbn [see] in E; try discriminate E. injection E as <-. reflexivity.
Qed.

(** ** C30 *)
(** The indices a call is about, by name or through an alias. *)
Definition named_by (v : view) (c : call) (m : string) : Prop :=
  match c with
  | CPut n _ => if decide (v_idx v !! n = None) then m = n \/ m ∈ default [] (v_ali v !! n) else m = n
  | CDrop n => m = n
  | CRename old new => m = old \/ m = new
  | _ => False
  end.

Lemma put_each_ne d l idx m : m ∉ l -> put_each d l idx !! m = idx !! m.
Proof.
  intros H. induction l as [|x l IH]; [done|]. simpl.
  apply not_elem_of_cons in H as [H1 H2]. rewrite lookup_alter_ne by done. by apply IH.
Qed.

Lemma isolation_view ckn tk v c b v' m :
  spec ckn tk c v (ODone b v') -> ~ named_by v c m -> v_idx v' !! m = v_idx v !! m.
Proof.
  intros H Hn. destruct c; us H.
  - by destruct H as (? & _ & [= -> ->]).
  - destruct (v_leakA v); [done|]. by destruct H as (? & _ & [= -> ->]).
  - by simplify_eq.
  - destruct (v_leakA v); by simplify_eq.
  - repeat case_decide; repeat case_match; by simplify_eq.
  - repeat case_decide; repeat case_match; by simplify_eq.
  - unfold named_by in Hn. destruct (v_idx v !! index) as [reqs|] eqn:Ei.
    + rewrite decide_False in Hn by done. case_decide; simplify_eq/=. by rewrite lookup_alter_ne by congruence.
    + rewrite decide_True in Hn by done. destruct (v_leakA v); [done|]. case_decide; [done|].
      destruct (v_ali v !! index) as [l|] eqn:Ea; simpl in Hn.
      * case_decide; simplify_eq. cbn [v_idx]. apply put_each_ne. tauto.
      * simplify_eq. cbn [v_idx]. rewrite lookup_insert_ne; [done|]. intros ->. tauto.
  - destruct (v_idx v !! index).
    + case_match; by simplify_eq.
    + destruct (v_leakA v); [done|]. destruct (v_ali v !! index) as [[|x [|y l]]|].
      * destruct H as [(? & ? & _ & _ & [= -> ->])|[_ [=]]]; done.
      * case_match; by simplify_eq.
      * destruct H as [(? & ? & _ & _ & [= -> ->])|[_ [=]]]; done.
      * by simplify_eq.
  - unfold named_by in Hn. case_decide; [done|]. case_match; simplify_eq; [|done]. cbn [v_idx].
    rewrite lookup_delete_ne, lookup_insert_ne by (intros ->; tauto). done.
  - unfold named_by in Hn. repeat case_decide; repeat case_match; simplify_eq; try done. cbn [v_idx].
    by rewrite lookup_delete_ne by congruence.
  - destruct H as (? & [= -> ->]). done.
Qed.

(** A search of an index gives the same results before and after any call that
    does not name it, whatever the engine. *)
Lemma search_iff ckn tk s v n q e reqs l :
  tracks ckn tk s v -> v_idx v !! n = Some reqs ->
  (exists s', call_result (CSearch n q e) s (Done (RResults l) s')) <-> search_docs ckn tk reqs q e = Ok l.
Proof.
  intros Ht Hn. split.
  - intros [s' Hc]. destruct (reach_call _ _ _ _ _ _ _ Ht I Hc) as (v' & Hs & _). us Hs.
    rewrite Hn in Hs. destruct (search_docs ckn tk reqs q e); cbn [see] in Hs; by simplify_eq.
  - intros Hl. destruct (search_index _ _ _ _ _ _ _ _ _ Ht Hn Hl) as [[res Hres] H].
    destruct (H _ Hres) as (r & s' & -> & E & _). exists s'. destruct r; cbn [see] in E; simplify_eq. done.
Qed.

Theorem C30_isolation :
  forall ckn tk s v c s' m q e l,
    tracks ckn tk s v -> is_Some (v_idx v !! m) -> ~ named_by v c m -> after c s s' ->
    (exists s1, call_result (CSearch m q e) s (Done (RResults l) s1)) <->
    (exists s1, call_result (CSearch m q e) s' (Done (RResults l) s1)).
Proof.
  intros ckn tk s v c s' m q e l Ht [reqs Hm] Hn [r Hr].
  destruct (reach_call _ _ _ _ _ _ _ Ht I Hr) as (v' & Hs & Ht').
  pose proof (isolation_view _ _ _ _ _ _ _ Hs Hn) as E.
  rewrite (search_iff _ _ _ _ _ _ _ _ _ Ht Hm).
  rewrite (search_iff _ _ _ _ _ _ _ reqs _ Ht'); [done|]. congruence.
Qed.
Print Assumptions C30_isolation.

Example C30_example : exists s, tracks true letters s two_view /\
  is_Some (v_idx two_view !! "q") /\ ~ named_by two_view (CDrop "p") "q" /\
  ~ named_by two_view (CPut "p" dB) "q" /\ named_by two_view (CPut "both" dB) "q" /\
  exists s', after (CDrop "p") s s'.
Proof.
  destruct (example_two any_call true letters) as [s Hs]; try done. exists s. split; [done|].
  split; [eexists; reflexivity|]. split; [simpl; congruence|].
  split; [unfold named_by; rewrite decide_False by done; congruence|].
  split; [unfold named_by; rewrite decide_True by done; right; by apply (bool_decide_unpack _)|].
  destruct (returns_intro true letters any_call (CDrop "p") s two_view
    (MkView (delete "p" two_idx) (omap (drop_from "p") two_ali) 0 false) (fun _ => True)) as [[res Hres] H]; try done.
  - intros o Ho. us Ho. change (two_view) with (MkView two_idx two_ali 0 false) in Ho. us Ho.
    rewrite decide_False in Ho by done. rewrite decide_False in Ho by (intros E; by apply E). eauto.
  - destruct (H _ Hres) as (r & s' & -> & _). exists s', r. done.
Qed.

(** ** C31 *)
Theorem C31_alias :
  forall ckn tk s v a i,
    tracks ckn tk s v -> v_leakA v = false ->
    let l := default [] (v_ali v !! a) in
    (is_Some (v_idx v !! i) -> i ∉ l ->
       ret_ ckn tk (CAlias a i) s (eq (OBool true))
         (MkView (v_idx v) (<[a := l ++ [i]]> (v_ali v)) (v_leakI v) (v_leakA v))) /\
    (v_idx v !! i = None \/ i ∈ l ->
       ret_ ckn tk (CAlias a i) s (eq (OBool false)) v).
Proof.
  intros ckn tk s v a i Ht HA l. split.
  - intros [reqs Hi] Hl. eapply ret_det; [exact Ht|]. intros o Ho. us Ho.
    rewrite decide_False in Ho by congruence. rewrite HA in Ho.
    rewrite decide_False in Ho by done. by rewrite HA.
  - intros H. eapply ret_det; [exact Ht|]. intros o Ho. us Ho.
    destruct (decide (v_idx v !! i = None)) as [Hi|Hi]; [done|]. destruct H as [H|H]; [done|].
    rewrite HA in Ho. by rewrite decide_True in Ho.
Qed.
Print Assumptions C31_alias.

Example C31_example : exists s, tracks true letters s two_view /\ v_leakA two_view = false /\
  is_Some (v_idx two_view !! "p") /\ "p" ∉ default [] (v_ali two_view !! "new") /\
  "p" ∈ default [] (v_ali two_view !! "both") /\ v_idx two_view !! "none" = None.
Proof.
  destruct (example_two any_call true letters) as [s Hs]; try done. exists s. split; [done|].
  split; [done|]. split; [eexists; reflexivity|]. split; [by apply not_elem_of_nil|].
  split; [by apply (bool_decide_unpack _)|done].
Qed.

(** ** C32 *)
Lemma without_absent (i : string) (l : list string) : i ∉ l -> filter (fun x => x <> i) l = l.
Proof.
  induction l as [|x l IH]; [done|]. intros [H1 H2]%not_elem_of_cons.
  rewrite filter_cons, decide_True by congruence. f_equal. by apply IH.
Qed.

Theorem C32_unalias_whole :
  forall ckn tk s v a,
    tracks ckn tk s v -> v_leakA v = false ->
    ret_ ckn tk (CUnAlias a "") s (eq (OBool (bool_decide (is_Some (v_ali v !! a)))))
      (MkView (v_idx v) (delete a (v_ali v)) (v_leakI v) (v_leakA v)).
Proof.
  intros ckn tk s v a Ht HA. eapply ret_det; [exact Ht|]. intros o Ho. us Ho.
  rewrite decide_True in Ho by done. rewrite HA in Ho. by rewrite HA.
Qed.
Print Assumptions C32_unalias_whole.

Theorem C32_unalias_one :
  forall ckn tk s v a i l,
    tracks ckn tk s v -> v_leakA v = false ->
    i <> "" -> is_Some (v_idx v !! i) -> v_ali v !! a = Some l ->
    let v' := MkView (v_idx v) (<[a := filter (fun x => x <> i) l]> (v_ali v)) (v_leakI v) (v_leakA v) in
    ret_ ckn tk (CUnAlias a i) s (eq (OBool true)) v' /\
    (i ∉ l -> v' = v) /\
    forall s', after (CUnAlias a i) s s' -> ret_ ckn tk (CHasAlias a) s' (eq (OBool true)) v'.
Proof.
  intros ckn tk s v a i l Ht HA Hi [reqs Hx] Ha v'.
  assert (Hr : ret_ ckn tk (CUnAlias a i) s (eq (OBool true)) v').
  { eapply ret_det; [exact Ht|]. intros o Ho. us Ho. rewrite !decide_False in Ho by congruence.
    rewrite HA, Ha in Ho. subst v'. by rewrite HA. }
  split; [done|]. split.
  - intros Hl. subst v'. rewrite without_absent by done. rewrite insert_id by done. by destruct v.
  - intros s' Hs'. eapply ret_det; [eapply returns_after; eauto|]. intros o Ho. us Ho. subst v'.
    cbn [v_leakA v_ali] in Ho. rewrite HA in Ho |- *. rewrite lookup_insert in Ho. by rewrite bool_decide_true in Ho by eauto.
Qed.
Print Assumptions C32_unalias_one.

(** Contrast with Drop (C40): an alias that lost its last index to UnAlias stays. *)
Definition emptied_view : view := MkView two_idx {["both" := []]} 0 false.

Lemma next_unalias ckn tk ok s idx ali a i l :
  reach ckn tk ok s (MkView idx ali 0 false) -> ok (MkView idx ali 0 false) (CUnAlias a i) ->
  i <> "" -> is_Some (idx !! i) -> ali !! a = Some l ->
  exists s', reach ckn tk ok s' (MkView idx (<[a := without i l]> ali) 0 false).
Proof.
  intros H Hok Hi [x H1] H2. eapply reach_next; [exact H|exact Hok|]. intros o Ho. us Ho.
  rewrite !decide_False in Ho by congruence. rewrite H2 in Ho. eauto.
Qed.

Lemma example_emptied ckn tk (ok : view -> call -> Prop) :
  (forall v n d, ok v (CPut n d)) -> (forall v a i, ok v (CAlias a i)) ->
  (forall v a i, ~ leaky v (CUnAlias a i) -> ok v (CUnAlias a i)) ->
  exists s, reach ckn tk ok s emptied_view.
Proof.
  intros H1 H2 H3. destruct (example_two ok ckn tk) as [s Hs]; [done|done|].
  destruct (next_unalias ckn tk ok s two_idx two_ali "both" "p" ["p"; "q"] Hs) as [s1 R1]; try done.
  { apply H3. intros (a & i & [= <- <-] & _ & [H|H]); done. }
  destruct (next_unalias ckn tk ok s1 _ _ "both" "q" ["q"] R1) as [s2 R2]; try done.
  { apply H3. intros (a & i & [= <- <-] & _ & [H|H]); done. }
  exists s2. match type of R2 with reach _ _ _ _ (MkView _ ?b _ _) =>
    replace b with ({["both" := []]} : gmap string (list string)) in R2 by (by apply (bool_decide_unpack _)) end.
  exact R2.
Qed.

Example C32_example : exists s, tracks true letters s two_view /\ v_leakA two_view = false /\
  is_Some (v_idx two_view !! "p") /\ v_ali two_view !! "both" = Some ["p"; "q"].
Proof. destruct (example_two any_call true letters) as [s Hs]; try done. exists s. split; [done|]. by repeat split. Qed.

(** ** C33 *)
Theorem C33_put_discarded :
  forall ckn tk s v a d q e,
    tracks ckn tk s v -> unblocked v -> v_idx v !! a = None -> v_ali v !! a = Some [] ->
    ret_ ckn tk (CPut a d) s (eq OUnit) v /\
    (forall s', after (CPut a d) s s' -> ret_ ckn tk (CHas a) s' (eq (OBool false)) v) /\
    ret_ ckn tk (CSearch a q e) s (eq (OResults [])) v.
Proof.
  intros ckn tk s v a d q e Ht [HI HA] Hi Ha.
  assert (Hr : ret_ ckn tk (CPut a d) s (eq OUnit) v).
  { eapply ret_det; [exact Ht|]. intros o Ho. us Ho. rewrite Hi, HA, Ha, HI in Ho.
    rewrite decide_False in Ho by (intros E; by apply E).
    rewrite decide_False in Ho by (intros Hx; inversion Hx). subst. f_equal. destruct v; cbn in *. congruence. }
  split; [done|]. split.
  - intros s' Hs'. eapply returns_weaken; [apply has_index; by eapply returns_after|].
    simpl. intros b <-. rewrite Hi. rewrite bool_decide_false; [done|]. by intros [? ?].
  - eapply ret_det; [exact Ht|]. intros o Ho. us Ho. rewrite Hi, HA, Ha in Ho.
    destruct Ho as [(bl & bl' & H1 & H2 & ->)|[H _]]; [|by inversion H].
    destruct bl; [|done]. by apply Permutation_nil_r in H2 as ->.
Qed.
Print Assumptions C33_put_discarded.

(** "A document put under a name can be found under that name" fails. *)
Theorem C33_put_is_stored_refuted :
  exists tk s v a d,
    tracks true tk s v /\ unblocked v /\
    ret_ true tk (CHasAlias a) s (eq (OBool true)) v /\
    ret_ true tk (CPut a d) s (eq OUnit) v /\
    forall s' q, after (CPut a d) s s' ->
      ret_ true tk (CSearch a q LinearSearch) s' (eq (OResults [])) v.
Proof.
  destruct (example_emptied true letters any_call) as [s Hs]; try done.
  exists letters, s, emptied_view, "both", dA. split; [done|]. split; [done|].
  destruct (C33_put_discarded true letters s emptied_view "both" dA "" LinearSearch Hs) as (H1 & H2 & H3); try done.
  split; [by eapply ret_det|]. split; [done|]. intros s' q Hs'.
  destruct (C33_put_discarded true letters s' emptied_view "both" dA q LinearSearch) as (_ & _ & H); try done.
  exact (returns_after _ _ _ _ _ _ _ _ H1 Hs').
Qed.
Print Assumptions C33_put_is_stored_refuted.

Example C33_example : exists s, tracks true letters s emptied_view /\ unblocked emptied_view /\
  v_idx emptied_view !! "both" = None /\ v_ali emptied_view !! "both" = Some [].
Proof. destruct (example_emptied true letters any_call) as [s Hs]; try done. by exists s. Qed.

(** ** C34 *)
(** Which locks an UnAlias of an association leaves behind. *)
Theorem C34_leak_exactly_when_missing :
  forall ckn tk s v a i r s',
    tracks ckn tk s v -> i <> "" -> call_result (CUnAlias a i) s (Done r s') ->
    (v_idx v !! i = None ->
       r = RBool false /\ rw_readers (r_imu s') = S (rw_readers (r_imu s)) /\ r_amu s' = r_amu s) /\
    (is_Some (v_idx v !! i) -> v_ali v !! a = None ->
       r = RBool false /\ r_imu s' = r_imu s /\ rw_writer (r_amu s) = false /\ rw_writer (r_amu s') = true) /\
    (is_Some (v_idx v !! i) -> is_Some (v_ali v !! a) ->
       r = RBool true /\ r_imu s' = r_imu s /\ r_amu s' = r_amu s).
Proof.
  intros ckn tk s v a i r s' Ht Hi Hc.
  destruct (reach_call _ _ _ _ _ _ _ Ht I Hc) as (v' & Hs & Ht').
  pose proof (reach_shape _ _ _ _ _ Ht) as [_ _ E1 E2].
  pose proof (reach_shape _ _ _ _ _ Ht') as [_ _ E3 E4].
  us Hs. rewrite decide_False in Hs by done.
  assert (Hr : forall b, see s' r = OBool b -> r = RBool b).
  { intros b Hb. destruct r; cbn [see] in Hb; congruence. }
  split_and!.
  - intros Hx. rewrite decide_True in Hs by done. injection Hs as H1 H2. subst v'. cbn in E3, E4.
    rewrite E1, E2, E3, E4. auto.
  - intros [reqs Hx] Ha. rewrite decide_False in Hs by congruence. rewrite Ha in Hs.
    destruct (v_leakA v) eqn:El; [done|]. injection Hs as H1 H2. subst v'. cbn in E3, E4.
    rewrite E1, E2, E3, E4. auto.
  - intros [reqs Hx] [l Ha]. rewrite decide_False in Hs by congruence. rewrite Ha in Hs.
    destruct (v_leakA v) eqn:El; [done|]. injection Hs as H1 H2. subst v'. cbn in E3, E4.
    rewrite E1, E2, E3, E4. auto.
Qed.
Print Assumptions C34_leak_exactly_when_missing.

(** Leaks are never undone. *)
Lemma leaks_grow ckn tk v c b v' :
  spec ckn tk c v (ODone b v') ->
  v_leakI v <= v_leakI v' /\ (v_leakA v = true -> v_leakA v' = true).
Proof.
  intros H. destruct c; us H.
  - by destruct H as (? & _ & [= -> ->]).
  - destruct (v_leakA v); [done|]. by destruct H as (? & _ & [= -> ->]).
  - by simplify_eq.
  - destruct (v_leakA v); by simplify_eq.
  - repeat case_decide; repeat case_match; simplify_eq; cbn; split; try lia; congruence.
  - repeat case_decide; repeat case_match; simplify_eq; cbn; split; try lia; congruence.
  - destruct (v_idx v !! index) as [reqs|].
    + case_decide; simplify_eq. cbn. done.
    + destruct (v_leakA v) eqn:E; [done|]. case_decide; [done|].
      destruct (v_ali v !! index) as [l|]; [case_decide|]; simplify_eq; cbn; split; (lia || congruence).
  - destruct (v_idx v !! index).
    + case_match; by simplify_eq.
    + destruct (v_leakA v); [done|]. destruct (v_ali v !! index) as [[|x [|y l]]|].
      * destruct H as [(? & ? & _ & _ & [= -> ->])|[_ [=]]]; done.
      * case_match; by simplify_eq.
      * destruct H as [(? & ? & _ & _ & [= -> ->])|[_ [=]]]; done.
      * by simplify_eq.
  - case_decide; [done|]. case_match; simplify_eq; cbn; done.
  - repeat case_decide; repeat case_match; simplify_eq; cbn; split; try lia; congruence.
  - destruct H as (? & [= -> ->]). done.
Qed.

Lemma spec_panic_same ckn tk v c v' : spec ckn tk c v (OPanic v') -> v' = v.
Proof.
  intros H. destruct c; us H; try done; try by (destruct H as (? & ? & ?)).
  - destruct (v_leakA v); [done|]. by destruct H as (? & _ & ?).
  - destruct (v_leakA v); done.
  - repeat case_decide; repeat case_match; done.
  - repeat case_decide; repeat case_match; done.
  - destruct (v_idx v !! index); [by case_decide|]. destruct (v_leakA v); [done|]. case_decide; [done|].
    destruct (v_ali v !! index); [case_decide|]; done.
  - destruct (v_idx v !! index).
    + case_match; by simplify_eq.
    + destruct (v_leakA v); [done|]. destruct (v_ali v !! index) as [[|x [|y l]]|]; try done.
      * destruct H as [(? & ? & _ & _ & ?)|[_ ?]]; done.
      * case_match; by simplify_eq.
      * destruct H as [(? & ? & _ & _ & ?)|[_ ?]]; done.
  - case_decide; [done|]. case_match; done.
  - repeat case_decide; repeat case_match; done.
  - by destruct H.
Qed.

Lemma leaks_stay ckn tk ok s v s' v' :
  shape ckn tk s v -> reach_from ckn tk ok s v s' v' ->
  v_leakI v <= v_leakI v' /\ (v_leakA v = true -> v_leakA v' = true).
Proof.
  intros Hs0 H. apply (reach_inv ckn tk ok (fun w => v_leakI v <= v_leakI w /\ (v_leakA v = true -> v_leakA w = true))
    s v s' v'); [done|done|..|done].
  - intros w c b w' [H1 H2] _ Hs. apply leaks_grow in Hs as [H3 H4]. split; [lia|auto].
  - intros w c w' Hw _ Hs. by apply spec_panic_same in Hs as ->.
  - intros _ w w' _ [H1 H2] [H3 H4] _. rewrite H3 in H1. rewrite H4 in H2. split; [lia|]. intros E. by apply H2 in E.
Qed.

(** [s'] is any state after further calls. *)
Definition later ckn tk (s s' : repo) (v' : view) : Prop :=
  exists v, tracks ckn tk s v /\ reach_from ckn tk any_call s v s' v'.

Theorem C34_missing_index_blocks_writers :
  forall ckn tk s v a i s1 s2 v2,
    tracks ckn tk s v -> i <> "" -> v_idx v !! i = None ->
    after (CUnAlias a i) s s1 -> later ckn tk s1 s2 v2 ->
    (forall n d, blocks (CPut n d) s2) /\
    (forall old new, blocks (CRename old new) s2) /\
    (forall n, is_Some (v_idx v2 !! n) -> blocks (CDrop n) s2).
Proof.
  intros ckn tk s v a i s1 s2 v2 Ht Hi Hx [r Hr] (v1 & Ht1 & Hl).
  pose proof (reach_shape _ _ _ _ _ Ht1) as [_ _ E1 _].
  pose proof (reach_shape _ _ _ _ _ Ht) as [_ _ E2 _].
  destruct (C34_leak_exactly_when_missing _ _ _ _ _ _ _ _ Ht Hi Hr) as [H1 _].
  destruct (H1 Hx) as (_ & H2 & _). rewrite E1, E2 in H2. cbn in H2.
  destruct (leaks_stay _ _ _ _ _ _ _ (reach_shape _ _ _ _ _ Ht1) Hl) as [HL _].
  assert (HI : v_leakI v2 <> 0%nat) by lia.
  pose proof (reach_trans _ _ _ _ _ _ _ Ht1 Hl) as Ht2. split_and!; intros.
  - eapply blocks_intro; [exact Ht2|]. intros o Ho. us Ho. destruct (v_idx v2 !! n).
    + by rewrite decide_True in Ho.
    + destruct (v_leakA v2); [done|]. by rewrite decide_True in Ho.
  - eapply blocks_intro; [exact Ht2|]. intros o Ho. us Ho. by rewrite decide_True in Ho.
  - eapply blocks_intro; [exact Ht2|]. intros o Ho. us Ho. destruct H as [? H]. rewrite decide_False in Ho by congruence.
    by rewrite decide_True in Ho.
Qed.
Print Assumptions C34_missing_index_blocks_writers.

Theorem C34_missing_alias_blocks :
  forall ckn tk s v a i s1 s2 v2,
    tracks ckn tk s v -> i <> "" -> is_Some (v_idx v !! i) -> v_ali v !! a = None ->
    after (CUnAlias a i) s s1 -> later ckn tk s1 s2 v2 ->
    (forall b, blocks (CHasAlias b) s2) /\
    blocks CListAliases s2 /\
    (forall b, blocks (CUnAlias b "") s2) /\
    (forall b n, is_Some (v_idx v2 !! n) -> blocks (CAlias b n) s2) /\
    (forall b n, is_Some (v_idx v2 !! n) -> blocks (CUnAlias b n) s2) /\
    (forall n, is_Some (v_idx v2 !! n) -> blocks (CDrop n) s2) /\
    (forall n d, v_idx v2 !! n = None -> blocks (CPut n d) s2) /\
    (forall n q e, v_idx v2 !! n = None -> blocks (CSearch n q e) s2).
Proof.
  intros ckn tk s v a i s1 s2 v2 Ht Hi Hx Ha [r Hr] (v1 & Ht1 & Hl).
  pose proof (reach_shape _ _ _ _ _ Ht1) as [_ _ _ E1].
  destruct (C34_leak_exactly_when_missing _ _ _ _ _ _ _ _ Ht Hi Hr) as (_ & H1 & _).
  destruct (H1 Hx Ha) as (_ & _ & _ & H2). rewrite E1 in H2. cbn in H2.
  destruct (leaks_stay _ _ _ _ _ _ _ (reach_shape _ _ _ _ _ Ht1) Hl) as [_ HL]. specialize (HL H2).
  pose proof (reach_trans _ _ _ _ _ _ _ Ht1 Hl) as Ht2.
  split_and!; intros; (eapply blocks_intro; [exact Ht2|]); intros o Ho; us Ho; rewrite ?HL in Ho; try done.
  - destruct H as [? H]. by rewrite decide_False in Ho by congruence.
  - destruct H as [? H]. rewrite (decide_False (P := v_idx v2 !! n = None)) in Ho by congruence. by case_decide.
  - destruct H as [? H]. rewrite decide_False in Ho by congruence. by case_decide.
  - by rewrite H in Ho.
  - by rewrite H in Ho.
Qed.
Print Assumptions C34_missing_alias_blocks.

(** So one harmless-looking call can make the repo unusable. *)
Theorem C34_unalias_is_harmless_refuted :
  exists tk s v, tracks true tk s v /\ unblocked v /\
    exists v1 s1, ret_ true tk (CUnAlias "both" "typo") s (eq (OBool false)) v1 /\
      after (CUnAlias "both" "typo") s s1 /\ forall n d, blocks (CPut n d) s1.
Proof.
  destruct (example_two any_call true letters) as [s Hs]; try done.
  exists letters, s, two_view. split; [done|]. split; [done|].
  exists (MkView two_idx two_ali 1 false).
  assert (Hr : ret_ true letters (CUnAlias "both" "typo") s (eq (OBool false)) (MkView two_idx two_ali 1 false)).
  { eapply ret_det; [exact Hs|]. intros o Ho. exact Ho. }
  destruct Hr as [[res Hres] H] eqn:Er. destruct (H _ Hres) as (r & s1 & -> & _ & Ht1).
  exists s1. split; [exact Hr|]. assert (Ha : after (CUnAlias "both" "typo") s s1) by (by exists r).
  split; [exact Ha|].
  apply (C34_missing_index_blocks_writers true letters s two_view "both" "typo" s1 s1 (MkView two_idx two_ali 1 false));
    try done. exists (MkView two_idx two_ali 1 false). split; [exact Ht1|constructor].
Qed.
Print Assumptions C34_unalias_is_harmless_refuted.

Example C34_example : exists s s1 v1, tracks true letters s two_view /\
  is_Some (v_idx two_view !! "p") /\ v_ali two_view !! "none" = None /\
  after (CUnAlias "none" "p") s s1 /\ later true letters s1 s1 v1.
Proof.
  destruct (example_two any_call true letters) as [s Hs]; try done.
  assert (Hr : ret_ true letters (CUnAlias "none" "p") s (eq (OBool false)) (MkView two_idx two_ali 0 true)).
  { eapply ret_det; [exact Hs|]. intros o Ho. exact Ho. }
  destruct Hr as [[res Hres] H]. destruct (H _ Hres) as (r & s1 & -> & _ & Ht1).
  exists s, s1, (MkView two_idx two_ali 0 true). split; [done|]. split; [eexists; reflexivity|].
  split; [done|]. split; [by exists r|]. eexists. split; [exact Ht1|constructor].
Qed.

(** ** C35 *)
Definition no_leak (v : view) (c : call) : Prop := ~ leaky v c.

Lemma no_leak_step ckn tk v c b v' :
  unblocked v -> no_leak v c -> spec ckn tk c v (ODone b v') -> unblocked v'.
Proof.
  intros [HI HA] Hok H. unfold unblocked. destruct c; us H.
  - by destruct H as (? & _ & [= -> ->]).
  - rewrite HA in H. by destruct H as (? & _ & [= -> ->]).
  - by simplify_eq.
  - rewrite HA in H. by simplify_eq.
  - repeat case_decide; repeat case_match; simplify_eq; cbn; auto; congruence.
  - destruct (decide (index = "")); [rewrite HA in H; by simplify_eq|].
    destruct (decide (v_idx v !! index = None)).
    { exfalso. apply Hok. exists alias, index. auto. }
    rewrite HA in H. destruct (v_ali v !! alias) eqn:E; [by simplify_eq|].
    exfalso. apply Hok. exists alias, index. auto.
  - destruct (v_idx v !! index) as [reqs|].
    + case_decide; simplify_eq. cbn. done.
    + rewrite HA in H. case_decide; [done|].
      destruct (v_ali v !! index) as [l|]; [case_decide|]; simplify_eq; cbn; auto.
  - destruct (v_idx v !! index).
    + case_match; by simplify_eq.
    + rewrite HA in H. destruct (v_ali v !! index) as [[|x [|y l]]|].
      * destruct H as [(? & ? & _ & _ & [= -> ->])|[_ [=]]]; done.
      * case_match; by simplify_eq.
      * destruct H as [(? & ? & _ & _ & [= -> ->])|[_ [=]]]; done.
      * by simplify_eq.
  - case_decide; [done|]. case_match; simplify_eq; cbn; done.
  - repeat case_decide; repeat case_match; simplify_eq; cbn; auto; congruence.
  - destruct H as (? & [= -> ->]). done.
Qed.

Lemma no_leak_unblocked ckn tk s v : reach ckn tk no_leak s v -> unblocked v.
Proof.
  intros H. eapply (reach_inv _ _ _ unblocked); [apply shape_new|..|exact H].
  - done.
  - intros. by eapply no_leak_step.
  - intros w c w' Hw _ Hs. by apply spec_panic_same in Hs as ->.
  - intros cs w w' Hok _ _ (_ & _ & _ & _ & _ & _ & _ & _ & _ & Ht). apply Ht. intros a i Hin.
    destruct (decide (i = "")) as [->|Hi]; [done|]. exfalso. apply (Hok _ Hin new_view). exists a, i. split_and!; [done..|by left].
Qed.

Lemma unblocked_not_blocked ckn tk v c : unblocked v -> ~ spec ckn tk c v OBlock.
Proof.
  intros [HI HA] H. destruct c; us H; rewrite ?HA, ?HI in H; try done; try by (destruct H as (? & ? & ?)).
  - repeat case_decide; done.
  - repeat case_decide; repeat case_match; done.
  - destruct (v_idx v !! index); [by case_decide|]. case_decide; [done|].
    destruct (v_ali v !! index); [case_decide|]; done.
  - destruct (v_idx v !! index); [by case_match|].
    destruct (v_ali v !! index) as [[|x [|y l]]|]; try done.
    + destruct H as [(? & ? & _ & _ & ?)|[_ ?]]; done.
    + by case_match.
    + destruct H as [(? & ? & _ & _ & ?)|[_ ?]]; done.
  - case_decide; [done|]. case_match; done.
  - repeat case_decide; done.
  - by destruct H.
Qed.

Theorem C35_no_block_without_leak :
  forall ckn tk s v c,
    reach ckn tk no_leak s v ->
    r_imu s = rw_free /\ r_amu s = rw_free /\ ~ call_result c s Blocked.
Proof.
  intros ckn tk s v c Ht. pose proof (no_leak_unblocked _ _ _ _ Ht) as Hu.
  pose proof (reach_shape _ _ _ _ _ Ht) as [H1 H2 E1 E2]. destruct Hu as [HI HA].
  rewrite HI in E1. rewrite HA in E2. split; [done|]. split; [done|]. intros Hc.
  assert (Ht' : tracks ckn tk s v) by (eapply reach_weaken; [|exact Ht]; done).
  exact (unblocked_not_blocked _ _ _ _ (conj HI HA) (reach_call _ _ _ _ _ _ _ Ht' I Hc)).
Qed.
Print Assumptions C35_no_block_without_leak.

Example C35_example : exists s, reach true letters no_leak s emptied_view.
Proof.
  apply example_emptied; try done.
  - intros v n d (? & ? & ? & _). done.
  - intros v n d (? & ? & ? & _). done.
Qed.

(** ** C36 *)
Lemma put_each_lookup d l idx n :
  NoDup l ->
  put_each d l idx !! n = if decide (n ∈ l) then (fun reqs => reqs ++ [d]) <$> idx !! n else idx !! n.
Proof.
  induction 1 as [|x l Hx Hl IH]; [done|]. simpl. destruct (decide (n = x)) as [->|Hne].
  - rewrite lookup_alter, decide_True by left. by rewrite put_each_ne.
  - rewrite lookup_alter_ne by done. rewrite IH. apply decide_ext. set_solver.
Qed.

Theorem C36_put_through_alias :
  forall ckn tk s v a l d,
    tracks ckn tk s v -> unblocked v ->
    v_idx v !! a = None -> v_ali v !! a = Some l -> NoDup l -> (forall n, n ∈ l -> is_Some (v_idx v !! n)) ->
    exists v',
      ret_ ckn tk (CPut a d) s (eq OUnit) v' /\
      v_ali v' = v_ali v /\ unblocked v' /\ v_idx v' !! a = None /\
      (forall n reqs, n ∈ l -> v_idx v !! n = Some reqs -> v_idx v' !! n = Some (reqs ++ [d])) /\
      (forall n, n ∉ l -> v_idx v' !! n = v_idx v !! n).
Proof.
  intros ckn tk s v a l d Ht [HI HA] Hi Ha Hl Hex.
  exists (MkView (put_each d l (v_idx v)) (v_ali v) 0 false). split_and!; try done.
  - eapply ret_det; [exact Ht|]. intros o Ho. us Ho. rewrite Hi, HA, Ha, HI in Ho.
    rewrite decide_False in Ho by (intros E; by apply E).
    rewrite decide_False in Ho; [done|]. intros (n & Hn & Hx)%Exists_exists.
    destruct (Hex n Hn) as [? ?]. congruence.
  - cbn [v_idx]. rewrite put_each_lookup by done. rewrite Hi. by case_decide.
  - intros n reqs Hn E. cbn [v_idx]. rewrite put_each_lookup, decide_True by done. by rewrite E.
  - intros n Hn. cbn [v_idx]. by rewrite put_each_lookup, decide_False by done.
Qed.
Print Assumptions C36_put_through_alias.

Example C36_example : exists s, tracks true letters s two_view /\ unblocked two_view /\
  v_idx two_view !! "both" = None /\ v_ali two_view !! "both" = Some ["p"; "q"] /\ NoDup ["p"; "q"] /\
  (forall n, n ∈ ["p"; "q"] -> is_Some (v_idx two_view !! n)).
Proof.
  destruct (example_two any_call true letters) as [s Hs]; try done. exists s. split_and!; try done.
  - by apply (bool_decide_unpack _).
  - intros n [->|[->|Hn%elem_of_nil]%elem_of_cons]%elem_of_cons; [eexists; reflexivity..|done].
Qed.

(** ** C37 *)
(** [b] is what the engine finds in the index called [n]. *)
Definition found_in ckn tk (v : view) (q : string) (e : Engine) (n : string) (b : list SearchResult) : Prop :=
  exists reqs, v_idx v !! n = Some reqs /\ mi_Search ckn (index_after "" tk reqs) q e = Ok b.

Lemma found_blocks ckn tk v q e l bl :
  Forall2 (found_in ckn tk v q e) l bl <-> (search_name ckn tk (v_idx v) q e <$> l) = Ok <$> bl.
Proof.
  split.
  - induction 1 as [|n b l bl (reqs & H1 & H2) _ IH]; [done|]. cbn. f_equal; [|exact IH].
    unfold search_name. by rewrite H1.
  - revert bl. induction l as [|n l IH]; intros [|b bl] H; [constructor|done..|].
    cbn in H. injection H as H1 H2. constructor; [|by apply IH].
    unfold search_name in H1. destruct (v_idx v !! n) as [reqs|] eqn:E; [|done]. by exists reqs.
Qed.

Lemma Ok_inj {A} (l l' : list A) : Ok <$> l = Ok <$> l' -> l = l'.
Proof.
  revert l'. induction l as [|x l IH]; intros [|y l'] H; try done. cbn in H.
  injection H as -> H. f_equal. by apply IH.
Qed.

Lemma Permutation_singleton_r' {A} (x : A) l : l ≡ₚ [x] -> l = [x].
Proof. apply Permutation_singleton_r. Qed.

Theorem C37_search_alias_blocks :
  forall ckn tk s v a l q e bl,
    tracks ckn tk s v -> v_leakA v = false ->
    v_idx v !! a = None -> v_ali v !! a = Some l -> Forall2 (found_in ckn tk v q e) l bl ->
    ret_ ckn tk (CSearch a q e) s (fun b => exists bl', bl' ≡ₚ bl /\ b = OResults (concat bl')) v.
Proof.
  intros ckn tk s v a l q e bl Ht HA Hi Ha Hbl%found_blocks.
  eapply returns_intro; [exact Ht|done|]. intros o Ho. us Ho. rewrite Hi, HA, Ha in Ho.
  assert (Hm : search_many ckn tk (v_idx v) q e l o v ->
    exists b, o = ODone b v /\ exists bl', bl' ≡ₚ bl /\ b = OResults (concat bl')).
  { intros [(bl1 & bl' & H1 & H2 & ->)|[H _]].
    - eexists. split; [done|]. exists bl'. split; [|done]. rewrite Hbl in H1.
      by apply Ok_inj in H1 as ->.
    - exfalso. rewrite Hbl in H. by apply elem_of_list_fmap in H as (? & ? & _). }
  destruct l as [|x [|y l]]; [by apply Hm| |by apply Hm].
  destruct bl as [|b [|]]; try done. cbn in Hbl. injection Hbl as Hb. rewrite Hb in Ho. subst.
  eexists. split; [done|]. exists [b]. split; [done|]. simpl. by rewrite app_nil_r.
Qed.
Print Assumptions C37_search_alias_blocks.

(** Every order of the blocks is the outcome of some schedule. *)
Theorem C37_every_block_order_possible :
  forall ckn tk s v a l q e bl bl',
    tracks ckn tk s v -> v_leakA v = false ->
    v_idx v !! a = None -> v_ali v !! a = Some l -> Forall2 (found_in ckn tk v q e) l bl -> bl' ≡ₚ bl ->
    call_result (CSearch a q e) s (Done (RResults (concat bl')) s).
Proof.
  intros ckn tk s v a l q e bl bl' Ht HA Hi Ha Hbl%found_blocks Hp.
  destruct (C29_machine_is_exact ckn tk s v (CSearch a q e) (ODone (OResults (concat bl')) v) Ht) as (r & s' & H1 & H2 & _).
  - done.
  - us Hp. cbn beta iota zeta delta [spec]. rewrite Hi, HA, Ha.
    destruct l as [|x [|y l]]; [left; by exists bl, bl'| |left; by exists bl, bl'].
    destruct bl as [|b [|]]; try done. cbn in Hbl. injection Hbl as ->.
    apply Permutation_singleton_r' in Hp as ->. simpl. by rewrite app_nil_r.
  - pose proof (reading_keeps (CSearch a q e) s r s' I H1) as ->.
    destruct r; cbn [see] in H2; try discriminate H2. injection H2 as ->. exact H1.
Qed.
Print Assumptions C37_every_block_order_possible.

(** The result list is not a function of the repo's contents. *)
Theorem C37_deterministic_refuted :
  exists tk s v a q r1 r2,
    tracks true tk s v /\ unblocked v /\ r1 <> r2 /\
    call_result (CSearch a q LinearSearch) s (Done (RResults r1) s) /\
    call_result (CSearch a q LinearSearch) s (Done (RResults r2) s).
Proof.
  destruct (example_two any_call true letters) as [s Hs]; try done.
  exists letters, s, two_view, "both", "b", [MkSR (doc_of dA) 1; MkSR (doc_of dB) 1], [MkSR (doc_of dB) 1; MkSR (doc_of dA) 1].
  split; [done|]. split; [done|]. split; [done|].
  assert (Hf : Forall2 (found_in true letters two_view "b" LinearSearch) ["p"; "q"]
                [[MkSR (doc_of dA) 1]; [MkSR (doc_of dB) 1]]).
  { constructor; [|constructor; [|constructor]].
    - exists [dA]. split; [done|]. by rewrite C01_linear_search_exact.
    - exists [dB]. split; [done|]. by rewrite C01_linear_search_exact. }
  split.
  - exact (C37_every_block_order_possible true letters s two_view "both" ["p"; "q"] "b" LinearSearch
      [[MkSR (doc_of dA) 1]; [MkSR (doc_of dB) 1]] [[MkSR (doc_of dA) 1]; [MkSR (doc_of dB) 1]] Hs eq_refl eq_refl eq_refl Hf
      (reflexivity _)).
  - exact (C37_every_block_order_possible true letters s two_view "both" ["p"; "q"] "b" LinearSearch
      [[MkSR (doc_of dA) 1]; [MkSR (doc_of dB) 1]] [[MkSR (doc_of dB) 1]; [MkSR (doc_of dA) 1]] Hs eq_refl eq_refl eq_refl Hf
      (Permutation_swap _ _ _)).
Qed.
Print Assumptions C37_deterministic_refuted.

(** ** C38 *)
Theorem C38_index_hides_alias :
  forall ckn tk s v n reqs d q e,
    tracks ckn tk s v -> v_leakI v = 0 -> v_idx v !! n = Some reqs ->
    ret_ ckn tk (CPut n d) s (eq OUnit)
      (MkView (<[n := reqs ++ [d]]> (v_idx v)) (v_ali v) (v_leakI v) (v_leakA v)) /\
    (forall l, mi_Search ckn (index_after "" tk reqs) q e = Ok l ->
       ret_ ckn tk (CSearch n q e) s (eq (OResults l)) v).
Proof.
  intros ckn tk s v n reqs d q e Ht HI Hn. split.
  - eapply ret_det; [exact Ht|]. intros o Ho. us Ho. rewrite Hn in Ho.
    rewrite decide_False in Ho by lia. subst. f_equal. f_equal. unfold put_each. simpl.
    apply map_eq. intros i. destruct (decide (i = n)) as [->|Hne].
    + by rewrite lookup_alter, Hn, lookup_insert.
    + by rewrite lookup_alter_ne, lookup_insert_ne.
  - intros l Hl. by eapply search_index.
Qed.
Print Assumptions C38_index_hides_alias.

(** An index "p" and an alias "p" listing the index "q". *)
Definition shadow_view : view := MkView two_idx (<["p" := ["q"]]> two_ali) 0 false.
Example C38_example : exists s, tracks true letters s shadow_view /\ v_leakI shadow_view = 0 /\
  v_idx shadow_view !! "p" = Some [dA] /\ v_ali shadow_view !! "p" = Some ["q"].
Proof.
  destruct (example_two any_call true letters) as [s Hs]; try done.
  destruct (next_alias true letters any_call s two_idx two_ali "p" "q" Hs) as [s1 R1]; try done.
  { apply not_elem_of_nil. }
  by exists s1.
Qed.

(** ** C39 *)
Theorem C39_unknown_name_fails :
  forall ckn tk s v n q e,
    tracks ckn tk s v ->
    (v_idx v !! n = None -> v_ali v !! n = None -> v_leakA v = false ->
       ret_ ckn tk (CSearch n q e) s (eq (OError ("index with name '" ++ n ++ "' does not exist"))) v) /\
    (forall msg s', call_result (CSearch n q e) s (Done (RError msg) s') ->
       v_idx v !! n = None /\ v_ali v !! n = None /\ msg = ("index with name '" ++ n ++ "' does not exist")%string).
Proof.
  intros ckn tk s v n q e Ht. split.
  - intros Hi Ha HA. eapply ret_det; [exact Ht|]. intros o Ho. us Ho. by rewrite Hi, HA, Ha in Ho.
  - intros msg s' Hc. destruct (reach_call _ _ _ _ _ _ _ Ht I Hc) as (v' & Hs & _). us Hs.
    cbn [see] in Hs. destruct (v_idx v !! n); [by case_match|]. destruct (v_leakA v); [done|].
    destruct (v_ali v !! n) as [[|x [|y l]]|].
    + by destruct Hs as [(? & ? & _ & _ & ?)|[_ ?]].
    + by case_match.
    + by destruct Hs as [(? & ? & _ & _ & ?)|[_ ?]].
    + by injection Hs as -> _.
Qed.
Print Assumptions C39_unknown_name_fails.

(** No Search changes anything at all: no index, alias, array or lock; from
    any state whatever, reached or not. *)
Theorem C39_search_changes_nothing :
  forall s n q e s',
    (forall r, call_result (CSearch n q e) s (Done r s') -> s' = s) /\
    (call_result (CSearch n q e) s (Panicked s') -> s' = s).
Proof.
  intros s n q e s'. split.
  - intros r. by apply (reading_keeps (CSearch n q e)).
  - by apply (reading_keeps_panic (CSearch n q e)).
Qed.
Print Assumptions C39_search_changes_nothing.

Example C39_example : exists s, tracks true letters s two_view /\ v_idx two_view !! "zz" = None /\
  v_ali two_view !! "zz" = None /\ v_leakA two_view = false /\
  exists s', call_result (CSearch "zz" "b" LinearSearch) s (Done (RError "index with name 'zz' does not exist") s').
Proof.
  destruct (example_two any_call true letters) as [s Hs]; try done.
  exists s. split_and!; try done.
  destruct (proj1 (C39_unknown_name_fails true letters s two_view "zz" "b" LinearSearch Hs)) as [[res Hres] H]; try done.
  destruct (H _ Hres) as (r & s' & -> & E & _). exists s'. destruct r; cbn [see] in E; try discriminate E.
  injection E as <-. exact Hres.
Qed.

(** ** C40 *)
Theorem C40_drop :
  forall ckn tk s v i,
    tracks ckn tk s v -> unblocked v ->
    (v_idx v !! i = None -> ret_ ckn tk (CDrop i) s (eq (OBool false)) v) /\
    (is_Some (v_idx v !! i) ->
     exists v',
       ret_ ckn tk (CDrop i) s (eq (OBool true)) v' /\ unblocked v' /\
       v_idx v' = delete i (v_idx v) /\
       forall a, v_ali v' !! a =
         match v_ali v !! a with
         | None => None
         | Some l => if decide (filter (fun x => x <> i) l = []) then None
                     else Some (filter (fun x => x <> i) l)
         end).
Proof.
  intros ckn tk s v i Ht [HI HA]. split.
  - intros Hi. eapply ret_det; [exact Ht|]. intros o Ho. us Ho. by rewrite decide_True in Ho.
  - intros [reqs Hi]. exists (MkView (delete i (v_idx v)) (omap (drop_from i) (v_ali v)) 0 false).
    split_and!; try done.
    + eapply ret_det; [exact Ht|]. intros o Ho. us Ho. rewrite decide_False in Ho by congruence.
      rewrite HI, HA in Ho. by rewrite decide_False in Ho by (intros E; by apply E).
    + intros a. cbn [v_ali]. rewrite lookup_omap. destruct (v_ali v !! a) as [l|]; [|done].
      simpl. unfold drop_from, without. destruct (filter _ l) eqn:E; [by rewrite decide_True|by rewrite decide_False].
Qed.
Print Assumptions C40_drop.

(** A Put after a Drop starts from nothing. *)
Theorem C40_put_after_drop :
  forall ckn tk s v i d s1,
    tracks ckn tk s v -> unblocked v -> is_Some (v_idx v !! i) -> v_ali v !! i = None ->
    after (CDrop i) s s1 ->
    exists v2, ret_ ckn tk (CPut i d) s1 (eq OUnit) v2 /\ v_idx v2 !! i = Some [d].
Proof.
  intros ckn tk s v i d s1 Ht Hu Hi Ha Hs1.
  destruct (C40_drop ckn tk s v i Ht Hu) as [_ H]. destruct (H Hi) as (v1 & H1 & [HI HA] & H3 & H4).
  pose proof (returns_after _ _ _ _ _ _ _ _ H1 Hs1) as Ht1.
  exists (MkView (<[i := [d]]> (v_idx v1)) (v_ali v1) (v_leakI v1) (v_leakA v1)). split.
  - eapply ret_det; [exact Ht1|]. intros o Ho. us Ho. rewrite H4, Ha, HI, HA in Ho.
    rewrite H3 in Ho |- *. rewrite lookup_delete in Ho. rewrite decide_False in Ho by (intros E; by apply E).
    by rewrite HI, HA.
  - apply lookup_insert.
Qed.
Print Assumptions C40_put_after_drop.

(** Drop also removes an unrelated alias that UnAlias had emptied before. *)
Theorem C40_unrelated_alias_kept_refuted :
  exists tk s v i a l, tracks true tk s v /\ unblocked v /\ is_Some (v_idx v !! i) /\
    v_ali v !! a = Some l /\ i ∉ l /\
    forall s', after (CDrop i) s s' -> exists v', ret_ true tk (CHasAlias a) s' (eq (OBool false)) v'.
Proof.
  destruct (example_emptied true letters any_call) as [s Hs]; try done.
  exists letters, s, emptied_view, "p", "both", []. split_and!; try done.
  - by apply not_elem_of_nil.
  - intros s' Hs'. destruct (C40_drop true letters s emptied_view "p" Hs) as [_ H]; [done|].
    destruct H as (v1 & H1 & [HI HA] & H3 & H4); [done|].
    pose proof (returns_after _ _ _ _ _ _ _ _ H1 Hs') as Ht1. exists v1.
    eapply ret_det; [exact Ht1|]. intros o Ho. us Ho. rewrite HA, H4 in Ho. exact Ho.
Qed.
Print Assumptions C40_unrelated_alias_kept_refuted.

Example C40_example : exists s, tracks true letters s two_view /\ unblocked two_view /\
  is_Some (v_idx two_view !! "p") /\ v_ali two_view !! "p" = None.
Proof. destruct (example_two any_call true letters) as [s Hs]; try done. by exists s. Qed.

(** ** C41 *)
Theorem C41_rename :
  forall ckn tk s v old new,
    tracks ckn tk s v -> v_leakI v = 0 ->
    (v_idx v !! old = None -> ret_ ckn tk (CRename old new) s (eq (OBool false)) v) /\
    (forall reqs, v_idx v !! old = Some reqs -> v_idx v !! new = None ->
     exists v',
       ret_ ckn tk (CRename old new) s (eq (OBool true)) v' /\
       v_idx v' !! new = Some reqs /\ v_idx v' !! old = None /\
       (forall n, n <> old -> n <> new -> v_idx v' !! n = v_idx v !! n) /\
       (forall a, v_ali v' !! a =
          match v_ali v !! a with
          | None => None
          | Some l => Some (map (fun x => if decide (x = old) then new else x) l)
          end) /\
       v_leakI v' = v_leakI v /\ v_leakA v' = v_leakA v).
Proof.
  intros ckn tk s v old new Ht HI. split.
  - intros Hi. eapply ret_det; [exact Ht|]. intros o Ho. us Ho. rewrite decide_False in Ho by lia. by rewrite Hi in Ho.
  - intros reqs Hi Hn.
    exists (MkView (delete old (<[new := reqs]> (v_idx v))) (map (renamed old new) <$> v_ali v)
             (v_leakI v) (v_leakA v)).
    assert (old <> new) as Hne by congruence.
    split_and!; try done; cbn [v_idx v_ali].
    + eapply ret_det; [exact Ht|]. intros o Ho. us Ho. rewrite decide_False in Ho by lia. by rewrite Hi in Ho.
    + by rewrite lookup_delete_ne, lookup_insert.
    + by rewrite lookup_delete.
    + intros n H1 H2. by rewrite lookup_delete_ne, lookup_insert_ne.
    + intros a. rewrite lookup_fmap. by destruct (v_ali v !! a).
Qed.
Print Assumptions C41_rename.

Example C41_example : exists s, tracks true letters s two_view /\ v_leakI two_view = 0 /\
  v_idx two_view !! "p" = Some [dA] /\ v_idx two_view !! "fresh" = None.
Proof. destruct (example_two any_call true letters) as [s Hs]; try done. by exists s. Qed.

(** ** C42 *)
Lemma renamed_self x l : map (renamed x x) l = l.
Proof. induction l as [|y l IH]; [done|]. simpl. rewrite IH. unfold renamed. case_decide; by subst. Qed.

Theorem C42_self_rename_destroys :
  forall ckn tk s v x reqs,
    tracks ckn tk s v -> v_leakI v = 0 -> v_idx v !! x = Some reqs ->
    let v' := MkView (delete x (v_idx v)) (v_ali v) (v_leakI v) (v_leakA v) in
    ret_ ckn tk (CRename x x) s (eq (OBool true)) v' /\
    forall s' a l q e d,
      after (CRename x x) s s' -> v_leakA v = false ->
      v_ali v !! a = Some l -> x ∈ l -> (a = x \/ v_idx v !! a = None) ->
      crashes (CPut a d) s' /\
      (l = [x] -> panics ckn tk any_call (CSearch a q e) s' v') /\
      (l <> [x] -> crashes (CSearch a q e) s').
Proof.
  intros ckn tk s v x reqs Ht HI Hx v'.
  assert (Hr : ret_ ckn tk (CRename x x) s (eq (OBool true)) v').
  { eapply ret_det; [exact Ht|]. intros o Ho. us Ho. rewrite decide_False in Ho by lia. rewrite Hx in Ho.
    rewrite delete_insert_delete in Ho.
    replace (map (renamed x x) <$> v_ali v) with (v_ali v) in Ho; [done|].
    apply map_eq. intros i. rewrite lookup_fmap. destruct (v_ali v !! i); [|done]. simpl. by rewrite renamed_self. }
  split; [done|]. intros s' a l q e d Hs' HA Ha Hin Hna.
  pose proof (returns_after _ _ _ _ _ _ _ _ Hr Hs') as Ht'.
  assert (Hia : v_idx v' !! a = None).
  { subst v'. cbn [v_idx]. destruct Hna as [->|Hn]; [apply lookup_delete|]. by apply lookup_delete_None; right. }
  assert (Hxx : v_idx v' !! x = None) by apply lookup_delete.
  assert (HA' : v_leakA v' = false) by done. assert (HI' : v_leakI v' = 0) by done.
  assert (Ha' : v_ali v' !! a = Some l) by done. clearbody v'.
  assert (Hsn : search_name ckn tk (v_idx v') q e x = Panic) by (unfold search_name; by rewrite Hxx).
  split_and!.
  - eapply crashes_intro; [exact Ht'|]. intros o Ho. us Ho. rewrite Hia, HA', HI', Ha' in Ho.
    rewrite decide_False in Ho by (intros E; by apply E).
    rewrite decide_True in Ho; [done|]. apply Exists_exists. by exists x.
  - intros ->. eapply panics_intro; [exact Ht'|done|]. intros o Ho. us Ho. rewrite Hia, HA', Ha' in Ho.
    by rewrite Hsn in Ho.
  - intros Hl. eapply crashes_intro; [exact Ht'|]. intros o Ho. us Ho. rewrite Hia, HA', Ha' in Ho.
    assert (Hm : search_many ckn tk (v_idx v') q e l o v' -> o = OCrash).
    { intros [(bl & bl' & H1 & _)|[_ ->]]; [|done]. exfalso.
      assert (Hp : Panic ∈ (search_name ckn tk (v_idx v') q e <$> l)).
      { rewrite <- Hsn. by apply elem_of_list_fmap_1. }
      rewrite H1 in Hp. by apply elem_of_list_fmap in Hp as (? & ? & _). }
    destruct l as [|y [|z l]]; [by apply Hm| |by apply Hm].
    apply elem_of_list_singleton in Hin. subst. done.
Qed.
Print Assumptions C42_self_rename_destroys.

Theorem C42_self_rename_keeps_documents_refuted :
  exists tk s v x, tracks true tk s v /\ unblocked v /\ is_Some (v_idx v !! x) /\
    forall s', after (CRename x x) s s' -> exists v', ret_ true tk (CHas x) s' (eq (OBool false)) v'.
Proof.
  destruct (example_two any_call true letters) as [s Hs]; try done.
  exists letters, s, two_view, "p". split_and!; try done. intros s' Hs'.
  destruct (C42_self_rename_destroys true letters s two_view "p" [dA] Hs) as [H _]; try done.
  pose proof (returns_after _ _ _ _ _ _ _ _ H Hs') as Ht'. eexists.
  eapply ret_det; [exact Ht'|]. intros o Ho. exact Ho.
Qed.
Print Assumptions C42_self_rename_keeps_documents_refuted.

Example C42_example : exists s, tracks true letters s two_view /\ v_leakI two_view = 0 /\
  v_idx two_view !! "p" = Some [dA] /\ v_leakA two_view = false /\
  v_ali two_view !! "both" = Some ["p"; "q"] /\ "p" ∈ ["p"; "q"] /\ v_idx two_view !! "both" = None.
Proof. destruct (example_two any_call true letters) as [s Hs]; try done. exists s. split_and!; try done. left. Qed.

(** ** C43 *)
Lemma put_each_count d l idx n :
  put_each d l idx !! n =
  (fun reqs => reqs ++ replicate (length (filter (eq n) l)) d) <$> idx !! n.
Proof.
  induction l as [|x l IH]; simpl.
  - destruct (idx !! n) eqn:E; simpl; [by rewrite app_nil_r|done].
  - rewrite filter_cons. destruct (decide (n = x)) as [->|Hne].
    + rewrite lookup_alter, IH. destruct (idx !! x); [|done]. simpl. f_equal.
      rewrite <- app_assoc. f_equal. symmetry. apply replicate_cons_app.
    + rewrite lookup_alter_ne by done. exact IH.
Qed.

Theorem C43_rename_overwrites :
  forall ckn tk s v old new reqs lost,
    tracks ckn tk s v -> unblocked v -> old <> new ->
    v_idx v !! old = Some reqs -> v_idx v !! new = Some lost ->
    exists v', ret_ ckn tk (CRename old new) s (eq (OBool true)) v' /\ unblocked v' /\
      v_idx v' !! new = Some reqs /\ v_idx v' !! old = None /\
      forall a l s' d, after (CRename old new) s s' ->
        v_ali v !! a = Some l -> NoDup l -> old ∈ l -> new ∈ l -> v_idx v !! a = None ->
        (forall n, n ∈ l -> is_Some (v_idx v !! n)) ->
        (exists l', v_ali v' !! a = Some l' /\ length (filter (eq new) l') = 2) /\
        (exists v2, ret_ ckn tk (CPut a d) s' (eq OUnit) v2 /\ v_idx v2 !! new = Some (reqs ++ [d; d])) /\
        (forall q e b, mi_Search ckn (index_after "" tk reqs) q e = Ok b ->
           (forall n rs, v_idx v !! n = Some rs -> exists b', mi_Search ckn (index_after "" tk rs) q e = Ok b') ->
           ret_ ckn tk (CSearch a q e) s' (fun o => exists rest, exists res, o = OResults res /\ res ≡ₚ b ++ b ++ rest) v').
Proof.
  intros ckn tk s v old new reqs lost Ht [HI HA] Hne Ho Hn.
  set (v' := MkView (delete old (<[new := reqs]> (v_idx v))) (map (renamed old new) <$> v_ali v) 0 false).
  assert (Hr : ret_ ckn tk (CRename old new) s (eq (OBool true)) v').
  { eapply ret_det; [exact Ht|]. intros o Ho'. us Ho'. rewrite decide_False in Ho' by lia. rewrite Ho in Ho'.
    by rewrite HI, HA in Ho'. }
  assert (Hnew : v_idx v' !! new = Some reqs) by (subst v'; cbn; by rewrite lookup_delete_ne, lookup_insert).
  exists v'. split_and!; try done; [subst v'; cbn; apply lookup_delete|].
  intros a l s' d Hs' Ha Hnd Hol Hnl Hia Hex.
  pose proof (returns_after _ _ _ _ _ _ _ _ Hr Hs') as Ht'.
  set (l' := map (renamed old new) l).
  assert (Ha' : v_ali v' !! a = Some l') by (subst v'; cbn [v_ali]; by rewrite lookup_fmap, Ha).
  assert (Hcount : length (filter (eq new) l') = 2).
  { subst l'. apply elem_of_Permutation in Hol as [l1 Hp1].
    assert (new ∈ l1) as Hl1 by (rewrite Hp1 in Hnl; apply elem_of_cons in Hnl as [?|?]; [congruence|done]).
    apply elem_of_Permutation in Hl1 as [l2 Hp2]. rewrite Hp2 in Hp1. rewrite Hp1 in Hnd.
    apply NoDup_cons in Hnd as [Hx1 Hnd]. apply NoDup_cons in Hnd as [Hx2 _].
    assert (Hp : map (renamed old new) l ≡ₚ map (renamed old new) (old :: new :: l2)) by (by apply fmap_Permutation).
    rewrite Hp. simpl. unfold renamed at 1 2. rewrite decide_True by done. rewrite decide_False by congruence.
    rewrite !filter_cons, !decide_True by done. simpl. do 2 f_equal.
    clear -Hx1 Hx2. induction l2 as [|y l2 IH]; [done|]. simpl. unfold renamed at 1.
    rewrite decide_False by set_solver. rewrite filter_cons, decide_False by set_solver. apply IH; set_solver. }
  assert (Hia' : v_idx v' !! a = None).
  { subst v'. cbn [v_idx]. apply lookup_delete_None. right. rewrite lookup_insert_ne; [done|]. congruence. }
  assert (Hex' : forall n, n ∈ l' -> is_Some (v_idx v' !! n)).
  { intros n Hin. subst l' v'. apply elem_of_list_fmap in Hin as (y & -> & Hy). cbn [v_idx]. unfold renamed.
    case_decide; [rewrite lookup_delete_ne, lookup_insert; [by eexists|done]|].
    rewrite lookup_delete_ne by congruence. destruct (decide (y = new)) as [->|Hyn].
    - rewrite lookup_insert. by eexists.
    - rewrite lookup_insert_ne by done. by apply Hex. }
  split_and!.
  - exists l'. done.
  - exists (MkView (put_each d l' (v_idx v')) (v_ali v') 0 false). split.
    + eapply ret_det; [exact Ht'|]. intros o Ho'. us Ho'. rewrite Hia', Ha' in Ho'.
      change (v_leakA v') with false in Ho'. change (v_leakI v') with 0 in Ho'. cbv iota in Ho'.
      rewrite decide_False in Ho' by (intros E; by apply E).
      rewrite decide_False in Ho'; [done|]. intros (n & Hn1 & Hx)%Exists_exists.
      destruct (Hex' n Hn1) as [? ?]. subst v'. cbn [v_idx] in *. congruence.
    + cbn [v_idx]. rewrite put_each_count, Hnew, Hcount. done.
  - intros q e b Hb Hall.
    assert (exists bl, Forall2 (found_in ckn tk v' q e) l' bl) as [bl Hbl].
    { assert (Hf : forall n rs, v_idx v' !! n = Some rs -> exists b', mi_Search ckn (index_after "" tk rs) q e = Ok b').
      { intros n rs Hn1. subst v'. cbn [v_idx] in Hn1. apply lookup_delete_Some in Hn1 as [_ Hn1].
        apply lookup_insert_Some in Hn1 as [[_ <-]|[_ Hn1]]; eauto. }
      clear Hcount Ha'. induction l' as [|n l'' IH]; [by exists []|].
      destruct IH as [bl Hbl]; [intros; apply Hex'; by right|].
      destruct (Hex' n ltac:(left)) as [rs Hrs]. destruct (Hf n rs Hrs) as [b' Hb'].
      exists (b' :: bl). constructor; [|done]. by exists rs. }
    eapply returns_weaken.
    { apply (C37_search_alias_blocks ckn tk s' v' a l' q e bl); done. }
    intros o (bl' & Hp & ->). simpl.
    assert (Hbb : exists rest, bl ≡ₚ b :: b :: rest).
    { clear Hp. assert (Hfn : forall bn, found_in ckn tk v' q e new bn -> bn = b).
      { intros bn (rs & H1 & H2). rewrite Hnew in H1. injection H1 as <-. congruence. }
      clearbody l'. clear -Hbl Hcount Hfn.
      assert (forall k, length (filter (eq new) l') = k -> exists rest, bl ≡ₚ replicate k b ++ rest) as G.
      { clear Hcount. induction Hbl as [|n bn l' bl Hn Hbl IH]; intros k Hk.
        - simpl in Hk. subst. by exists [].
        - rewrite filter_cons in Hk. destruct (decide (new = n)) as [<-|Hne].
          + simpl in Hk. destruct k as [|k]; [done|]. destruct (IH k) as [rest Hr]; [lia|].
            exists rest. rewrite Hr. rewrite (Hfn bn Hn). done.
          + destruct (IH k Hk) as [rest Hr]. exists (bn :: rest). rewrite Hr. apply Permutation_middle. }
      destruct (G 2 Hcount) as [rest Hr]. by exists rest. }
    destruct Hbb as [rest Hrest]. exists (concat rest). eexists. split; [done|].
    rewrite Hp, Hrest. simpl. by rewrite <- ?app_assoc.
Qed.
Print Assumptions C43_rename_overwrites.

Example C43_example : exists s, tracks true letters s two_view /\ unblocked two_view /\
  v_idx two_view !! "p" = Some [dA] /\ v_idx two_view !! "q" = Some [dB] /\
  v_ali two_view !! "both" = Some ["p"; "q"] /\ NoDup ["p"; "q"] /\ v_idx two_view !! "both" = None /\
  exists b, mi_Search true (index_after "" letters [dA]) "b" LinearSearch = Ok b /\ b <> [].
Proof.
  destruct (example_two any_call true letters) as [s Hs]; try done. exists s. split_and!; try done.
  - by apply (bool_decide_unpack _).
  - rewrite C01_linear_search_exact. eexists. split; [reflexivity|]. done.
Qed.

(** ** C44 *)
(** Histories without a Rename(x, x) of an existing index. *)
Definition no_self_rename (v : view) (c : call) : Prop :=
  forall x, c = CRename x x -> v_idx v !! x = None.

Definition no_dangling (v : view) : Prop :=
  forall a l x, v_ali v !! a = Some l -> x ∈ l -> is_Some (v_idx v !! x).

Lemma put_each_is_Some d l idx x : is_Some (idx !! x) -> is_Some (put_each d l idx !! x).
Proof. rewrite put_each_count. intros [r ->]. by eexists. Qed.

Lemma no_dangling_step ckn tk v c b v' :
  no_dangling v -> no_self_rename v c -> spec ckn tk c v (ODone b v') -> no_dangling v'.
Proof.
  intros Hd Hok H. destruct c; us H.
  - by destruct H as (? & _ & [= -> ->]).
  - destruct (v_leakA v); [done|]. by destruct H as (? & _ & [= -> ->]).
  - by simplify_eq.
  - destruct (v_leakA v); by simplify_eq.
  - destruct (decide (v_idx v !! index = None)) as [Hi|Hi]; [by simplify_eq|].
    destruct (v_leakA v); [done|]. case_decide; simplify_eq; [done|].
    intros a l x. cbn [v_ali v_idx]. intros Ha Hx.
    apply lookup_insert_Some in Ha as [[<- <-]|[_ Ha]]; [|by eapply Hd].
    apply elem_of_app in Hx as [Hx|Hx].
    + destruct (v_ali v !! alias) eqn:E; [|by apply elem_of_nil in Hx]. by eapply Hd.
    + apply elem_of_list_singleton in Hx as ->. by apply not_eq_None_Some.
  - destruct (decide (index = "")).
    { destruct (v_leakA v); [done|]. simplify_eq. intros a l x. cbn [v_ali v_idx]. intros Ha Hx.
      apply lookup_delete_Some in Ha as [_ Ha]. by eapply Hd. }
    destruct (decide (v_idx v !! index = None)); [by simplify_eq|]. destruct (v_leakA v); [done|].
    destruct (v_ali v !! alias) as [l0|] eqn:E; simplify_eq; [|done].
    intros a l x. cbn [v_ali v_idx]. intros Ha Hx.
    apply lookup_insert_Some in Ha as [[<- <-]|[_ Ha]]; [|by eapply Hd].
    apply elem_of_list_filter in Hx as [_ Hx]. by eapply Hd.
  - destruct (v_idx v !! index) as [reqs|].
    + case_decide; simplify_eq. intros a l x Ha Hx. cbn [v_ali v_idx] in *. apply (put_each_is_Some doc [index]). by eapply Hd.
    + destruct (v_leakA v); [done|]. case_decide; [done|]. destruct (v_ali v !! index) as [l0|].
      * case_decide; simplify_eq. intros a l x Ha Hx. cbn [v_ali v_idx] in *. apply put_each_is_Some. by eapply Hd.
      * simplify_eq. intros a l x Ha Hx. cbn [v_ali v_idx] in *.
        destruct (decide (x = index)) as [->|Hne]; [rewrite lookup_insert; by eexists|].
        rewrite lookup_insert_ne by done. by eapply Hd.
  - destruct (v_idx v !! index).
    + case_match; by simplify_eq.
    + destruct (v_leakA v); [done|]. destruct (v_ali v !! index) as [[|x [|y l]]|].
      * destruct H as [(? & ? & _ & _ & [= -> ->])|[_ [=]]]; done.
      * case_match; by simplify_eq.
      * destruct H as [(? & ? & _ & _ & [= -> ->])|[_ [=]]]; done.
      * by simplify_eq.
  - case_decide; [done|]. destruct (v_idx v !! old) as [reqs|] eqn:Eo; simplify_eq; [|done].
    intros a l x. cbn [v_ali v_idx]. rewrite lookup_fmap. intros Ha Hx.
    destruct (v_ali v !! a) as [l0|] eqn:E; simplify_eq/=.
    apply elem_of_list_fmap in Hx as (y & -> & Hy). unfold renamed.
    assert (old <> new) as Hne. { intros ->. specialize (Hok new eq_refl). congruence. }
    case_decide as Hy'; [rewrite lookup_delete_ne, lookup_insert by done; by eexists|].
    rewrite lookup_delete_ne by congruence. destruct (decide (y = new)) as [->|Hyn].
    + rewrite lookup_insert. by eexists.
    + rewrite lookup_insert_ne by done. by eapply Hd.
  - destruct (decide (v_idx v !! index = None)); [by simplify_eq|]. case_decide; [done|].
    destruct (v_leakA v); [done|]. simplify_eq. intros a l x. cbn [v_ali v_idx].
    rewrite lookup_omap. intros Ha Hx. destruct (v_ali v !! a) as [l0|] eqn:E; [|done]. simpl in Ha.
    unfold drop_from in Ha. destruct (without index l0) as [|y l1] eqn:Ew; [done|]. injection Ha as <-.
    rewrite <- Ew in Hx. apply elem_of_list_filter in Hx as [Hne Hx].
    rewrite lookup_delete_ne by congruence. by eapply Hd.
  - destruct H as (? & [= -> ->]). done.
Qed.

(** An engine that never panics on this query. *)
Definition engine_safe ckn tk (q : string) (e : Engine) : Prop :=
  forall reqs, exists l, mi_Search ckn (index_after "" tk reqs) q e = Ok l.

Theorem C44_no_dangling_aliases :
  forall ckn tk s v,
    reach ckn tk no_self_rename s v ->
    (forall a l x, v_ali v !! a = Some l -> x ∈ l -> is_Some (v_idx v !! x)) /\
    forall c, (forall n q e, c = CSearch n q e -> engine_safe ckn tk q e) ->
      ~ call_result c s Crashed /\ forall s', ~ call_result c s (Panicked s').
Proof.
  intros ckn tk s v Ht.
  assert (Hd : no_dangling v).
  { eapply (reach_inv _ _ _ no_dangling); [apply shape_new|..|exact Ht].
    - intros a l x Ha. cbn in Ha. by rewrite lookup_empty in Ha.
    - intros. by eapply no_dangling_step.
    - intros w c w' Hw _ Hs. by apply spec_panic_same in Hs as ->.
    - intros cs w w' Hok Hw _ Hp. refine (phased_listed _ _ _ _ _ _ Hp Hw). intros n Hin.
      pose proof (Hok _ Hin (MkView {[n := []]} ∅ 0 false) n eq_refl) as E. cbn in E. by rewrite lookup_singleton in E. }
  split; [exact Hd|]. intros c Hc.
  assert (Ht' : tracks ckn tk s v) by (eapply reach_weaken; [|exact Ht]; done).
  assert (Hsn : forall n q e x, c = CSearch n q e -> is_Some (v_idx v !! x) ->
             search_name ckn tk (v_idx v) q e x <> Panic).
  { intros n q e x Hx [reqs Hr]. unfold search_name. rewrite Hr. destruct (Hc _ _ _ Hx reqs) as [l Hl].
    unfold search_docs. by rewrite Hl. }
  assert (Hspec : ~ spec ckn tk c v OCrash /\ forall v', ~ spec ckn tk c v (OPanic v')).
  { split; [|intros v'].
    - intros H. destruct c; us H; try done; try by (destruct H as (? & ? & ?)).
      + destruct (v_leakA v); [done|]. by destruct H as (? & _ & ?).
      + by destruct (v_leakA v).
      + repeat case_decide; repeat case_match; done.
      + repeat case_decide; repeat case_match; done.
      + destruct (v_idx v !! index) eqn:Ei; [by case_decide|]. destruct (v_leakA v); [done|]. case_decide; [done|].
        destruct (v_ali v !! index) as [l|] eqn:Ea; [|done]. case_decide as Hx; [|done].
        apply Exists_exists in Hx as (x & Hx & Hn). destruct (Hd _ _ _ Ea Hx) as [? ?]. congruence.
      + destruct (v_idx v !! index); [by case_match|]. destruct (v_leakA v); [done|].
        assert (Hm : forall l, v_ali v !! index = Some l -> ~ search_many ckn tk (v_idx v) terms engine l OCrash v).
        { intros l Hl [(? & ? & _ & _ & ?)|[Hp _]]; [done|].
          apply elem_of_list_fmap in Hp as (x & Hp & Hx). symmetry in Hp. revert Hp.
          eapply Hsn; [done|]. by eapply Hd. }
        destruct (v_ali v !! index) as [[|x [|y l]]|]; [by eapply Hm|by case_match|by eapply Hm|done].
      + case_decide; [done|]. by case_match.
      + repeat case_decide; repeat case_match; done.
      + by destruct H.
    - intros H. destruct c; us H; try done; try by (destruct H as (? & ? & ?)).
      + destruct (v_leakA v); [done|]. by destruct H as (? & _ & ?).
      + by destruct (v_leakA v).
      + repeat case_decide; repeat case_match; done.
      + repeat case_decide; repeat case_match; done.
      + destruct (v_idx v !! index) eqn:Ei; [by case_decide|]. destruct (v_leakA v); [done|]. case_decide; [done|].
        destruct (v_ali v !! index) as [l|] eqn:Ea; [|done]. by case_decide.
      + destruct (v_idx v !! index) as [reqs|] eqn:Ei.
        { destruct (Hc _ _ _ eq_refl reqs) as [l Hl]. unfold search_docs in H. by rewrite Hl in H. }
        destruct (v_leakA v); [done|]. destruct (v_ali v !! index) as [[|x [|y l]]|] eqn:Ea.
        * by destruct H as [(? & ? & _ & _ & ?)|[? ?]].
        * assert (is_Some (v_idx v !! x)) as Hx by (eapply Hd; [exact Ea|left]).
          specialize (Hsn _ _ _ x eq_refl Hx). by destruct (search_name ckn tk (v_idx v) terms engine x).
        * by destruct H as [(? & ? & _ & _ & ?)|[? ?]].
        * done.
      + case_decide; [done|]. by case_match.
      + repeat case_decide; repeat case_match; done.
      + by destruct H. }
  destruct Hspec as [H1 H2]. split.
  - intros Hr. exact (H1 (reach_call _ _ _ _ _ _ _ Ht' I Hr)).
  - intros s' Hr. destruct (reach_call _ _ _ _ _ _ _ Ht' I Hr) as (v' & Hx & _). by eapply H2.
Qed.
Print Assumptions C44_no_dangling_aliases.

(** The engines of the library are safe. *)
Theorem C44_engines_safe :
  forall ckn tk q srt, engine_safe ckn tk q LinearSearch /\ engine_safe ckn tk q (HitsSearch srt).
Proof.
  intros. split; intros reqs.
  - rewrite C01_linear_search_exact. by eexists.
  - rewrite C03_hits_search_general. by eexists.
Qed.
Print Assumptions C44_engines_safe.

Example C44_example : exists s, reach true letters no_self_rename s two_view /\
  v_ali two_view !! "both" = Some ["p"; "q"].
Proof.
  destruct (example_two no_self_rename true letters) as [s Hs]; [intros v n d x [=]|intros v a i x [=]|].
  by exists s.
Qed.

(** ** C45 *)
Definition rename_to_fresh (v : view) (c : call) : Prop :=
  forall old new, c = CRename old new -> v_idx v !! new = None.

Lemma fresh_not_self v c : rename_to_fresh v c -> no_self_rename v c.
Proof. intros H x Hx. by eapply H. Qed.

Definition no_dup_aliases (v : view) : Prop := forall a l, v_ali v !! a = Some l -> NoDup l.

Lemma renamed_inj_on old new l : new ∉ l -> NoDup l -> NoDup (map (renamed old new) l).
Proof.
  intros Hn. induction 1 as [|x l Hx Hl IH]; [constructor|]. simpl.
  apply not_elem_of_cons in Hn as [Hn1 Hn2]. constructor; [|by apply IH].
  intros (y & Hy & Hin)%elem_of_list_fmap. unfold renamed in Hy. repeat case_decide; subst; congruence.
Qed.

Lemma no_dup_step ckn tk v c b v' :
  no_dangling v -> no_dup_aliases v -> rename_to_fresh v c -> spec ckn tk c v (ODone b v') -> no_dup_aliases v'.
Proof.
  intros Hd Hdup Hok H. destruct c; us H.
  - by destruct H as (? & _ & [= -> ->]).
  - destruct (v_leakA v); [done|]. by destruct H as (? & _ & [= -> ->]).
  - by simplify_eq.
  - destruct (v_leakA v); by simplify_eq.
  - destruct (decide (v_idx v !! index = None)) as [Hi|Hi]; [by simplify_eq|].
    destruct (v_leakA v); [done|]. case_decide as Hin; simplify_eq; [done|].
    intros a l. cbn [v_ali]. intros Ha.
    apply lookup_insert_Some in Ha as [[<- <-]|[_ Ha]]; [|by eapply Hdup].
    apply NoDup_app. split_and!.
    + destruct (v_ali v !! alias) eqn:E; [by eapply Hdup|constructor].
    + intros x Hx Hx'. apply elem_of_list_singleton in Hx' as ->. done.
    + apply NoDup_singleton.
  - destruct (decide (index = "")).
    { destruct (v_leakA v); [done|]. simplify_eq. intros a l. cbn [v_ali]. intros Ha.
      apply lookup_delete_Some in Ha as [_ Ha]. by eapply Hdup. }
    destruct (decide (v_idx v !! index = None)); [by simplify_eq|]. destruct (v_leakA v); [done|].
    destruct (v_ali v !! alias) as [l0|] eqn:E; simplify_eq; [|done].
    intros a l. cbn [v_ali]. intros Ha.
    apply lookup_insert_Some in Ha as [[<- <-]|[_ Ha]]; [|by eapply Hdup].
    apply NoDup_filter. by eapply Hdup.
  - destruct (v_idx v !! index) as [reqs|].
    + case_decide; by simplify_eq.
    + destruct (v_leakA v); [done|]. case_decide; [done|]. destruct (v_ali v !! index) as [l0|].
      * case_decide; by simplify_eq.
      * by simplify_eq.
  - destruct (v_idx v !! index).
    + case_match; by simplify_eq.
    + destruct (v_leakA v); [done|]. destruct (v_ali v !! index) as [[|x [|y l]]|].
      * destruct H as [(? & ? & _ & _ & [= -> ->])|[_ [=]]]; done.
      * case_match; by simplify_eq.
      * destruct H as [(? & ? & _ & _ & [= -> ->])|[_ [=]]]; done.
      * by simplify_eq.
  - case_decide; [done|]. destruct (v_idx v !! old) as [reqs|] eqn:Eo; simplify_eq; [|done].
    intros a l. cbn [v_ali]. rewrite lookup_fmap. intros Ha.
    destruct (v_ali v !! a) as [l0|] eqn:E; simplify_eq/=.
    apply renamed_inj_on; [|by eapply Hdup]. intros Hin.
    destruct (Hd _ _ _ E Hin) as [? Hx]. rewrite (Hok old new eq_refl) in Hx. done.
  - destruct (decide (v_idx v !! index = None)); [by simplify_eq|]. case_decide; [done|].
    destruct (v_leakA v); [done|]. simplify_eq. intros a l. cbn [v_ali].
    rewrite lookup_omap. intros Ha. destruct (v_ali v !! a) as [l0|] eqn:E; [|done]. simpl in Ha.
    unfold drop_from in Ha. destruct (without index l0) as [|y l1] eqn:Ew; [done|]. injection Ha as <-.
    rewrite <- Ew. apply NoDup_filter. by eapply Hdup.
  - destruct H as (? & [= -> ->]). done.
Qed.

Theorem C45_no_duplicates :
  forall ckn tk s v a l,
    reach ckn tk rename_to_fresh s v -> v_ali v !! a = Some l -> NoDup l.
Proof.
  intros ckn tk s v a l Ht Ha. revert a l Ha.
  assert (no_dangling v /\ no_dup_aliases v) as [_ H]; [|exact H].
  eapply (reach_inv _ _ _ (fun v => no_dangling v /\ no_dup_aliases v)); [apply shape_new|..|exact Ht].
  - split.
    + intros a l x Ha. cbn in Ha. by rewrite lookup_empty in Ha.
    + intros a l Ha. cbn in Ha. by rewrite lookup_empty in Ha.
  - intros w c b w' [H1 H2] Hok Hs. split.
    + eapply no_dangling_step; [done|by apply fresh_not_self|done].
    + by eapply no_dup_step.
  - intros w c w' Hw _ Hs. by apply spec_panic_same in Hs as ->.
  - intros cs w w' Hok [H1 H2] _ Hp.
    assert (Hcs : without_rename cs).
    { intros old new Hin. pose proof (Hok _ Hin (MkView {[new := []]} ∅ 0 false) old new eq_refl) as E. cbn in E.
      by rewrite lookup_singleton in E. }
    split; [refine (phased_listed _ _ _ _ _ _ Hp H1); intros n; by apply Hcs|exact (phased_nodup _ _ _ _ _ Hcs Hp H2)].
Qed.
Print Assumptions C45_no_duplicates.

Example C45_example : exists s, reach true letters rename_to_fresh s two_view /\
  v_ali two_view !! "both" = Some ["p"; "q"].
Proof.
  destruct (example_two rename_to_fresh true letters) as [s Hs]; [intros v n d x y [=]|intros v a i x y [=]|].
  by exists s.
Qed.

(** ** C46 *)
Theorem C46_list_and_has :
  forall ckn tk s v,
    tracks ckn tk s v ->
    ret_ ckn tk CList s (fun b => exists l, b = ONames l /\ NoDup l /\
      forall n, n ∈ l <-> is_Some (v_idx v !! n)) v /\
    (forall n, ret_ ckn tk (CHas n) s (eq (OBool (bool_decide (is_Some (v_idx v !! n))))) v).
Proof.
  intros ckn tk s v Ht. split; [|intros n; by apply has_index].
  eapply returns_intro; [exact Ht|done|]. intros o (l & Hl & ->). eexists. split; [done|].
  exists l. split; [done|]. split; [by eapply keys_nodup|]. intros n. by apply keys_elem.
Qed.
Print Assumptions C46_list_and_has.

Theorem C46_list_aliases_and_has_alias :
  forall ckn tk s v,
    tracks ckn tk s v -> v_leakA v = false ->
    ret_ ckn tk CListAliases s (fun b => exists rows, b = ORows rows /\ NoDup rows.*1 /\
      forall a l, (a, l) ∈ rows <-> v_ali v !! a = Some l) v /\
    (forall a, ret_ ckn tk (CHasAlias a) s (eq (OBool (bool_decide (is_Some (v_ali v !! a))))) v).
Proof.
  intros ckn tk s v Ht HA. split.
  - eapply returns_intro; [exact Ht|done|]. intros o Ho. us Ho. rewrite HA in Ho. destruct Ho as (l & Hl & ->).
    eexists. split; [done|]. exists l. split; [done|]. split.
    + rewrite Hl. apply NoDup_fst_map_to_list.
    + intros a la. rewrite Hl. apply elem_of_map_to_list.
  - intros a. eapply ret_det; [exact Ht|]. intros o Ho. us Ho. by rewrite HA in Ho.
Qed.
Print Assumptions C46_list_aliases_and_has_alias.

(** The reading calls leave the whole state unchanged, from any state. *)
Theorem C46_reading_changes_nothing :
  forall c s r s',
    c = CList \/ c = CListAliases \/ (exists n, c = CHas n) \/ (exists a, c = CHasAlias a) \/ (exists show, c = CString show) ->
    call_result c s (Done r s') -> s' = s.
Proof.
  intros c s r s' Hc. apply reading_keeps.
  destruct Hc as [->|[->|[[? ->]|[[? ->]|[? ->]]]]]; done.
Qed.
Print Assumptions C46_reading_changes_nothing.

Example C46_example : exists s, tracks true letters s two_view /\ v_leakA two_view = false /\
  is_Some (v_idx two_view !! "p") /\ is_Some (v_ali two_view !! "both").
Proof. destruct (example_two any_call true letters) as [s Hs]; try done. by exists s. Qed.

(** ** C47 *)
Definition no_rename (v : view) (c : call) : Prop := forall old new, c <> CRename old new.

Lemma no_rename_stable ckn tk s v s' v' :
  shape ckn tk s v -> reach_from ckn tk no_rename s v s' v' -> stable (r_A s) (r_A s').
Proof.
  intros Hsh Hl.
  assert (Hsh' : forall s1 v1, reach_from ckn tk no_rename s v s1 v1 -> shape ckn tk s1 v1).
  { intros s1 v1. by apply reach_from_shape. }
  induction Hl as [|s1 v1 c r s2 v2 Hl IH Hok Hc Hs|s1 v1 c s2 v2 Hl IH Hok Hc Hs
    |s1 v1 cs ts s2 v2 Hl IH Hok Hu Hsep Hp Hf Hst]; [done|..]; (eapply stable_trans; [exact IH|]).
  - exact (keeps_rows _ _ c s1 v1 _ (Hsh' _ _ Hl) Hok Hc).
  - exact (keeps_rows _ _ c s1 v1 _ (Hsh' _ _ Hl) Hok Hc).
  - eapply keeps_phase; [exact (Hsh' _ _ Hl)|exact Hu| |exact Hp|exact Hf].
    intros old new Hin. by apply (Hok _ Hin new_view old new).
Qed.

(** Rows handed out by ListAliases keep what they show through any later calls
    that are not Rename. *)
Theorem C47_rows_stable :
  forall ckn tk s v rows s0 s' v',
    tracks ckn tk s v -> call_result CListAliases s (Done (RRows rows) s0) ->
    reach_from ckn tk no_rename s0 v s' v' ->
    see s' (RRows rows) = see s (RRows rows).
Proof.
  intros ckn tk s v rows s0 s' v' Ht Hr Hl.
  assert (s0 = s) as -> by (by apply (reading_keeps CListAliases s (RRows rows) s0 I)).
  pose proof (reach_shape _ _ _ _ _ Ht) as Hsh.
  assert (Hst : stable (r_A s) (r_A s')) by (by eapply no_rename_stable).
  cbn [see]. f_equal. apply map_ext_in. intros [a sl] Hin. simpl. f_equal.
  apply Hst. eapply shA_snap; [apply (sh_A _ _ _ _ Hsh)|].
  eapply rows_are_slices; [done|exact Hr|]. by apply elem_of_list_In.
Qed.
Print Assumptions C47_rows_stable.

(** Rename rewrites them behind the caller's back. *)
Theorem C47_rename_rewrites_rows :
  forall ckn tk s v rows s0 old new s',
    tracks ckn tk s v -> call_result CListAliases s (Done (RRows rows) s0) ->
    is_Some (v_idx v !! old) -> after (CRename old new) s0 s' ->
    exists shown, see s (RRows rows) = ORows shown /\
      see s' (RRows rows) =
        ORows (map (fun row => (row.1, map (fun x => if decide (x = old) then new else x) row.2)) shown).
Proof.
  intros ckn tk s v rows s0 old new s' Ht Hr [reqs Ho] [r Hs'].
  assert (s0 = s) as -> by (by apply (reading_keeps CListAliases s (RRows rows) s0 I)).
  pose proof (reach_shape _ _ _ _ _ Ht) as Hsh.
  destruct (reach_call _ _ _ _ _ _ _ Ht I Hs') as (v' & Hs & Ht').
  pose proof (reach_shape _ _ _ _ _ Ht') as Hsh'.
  eexists. split; [reflexivity|]. cbn [see]. f_equal. rewrite map_map. apply map_ext_in.
  intros [a sl] Hin. cbn [fst snd]. f_equal.
  assert (Hm : a_map (r_A s) !! a = Some sl).
  { eapply rows_are_slices; [done|exact Hr|]. by apply elem_of_list_In. }
  assert (Hm' : a_map (r_A s') !! a = Some sl) by (by rewrite (rename_keeps_slices _ _ _ _ _ _ _ _ Hsh Hs')).
  destruct (shA_fwd _ _ (sh_A _ _ _ _ Hsh) _ _ Hm) as [_ E].
  destruct (shA_fwd _ _ (sh_A _ _ _ _ Hsh') _ _ Hm') as [_ E'].
  us Hs. case_decide; [done|]. rewrite Ho in Hs. injection Hs as _ ->. cbn [v_ali] in E'.
  rewrite lookup_fmap, E in E'. by injection E' as <-.
Qed.
Print Assumptions C47_rename_rewrites_rows.

(** "What ListAliases returned is a snapshot" fails. *)
Theorem C47_snapshot_refuted :
  exists tk s v rows s',
    tracks true tk s v /\ call_result CListAliases s (Done (RRows rows) s) /\
    after (CRename "p" "fresh") s s' /\
    see s (RRows rows) = ORows [("both", ["p"; "q"])] /\
    see s' (RRows rows) = ORows [("both", ["fresh"; "q"])].
Proof.
  destruct (example_two any_call true letters) as [s Hs]; try done.
  destruct (C29_machine_is_exact true letters s two_view CListAliases (ODone (ORows [("both", ["p"; "q"])]) two_view) Hs)
    as (r & s0 & H1 & H2 & _); [done| |].
  { cbn. exists [("both", ["p"; "q"])]. split; [|done].
    replace (map_to_list two_ali) with [("both", ["p"; "q"])]; [done|]. unfold two_ali.
    by rewrite map_to_list_singleton. }
  pose proof (reading_keeps CListAliases s r s0 I H1) as ->.
  destruct r as [| | |rows| | |]; cbn [see] in H2; try discriminate H2.
  destruct (C41_rename true letters s two_view "p" "fresh" Hs eq_refl) as [_ H].
  destruct (H [dA] eq_refl eq_refl) as (v' & [[res Hres] Hx] & _).
  destruct (Hx _ Hres) as (r & s' & -> & _).
  exists letters, s, two_view, rows, s'. split; [done|]. split; [done|].
  assert (Ha : after (CRename "p" "fresh") s s') by (by exists r). split; [done|].
  destruct (C47_rename_rewrites_rows true letters s two_view rows s "p" "fresh" s' Hs H1) as (shown & E1 & E2); [done|done|].
  split; [exact H2|]. rewrite E2. cbn [see] in E1. rewrite H2 in E1. injection E1 as <-. reflexivity.
Qed.
Print Assumptions C47_snapshot_refuted.
