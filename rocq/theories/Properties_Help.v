(** * Property C83: documents on their way to an index that goes. *)
From Coq Require Import Lia.
From stdpp Require Import gmap list.
From Verif Require Import Entities Search SpecSearch Properties_Search Repo Sem RepoWp SpecRepo
  ProofRepo ProofTotal ProofReach Properties_Repo SpecConc Locks Race ProofRace Reduce ProofConc ProofSim Run
  Properties_Conc SpecLin ProofMachine ProofLin Properties_Lin Serial Properties_Clash SpecHelp ProofHelp.
Open Scope nat_scope.
Open Scope string_scope.
Open Scope list_scope.

Lemma gentle_separate v cs : gentle v cs -> separate cs.
Proof.
  intros H.
  assert (Hd : forall cs', (exists a i, CUnAlias a i ∈ cs') \/ without_unalias cs').
  { clear. induction cs' as [|c cs' IH]; [right; intros a i Hin; by apply elem_of_nil in Hin|].
    destruct IH as [(a & i & Hin)|IH]; [left; exists a, i; by right|].
    assert (Hc : (exists a i, c = CUnAlias a i) \/ forall a i, c <> CUnAlias a i) by (destruct c; eauto).
    destruct Hc as [(a & i & ->)|Hc]; [left; exists a, i; by left|]. right. intros a i [E|Hin]%elem_of_cons; [by apply (Hc a i)|by apply (IH a i)]. }
  destruct (Hd cs) as [(a & i & Hin)|Hno]; [|by right]. left. intros old new Hr.
  apply elem_of_list_lookup in Hin as [j Hj], Hr as [k Hk].
  exact (H j k _ _ ltac:(congruence) Hj Hk).
Qed.

(** Calls of which the Puts may lose their index to a Drop or a Rename are
    linearizable: each takes effect between its first and its last step, a Put
    possibly at the step of the call that takes its index away. *)
Theorem C83_linearizable :
  forall ckn tk s v cs,
    tracks ckn tk s v -> unblocked v -> gentle v cs -> linearizable_within ckn tk v cs (start cs) s.
Proof.
  intros ckn tk s v cs Ht Hu Hst.
  destruct (init_view false ckn tk s v (reach_shape _ _ _ _ _ Ht) Hu ltac:(done)) as (w0 & Hsh & Hv & E1 & E2).
  assert (Hw0 := shC_wf _ _ _ _ _ Hsh). rewrite <- Hv in Hst |- *.
  destruct (separate_mode cs (gentle_separate _ _ Hst)) as (md & Hmd & Hal & Hrow).
  pose proof (simR_simulation md Hmd false ckn tk cs ltac:(done)) as HS.
  exists (fun ts s begun log => exists l w, simR md false ckn tk cs ts s l w /\ linI ckn tk cs w0 l w log /\
    doomI ckn tk cs w0 begun l log /\
    forall j, is_Some (begun !! j) \/ forall t, l !! j = Some t -> exists c, t = Between (Todo c)).
  split_and!.
  - exists (cstart cs), w0. split_and!; [by apply simR_start|by apply linI_start|by apply doomI_start|].
    intros j. right. intros t Hj. unfold cstart in Hj. rewrite list_lookup_fmap in Hj. destruct (cs !! j) as [c|]; [|done].
    simplify_eq/=. eauto.
  - intros ts1 s1 begun log (l & w & HR & HI & _ & _).
    destruct (sim_agrees _ _ _ _ HS _ _ _ _ HR) as [A1 A2 A3 A4 A5].
    split; [apply HI|apply HI|]. exists (view_of w). split_and!; [apply HI|apply HI| |].
    + intros i p Hi Hf. destruct (A2 _ _ Hi Hf) as (a & Hl & Ha).
      destruct (lookup_lt_is_Some_2 cs i) as [c Hc]; [rewrite <- (li_len _ _ _ _ _ _ _ HI); by eapply lookup_lt_Some|].
      pose proof (li_thr _ _ _ _ _ _ _ HI _ _ _ Hl Hc) as Hok. unfold thr_ok in Hok. simpl in Hok.
      destruct Hok as (vb & va & Hin & Hx). destruct (Hx _ eq_refl) as (a' & E & He). simplify_eq.
      exists c, a', vb, va. split_and!; try done. intros r ->.
      assert (Hrc : forall rows, r = RRows rows -> md = NoRename).
      { intros rows ->. apply Hrow. simpl in Ha. destruct a' as [[]|]; try done. apply rows_call in He. subst c.
        intros old new Hr. apply elem_of_list_lookup in Hr as [k Hk]. exact (Hst i k _ _ ltac:(congruence) Hc Hk). }
      destruct r; try (destruct a' as [o|]; [|done]; cbn [answers] in Ha; by rewrite <- (Ha s1)).
      rewrite bool_decide_true in A5 by exact (Hrc _ eq_refl).
      specialize (A5 eq_refl _ _ Hi). rewrite Hl in A5. by simplify_eq.
    + intros Hq. exists w. split_and!; [done|apply A3|apply A4; done]. destruct Hq as [[? _]|?]; [by left|by right].
  - intros ts1 s1 begun log i t t' s2 (l & w & HR & HI & HD & Hbeg) Hi Hs.
    destruct (sim_next _ _ _ _ HS _ _ _ _ _ _ _ _ HR Hi Hs) as (l' & w' & HR' & Hr & Hoff).
    assert (HD0 : doomI ckn tk cs w0 (begun ∪ {[i := length log]}) l log) by (by apply doomI_begun).
    destruct (doomI_steps ckn tk cs w0 Hw0 Hst _ _ _ _ _ _ HI HD0 Hr) as (ext & HI' & HD').
    exists ext. split.
    + exists l', w'. split_and!; [done|done|done|].
      intros j. destruct (decide (j = i)) as [->|Hne].
      { left. apply lookup_union_is_Some. right. rewrite lookup_singleton. eauto. }
      destruct (Hbeg j) as [?|H]; [left; apply lookup_union_is_Some; by left|right]. by rewrite Hoff.
    + intros j Hj. destruct (decide (j = i)) as [|Hne]; [by left|right]. destruct (Hbeg j) as [?|H]; [done|exfalso].
      assert (Hjl : j < length l).
      { rewrite (li_len _ _ _ _ _ _ _ HI). eapply (li_dom _ _ _ _ _ _ _ HI'). rewrite !fmap_app. set_solver. }
      destruct (lookup_lt_is_Some_2 _ _ Hjl) as [t0 Ht0]. destruct (H _ Ht0) as [c ->].
      refine (ProofHelp.linI_ext ckn tk cs w0 _ _ l w l' w' log ext i j HI HI' Hoff Hj Hne c _); done.
  - intros ts1 s1 begun log i t (l & w & HR & HI & HD & Hbeg) Hi Hs.
    destruct (sim_dies _ _ _ _ HS _ _ _ _ _ _ HR Hi Hs) as (a & Ha & Hdie).
    destruct (Hbeg i) as [[from Hf]|H]; [|destruct (H _ Ha) as [c ->]; done].
    exists from. split; [done|]. by eapply doomI_deadly.
Qed.
Print Assumptions C83_linearizable.

Lemma within_reach ckn tk v cs ts s ts' s' :
  linearizable_within ckn tk v cs ts s -> rtc pstep (Pool ts s) (Pool ts' s') ->
  exists log, linearized ckn tk v cs ts' s' log.
Proof.
  intros (L & H0 & H1 & H2 & _) Hr.
  assert (Hp : match Pool ts' s' with Pool ts1 s1 => exists begun log, L ts1 s1 begun log | PCrashed => True end).
  { refine (rtc_ind_r (R := pstep) (fun p => match p with Pool ts1 s1 => exists begun log, L ts1 s1 begun log | PCrashed => True end) _ _ _ _ Hr).
    - by exists ∅, [].
    - intros y z _ Hs IH. inversion Hs; simplify_eq; [|done]. destruct IH as (begun & log & Ho).
      edestruct H2 as (now & ? & _); [exact Ho|done|done|eauto]. }
  destruct Hp as (begun & log & Ho). exists log. by eapply H1.
Qed.

(** If concurrent calls kill the process, so do some of them issued one after the
    other. *)
Theorem C83_death :
  forall ckn tk s v cs,
    tracks ckn tk s v -> unblocked v -> gentle v cs -> rtc pstep (Pool (start cs) s) PCrashed ->
    exists log v1 i c,
      chain v log v1 /\
      (forall j vb va, (j, vb, va) ∈ log -> exists c' a, cs !! j = Some c' /\ explained ckn tk c' a vb va) /\
      NoDup (log.*1.*1 ++ [i]) /\ cs !! i = Some c /\ spec ckn tk c v1 OCrash.
Proof.
  intros ckn tk s v cs Ht Hu Hg Hr. destruct (C83_linearizable ckn tk s v cs Ht Hu Hg) as (L & H0 & H1 & H2 & H3).
  assert (Hp : forall p, rtc pstep (Pool (start cs) s) p -> match p with Pool ts1 s1 => exists begun log, L ts1 s1 begun log
    | PCrashed => exists ts1 s1 begun log i t, L ts1 s1 begun log /\ ts1 !! i = Some t /\ tstep s1 t TCrash end).
  { intros p Hp. refine (rtc_ind_r (R := pstep) (fun p => match p with Pool ts1 s1 => exists begun log, L ts1 s1 begun log
      | PCrashed => exists ts1 s1 begun log i t, L ts1 s1 begun log /\ ts1 !! i = Some t /\ tstep s1 t TCrash end) _ _ _ _ Hp).
    - by exists ∅, [].
    - intros y z _ Hs IH. inversion Hs; simplify_eq; destruct IH as (begun & log & Ho).
      + edestruct H2 as (now & ? & _); [exact Ho|done|done|eauto].
      + eexists _, _, _, _, _, _. split_and!; [exact Ho|done..]. }
  destruct (Hp _ Hr) as (ts1 & s1 & begun & full & i & t & Ho & Hi & Hs).
  destruct (H3 _ _ _ _ _ _ Ho Hi Hs) as (from & _ & log & v1 & j & c & G1 & [r ->] & G2 & G3 & G4 & G5).
  pose proof (lin_nodup _ _ _ _ _ _ _ (H1 _ _ _ _ Ho)) as Hn.
  exists log, v1, j, c. split_and!; try done. destruct G5 as [[r' E]|(-> & Hni & _)].
  - rewrite E in Hn. by apply NoDup_app in Hn as [? _].
  - rewrite !fmap_app in Hn. apply NoDup_app in Hn as [? _]. apply NoDup_app. split_and!; [done| |apply NoDup_singleton].
    intros k Hk ->%elem_of_list_singleton. done.
Qed.
Print Assumptions C83_death.

Lemma linearized_serializable ckn tk v cs ts s' log :
  length ts = length cs -> linearized ckn tk v cs ts s' log -> Forall finished ts -> serializable ckn tk v cs ts s'.
Proof.
  intros Hlen [Hn Hdom (v' & Hc & Htake & Hthr & Hsh)] Hf.
  exists log, v'. split_and!; [|done|by apply Hsh; right|].
  - apply NoDup_Permutation; [done|apply NoDup_seq|]. intros i. rewrite elem_of_seq. split.
    + intros Hi. split; [lia|]. by apply Hdom.
    + intros [_ Hi]. simpl in Hi. rewrite <- Hlen in Hi. destruct (lookup_lt_is_Some_2 ts i Hi) as [t Hti].
      pose proof (Forall_lookup_1 _ _ _ _ Hf Hti) as Hfi. destruct t as [p| | |]; try done.
      destruct (Hthr _ _ Hti Hfi) as (c & a & vb & va & _ & Hin & _). by eapply in_log.
  - intros i p Hi. pose proof (Forall_lookup_1 _ _ _ _ Hf Hi) as Hfi.
    destruct (Hthr _ _ Hi Hfi) as (c & a & vb & va & ? & ? & ? & Ha & Hrow). exists c, a, vb, va. split_and!; [done..|].
    destruct p; try done; [by apply Hrow|]. by destruct a.
Qed.

Theorem C83_serializable :
  forall ckn tk s v cs ts s',
    tracks ckn tk s v -> unblocked v -> gentle v cs ->
    rtc pstep (Pool (start cs) s) (Pool ts s') -> Forall finished ts -> serializable ckn tk v cs ts s'.
Proof.
  intros ckn tk s v cs ts s' Ht Hu Hst Hr Hf.
  assert (Hlen : length ts = length cs).
  { refine (rtc_ind_r (R := pstep) (fun p => match p with Pool ts1 s1 => length ts1 = length cs | PCrashed => True end) _ _ _ _ Hr).
    - unfold start. by rewrite fmap_length.
    - intros y z _ Hs IH. inversion Hs; simplify_eq; [|done]. by rewrite insert_length. }
  destruct (within_reach _ _ _ _ _ _ _ _ (C83_linearizable _ _ _ _ _ Ht Hu Hst) Hr) as [log Ho].
  by eapply linearized_serializable.
Qed.
Print Assumptions C83_serializable.

(** This covers the pools of C58. *)
Theorem C83_calm : forall v cs, calm v cs -> gentle v cs.
Proof.
  intros v cs H i j c c' Hij Hi Hj. pose proof (H i j c c' Hij Hi Hj) as Ht.
  destruct c as [| | | | | |n d| | | |]; try done. cbn [tolerates bears] in *.
  destruct (v_idx v !! n) as [reqs|] eqn:En.
  - destruct c'; try done. by destruct Ht.
  - destruct (v_ali v !! n) as [l|] eqn:Ea; [|destruct c'; try done; simpl; tauto].
    destruct c'; try done. destruct Ht as [Hne _]. destruct l as [|y l]; [done|]. intros Hall. exfalso.
    assert (Hy : CDrop y ∈ cs) by (apply Hall; by left). apply elem_of_list_lookup in Hy as [k Hk].
    pose proof (H i k _ _ ltac:(congruence) Hi Hk) as Ht'. cbn [tolerates] in Ht'.
    rewrite En, Ea in Ht'. destruct Ht' as [_ Ht']. apply Ht'. by left.
Qed.
Print Assumptions C83_calm.

Lemma chain_two v i x y j x' y' v' : chain v [(i, x, y); (j, x', y')] v' -> x = v /\ x' = y /\ v' = y'.
Proof. intros H. inversion H as [|? ? ? ? ? H1]; subst. inversion H1 as [|? ? ? ? ? H2]; subst. by inversion H2; subst. Qed.

(** A Put and a Drop of the same index at once: both report success, and in the end
    the index is gone or holds the new document only. *)
Theorem C83_put_drop :
  forall ckn tk s v n d ts s',
    tracks ckn tk s v -> unblocked v -> is_Some (v_idx v !! n) -> v_ali v !! n = None ->
    rtc pstep (Pool (start [CPut n d; CDrop n]) s) (Pool ts s') -> Forall finished ts ->
    ts = [TRun (Ret RUnit); TRun (Ret (RBool true))] /\
    exists idx,
      (idx = delete n (v_idx v) \/ idx = <[n := [d]]> (v_idx v)) /\
      shows tk s' (MkView idx (omap (drop_from n) (v_ali v)) 0 false).
Proof.
  intros ckn tk s v n d ts s' Ht Hu [reqs Hn] Ha Hr Hf. pose proof Hu as [U1 U2].
  assert (Hg : gentle v [CPut n d; CDrop n]).
  { intros i j c c' Hij Hi Hj. do 2 (try destruct i as [|i]); simplify_eq/=; do 2 (try destruct j as [|j]); simplify_eq/=; try done.
    rewrite Hn. intros _. split; [done|]. intros k c Hk Hc. destruct k as [|[|k]]; simplify_eq/=; intros ?; done. }
  assert (Hlen : length ts = 2).
  { refine (rtc_ind_r (R := pstep) (fun p => match p with Pool ts1 s1 => length ts1 = 2 | PCrashed => True end) _ _ _ _ Hr); [done|].
    intros y z _ Hs IH. inversion Hs; simplify_eq; [|done]. by rewrite insert_length. }
  destruct (C83_serializable _ _ _ _ _ _ _ Ht Hu Hg Hr Hf) as (log & v' & Hp & Hc & Hsh & Hans).
  destruct ts as [|t0 [|t1 [|? ?]]]; try done. apply Forall_cons in Hf as [F0 F1]. apply Forall_cons in F1 as [F1 _].
  destruct t0 as [p0| | |]; try done. destruct t1 as [p1| | |]; try done.
  destruct (Hans 0 p0 eq_refl) as (c0 & a0 & vb0 & va0 & [= <-] & In0 & Ex0 & P0).
  destruct (Hans 1 p1 eq_refl) as (c1 & a1 & vb1 & va1 & [= <-] & In1 & Ex1 & P1).
  assert (Hdrop : forall v0, unblocked v0 -> is_Some (v_idx v0 !! n) -> vb1 = v0 ->
    a1 = Returned (OBool true) /\ va1 = MkView (delete n (v_idx v0)) (omap (drop_from n) (v_ali v0)) 0 false).
  { intros v0 [V1 V2] [x Hx] ->. destruct a1 as [o|]; destruct Ex1 as (v1 & Hs & ->); cbn [spec] in Hs;
      (rewrite decide_False in Hs by congruence; rewrite decide_False, V2 in Hs by lia; simplify_eq).
    split; [done|]. unfold forget. by rewrite V1. }
  assert (Hput : forall v0, unblocked v0 -> v_ali v0 !! n = None -> vb0 = v0 ->
    a0 = Returned OUnit /\ va0 = MkView (if v_idx v0 !! n then put_each d [n] (v_idx v0) else <[n := [d]]> (v_idx v0)) (v_ali v0) 0 false).
  { intros v0 [V1 V2] V3 ->. destruct a0 as [o|]; destruct Ex0 as (v1 & Hs & ->); cbn [spec] in Hs;
      rewrite V3, V2 in Hs; rewrite !decide_False in Hs by lia; destruct (v_idx v0 !! n); simplify_eq; (split; [done|]); unfold forget; by rewrite V1. }
  assert (Hfin : a0 = Returned OUnit -> a1 = Returned (OBool true) ->
    p0 = Ret RUnit /\ p1 = Ret (RBool true)).
  { intros -> ->. split.
    - destruct p0; try done; try (by destruct P0). destruct r; by simplify_eq/=.
    - destruct p1; try done; try (by destruct P1). destruct r; by simplify_eq/=. }
  symmetry in Hp. apply Permutation_length_2_inv in Hp as [E|E].
  - destruct log as [|[[i0 x0] y0] [|[[i1 x1] y1] [|? ?]]]; simplify_eq/=.
    apply chain_two in Hc as (Ex & Ey & Ez).
    apply elem_of_cons in In0 as [E0|E0%elem_of_list_singleton]; [|done].
    apply elem_of_cons in In1 as [E1|E1%elem_of_list_singleton]; [done|]. injection E0 as <- <-. injection E1 as <- <-. subst v'.
    subst vb0 vb1.
    destruct (Hput _ Hu Ha eq_refl) as [-> Eva]. rewrite Hn in Eva.
    assert (Hin : is_Some (v_idx va0 !! n)). { rewrite Eva. cbn [v_idx]. rewrite lookup_alter, Hn. by eexists. }
    destruct (Hdrop va0 ltac:(by rewrite Eva) Hin eq_refl) as [-> Evd]. destruct (Hfin eq_refl eq_refl) as [-> ->].
    split; [done|]. eexists. split; [by left|]. rewrite Evd, Eva in Hsh. cbn [v_idx v_ali] in Hsh.
    by rewrite delete_alter in Hsh.
  - destruct log as [|[[i0 x0] y0] [|[[i1 x1] y1] [|? ?]]]; simplify_eq/=.
    apply chain_two in Hc as (Ex & Ey & Ez).
    apply elem_of_cons in In0 as [E0|E0%elem_of_list_singleton]; [done|].
    apply elem_of_cons in In1 as [E1|E1%elem_of_list_singleton]; [|done]. injection E0 as <- <-. injection E1 as <- <-. subst v'.
    subst vb0 vb1.
    destruct (Hdrop _ Hu ltac:(by eexists) eq_refl) as [-> Evd].
    destruct (Hput va1 ltac:(by rewrite Evd) ltac:(rewrite Evd; cbn [v_ali]; by rewrite lookup_omap, Ha) eq_refl) as [-> Eva].
    destruct (Hfin eq_refl eq_refl) as [-> ->]. split; [done|]. eexists. split; [by right|].
    rewrite Eva, Evd in Hsh. cbn [v_idx v_ali] in Hsh. rewrite lookup_delete in Hsh. by rewrite insert_delete_insert in Hsh.
Qed.
Print Assumptions C83_put_drop.

(** Both outcomes occur. *)
Example C83_example_put_drop :
  exists s, tracks true letters s one_view /\ unblocked one_view /\ is_Some (v_idx one_view !! "a") /\ v_ali one_view !! "a" = None /\
    (exists s', rtc pstep (Pool (start [CPut "a" dB; CDrop "a"]) s) (Pool [TRun (Ret RUnit); TRun (Ret (RBool true))] s') /\
       i_map (r_I s') !! "a" = None) /\
    (exists s', rtc pstep (Pool (start [CPut "a" dB; CDrop "a"]) s) (Pool [TRun (Ret RUnit); TRun (Ret (RBool true))] s') /\
       is_Some (i_map (r_I s') !! "a")).
Proof.
  exists one_repo. split_and!; [apply one_tracks|done|by eexists|done|..].
  - (* the Put looks "a" up, the Drop runs, the Put writes *)
    set (l := steps 0 3 ++ steps 1 20 ++ steps 0 20). exists (run l (start [CPut "a" dB; CDrop "a"]) one_repo).2.
    split; [|calc].
    assert (E : (run l (start [CPut "a" dB; CDrop "a"]) one_repo).1 = [TRun (Ret RUnit); TRun (Ret (RBool true))]) by calc.
    rewrite <- E. apply run_sound.
  - set (l := steps 1 20 ++ steps 0 20). exists (run l (start [CPut "a" dB; CDrop "a"]) one_repo).2.
    split; [|eexists; calc].
    assert (E : (run l (start [CPut "a" dB; CDrop "a"]) one_repo).1 = [TRun (Ret RUnit); TRun (Ret (RBool true))]) by calc.
    rewrite <- E. apply run_sound.
Qed.

(** Puts into an index that is dropped, through an alias all of whose indices are
    dropped, and into an index overwritten by a Rename; with readers. *)
Example C83_example :
  (exists s, tracks true letters s duo_view) /\
  gentle duo_view [CPut "al" dC; CDrop "a"; CDrop "q"; CSearch "al" "b" LinearSearch; CList] /\
  gentle duo_view [CPut "q" dC; CPut "q" dA; CRename "a" "q"; CSearch "q" "b" LinearSearch; CHas "a"].
Proof.
  split_and!.
  - eexists. apply duo_tracks.
  - intros i j c c' Hij Hi Hj.
    do 5 (try destruct i as [|i]); simplify_eq/=; do 5 (try destruct j as [|j]); simplify_eq/=; try done;
      try (vm_compute; done);
      (assert (H : sole [CPut "al" dC; CDrop "a"; CDrop "q"; CSearch "al" "b" LinearSearch; CList] 0 "al"); [|revert H; generalize (sole [CPut "al" dC; CDrop "a"; CDrop "q"; CSearch "al" "b" LinearSearch; CList] 0 "al"); vm_compute; auto]);
      intros k c; do 5 (try destruct k as [|k]); intros ? ?; simplify_eq/=; intros ?; done.
  - intros i j c c' Hij Hi Hj.
    do 5 (try destruct i as [|i]); simplify_eq/=; do 5 (try destruct j as [|j]); simplify_eq/=; try done; vm_compute; done.
Qed.

(** "al" lists "a", which was lost by renaming it to itself (C42).  A Put through
    "al" beside a Put that makes "a" anew: if the first looks its target up too
    early, the process dies although "a" exists by then. *)
Definition gone_view : view := MkView ∅ {["al" := ["a"]]} 0 false.
Definition gone_repo : repo := (alone 40 (CRename "a" "a") ali_repo).2.
Lemma gone_tracks : tracks true letters gone_repo gone_view.
Proof.
  eapply (tracks_alone 40 (CRename "a" "a") ali_repo ali_view (RBool true)); [apply ali_tracks|calc|].
  intros s'. cbn [spec see v_idx v_ali v_leakI v_leakA ali_view]. rewrite decide_False by (intros E; by apply E).
  unfold gone_view. simpl. repeat f_equal.
  - by rewrite delete_insert_delete, delete_singleton.
  - by rewrite map_fmap_singleton.
Qed.
Example C83_example_death :
  tracks true letters gone_repo gone_view /\ unblocked gone_view /\ gentle gone_view [CPut "al" dB; CPut "a" dC] /\
  rtc pstep (Pool (start [CPut "al" dB; CPut "a" dC]) gone_repo) PCrashed /\
  exists s', rtc pstep (Pool (start [CPut "al" dB; CPut "a" dC]) gone_repo) (Pool [TRun (Ret RUnit); TRun (Ret RUnit)] s').
Proof.
  split_and!; [apply gone_tracks|done|..].
  - intros i j c c' Hij Hi Hj. do 2 (try destruct i as [|i]); simplify_eq/=; do 2 (try destruct j as [|j]); simplify_eq/=; try done; vm_compute; done.
  - set (l := steps 0 8 ++ steps 1 20 ++ steps 0 4).
    pose proof (run_sound l (start [CPut "al" dB; CPut "a" dC]) gone_repo) as Hr.
    assert (exists k, (run l (start [CPut "al" dB; CPut "a" dC]) gone_repo).1 !! 0 = Some (TPut [Some None] dB k)) as [k Ek] by (eexists; calc).
    generalize dependent (run l (start [CPut "al" dB; CPut "a" dC]) gone_repo). intros [ts s'] Hr Ek. cbn [fst snd] in *.
    eapply rtc_r; [exact Hr|]. eapply P_crash; [exact Ek|]. by apply (S_PutChild_nil _ _ _ _ 0).
  - set (l := steps 1 20 ++ steps 0 30). exists (run l (start [CPut "al" dB; CPut "a" dC]) gone_repo).2.
    assert (E : (run l (start [CPut "al" dB; CPut "a" dC]) gone_repo).1 = [TRun (Ret RUnit); TRun (Ret RUnit)]) by calc.
    rewrite <- E. apply run_sound.
Qed.
