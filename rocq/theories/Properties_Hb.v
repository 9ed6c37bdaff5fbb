(** * Property C96: conflicting accesses are ordered by synchronisation.
    C49 says when two goroutines are never about to make conflicting accesses at the
    same moment.  Here the stronger claim, in the terms of the Go memory model. *)
From Coq Require Import Lia.
From stdpp Require Import gmap list.
From Verif Require Import Entities Search SpecSearch Properties_Search Repo Sem RepoWp SpecRepo
  ProofRepo ProofTotal ProofReach Properties_Repo SpecConc Locks Race ProofRace Reduce ProofConc ProofSim Run
  Properties_Conc SpecHb ProofHb.
Open Scope string_scope.
Open Scope list_scope.
Open Scope nat_scope.

Lemma hb_prefix tr b e a :
  tr !! b = Some e -> hb (take b tr ++ [e]) a (length (take b tr)) -> hb tr a b.
Proof.
  intros Hb H. assert (Hl : b < length tr) by (by eapply lookup_lt_Some).
  rewrite take_length_le in H by lia. rewrite <- (take_S_r _ _ _ Hb) in H.
  rewrite <- (take_drop (S b) tr). by apply hb_mono.
Qed.

(** An event and an access that is to come, conflicting on a location that [md]
    protects. *)
Lemma next_ordered md cs s tr ts s' a e j t g l w w' :
  r_imu s = rw_free -> r_amu s = rw_free -> Forall (allowed md) cs -> md <> Any \/ part_of l = PI ->
  run (start cs) s tr ts s' -> tr !! a = Some e -> ts !! j = Some t ->
  does e l w -> access t g l w' -> w = true \/ w' = true -> (l = LResult -> ev_call e = j) ->
  hb (tr ++ [MkEv j g t]) a (length tr) \/ (ev_call e = j /\ race_within (ev_at e)).
Proof.
  intros E1 E2 Hmd Hm Hr Ha Ht He He' Hw Hres.
  destruct (decide (ev_call e = j)) as [<-|Hne].
  - destruct (run_inv_run Any cs s _ _ _ E1 E2 (any_allowed cs) Hr) as (hs & past & Hi).
    assert (Hd : l = LResult \/ l <> LResult) by (destruct l; auto; right; discriminate).
    destruct Hd as [->|Hl].
    + left. by eapply ordered_result.
    + destruct (ordered_within _ _ _ _ _ _ _ _ _ _ _ _ _ _ Hr Hi Ha He Ht He' Hl Hw) as [H|H]; [by left|by right].
  - destruct (run_inv_run md cs s _ _ _ E1 E2 Hmd Hr) as (hs & past & Hi). left.
    eapply ordered_between; try done. intros ->. by apply Hne, Hres.
Qed.
Lemma conflict_ordered md cs s tr ts s' a b e e' l w w' :
  r_imu s = rw_free -> r_amu s = rw_free -> Forall (allowed md) cs -> md <> Any \/ part_of l = PI ->
  run (start cs) s tr ts s' -> a < b -> tr !! a = Some e -> tr !! b = Some e' ->
  does e l w -> does e' l w' -> w = true \/ w' = true -> (l = LResult -> ev_call e = ev_call e') ->
  hb tr a b \/ (ev_call e = ev_call e' /\ race_within (ev_at e)).
Proof.
  intros E1 E2 Hmd Hm Hr Hab Ha Hb He He' Hw Hres.
  destruct (run_prefix _ _ _ _ _ _ _ Hr Hb) as (ts1 & s1 & Hr1 & Ht1).
  assert (Ha1 : take b tr !! a = Some e) by (by rewrite lookup_take).
  destruct (next_ordered md cs s _ _ _ a e _ _ _ l w w' E1 E2 Hmd Hm Hr1 Ha1 Ht1 He He' Hw Hres) as [H|H]; [|by right].
  left. eapply hb_prefix; [exact Hb|]. by destruct e'.
Qed.

(** Calls without both Rename and UnAlias: any two conflicting accesses of a run are
    ordered by happens-before, except for two goroutines of one Put that were given
    the same index. *)
Theorem C96_ordered :
  forall cs s tr ts s' a b e e',
    r_imu s = rw_free -> r_amu s = rw_free -> without_rename cs \/ without_unalias cs ->
    run (start cs) s tr ts s' -> a < b -> tr !! a = Some e -> tr !! b = Some e' -> conflict e e' ->
    hb tr a b \/ (ev_call e = ev_call e' /\ race_within (ev_at e)).
Proof.
  intros cs s tr ts s' a b e e' E1 E2 Hc Hr Hab Ha Hb (l & w & w' & H1 & H2 & H3 & H4).
  destruct Hc as [Hc|Hc].
  - apply (conflict_ordered NoRename cs s tr ts s' a b e e' l w w'); try done; [by apply allowed_without_rename|by left].
  - apply (conflict_ordered NoUnAlias cs s tr ts s' a b e e' l w w'); try done; [by apply allowed_without_unalias|by left].
Qed.
Print Assumptions C96_ordered.

(** The same for an access that is about to be made, by a step that may crash. *)
Theorem C96_next_ordered :
  forall cs s tr ts s' a e j t g,
    r_imu s = rw_free -> r_amu s = rw_free -> without_rename cs \/ without_unalias cs ->
    run (start cs) s tr ts s' -> tr !! a = Some e -> ts !! j = Some t -> conflict e (MkEv j g t) ->
    hb (tr ++ [MkEv j g t]) a (length tr) \/ (ev_call e = j /\ race_within (ev_at e)).
Proof.
  intros cs s tr ts s' a e j t g E1 E2 Hc Hr Ha Ht (l & w & w' & H1 & H2 & H3 & H4).
  destruct Hc as [Hc|Hc].
  - apply (next_ordered NoRename cs s tr ts s' a e j t g l w w'); try done; [by apply allowed_without_rename|by left].
  - apply (next_ordered NoUnAlias cs s tr ts s' a e j t g l w w'); try done; [by apply allowed_without_unalias|by left].
Qed.
Print Assumptions C96_next_ordered.

(** Without Rename, from a state in which every alias lists distinct existing indices,
    there is no exception. *)
Theorem C96_always_ordered :
  forall ckn tk s v cs tr ts s' a b e e',
    tracks ckn tk s v -> unblocked v -> proper_aliases v -> without_rename cs ->
    run (start cs) s tr ts s' -> a < b -> tr !! a = Some e -> tr !! b = Some e' -> conflict e e' -> hb tr a b.
Proof.
  intros ckn tk s v cs tr ts s' a b e e' Ht Hu Hp Hc Hr Hab Ha Hb Hcf.
  destruct (init_view true ckn tk s v (reach_shape _ _ _ _ _ Ht) Hu (fun _ => Hp)) as (w & _ & _ & E1 & E2).
  destruct (C96_ordered cs s tr ts s' a b e e' E1 E2 (or_introl Hc) Hr Hab Ha Hb Hcf) as [H|[_ H]]; [done|].
  exfalso. destruct (run_prefix _ _ _ _ _ _ _ Hr Ha) as (ts1 & s1 & Hr1 & Ht1).
  destruct (C49_no_race ckn tk s v cs ts1 s1 Ht Hu Hp Hc (run_rtc _ _ _ _ _ Hr1)) as [_ Hno]. by eapply Hno.
Qed.
Print Assumptions C96_always_ordered.

(** Whatever the calls, this holds of the table of indices, the indices themselves, and
    the results of a Search. *)
Theorem C96_indices_ordered :
  forall cs s tr ts s' a b e e' l w w',
    r_imu s = rw_free -> r_amu s = rw_free ->
    run (start cs) s tr ts s' -> a < b -> tr !! a = Some e -> tr !! b = Some e' ->
    does e l w -> does e' l w' -> w = true \/ w' = true -> (l = LResult -> ev_call e = ev_call e') ->
    l <> LAliases -> (forall x i, l <> LElem x i) ->
    hb tr a b \/ (ev_call e = ev_call e' /\ race_within (ev_at e)).
Proof.
  intros cs s tr ts s' a b e e' l w w' E1 E2 Hr Hab Ha Hb H1 H2 H3 H4 Hl1 Hl2.
  apply (conflict_ordered Any cs s tr ts s' a b e e' l w w'); try done; [apply any_allowed|].
  right. destruct l; try done. by destruct (Hl2 a0 i).
Qed.
Print Assumptions C96_indices_ordered.

(** Adjacent events are ordered only by synchronisation between the two. *)
Lemma hb_adjacent tr a e e' :
  tr !! a = Some e -> tr !! S a = Some e' -> hb tr a (S a) ->
  (ev_call e = ev_call e' /\ (ev_g e = ev_g e' \/ is_go e \/ is_wait e' \/ is_rl true e)) \/
  exists m, is_unlock m e \/ is_runlock m e.
Proof.
  intros Ha Hb H. remember (S a) as b eqn:Eb. destruct H; simplify_eq.
  - left. auto.
  - right. eauto.
  - right. eauto.
  - left. auto.
  - left. auto.
  - left. auto 10.
  - exfalso. apply hb_lt in H, H0. lia.
Qed.

(** And where two goroutines are about to make conflicting accesses (the races of C49),
    some run makes them unordered. *)
Theorem C96_race_unordered :
  forall cs s ts s',
    r_imu s = rw_free -> r_amu s = rw_free -> rtc pstep (Pool (start cs) s) (Pool ts s') ->
    race_between ts \/ (exists i t, ts !! i = Some t /\ race_within t) ->
    exists tr e e' ts2 s2, run (start cs) s (tr ++ [e; e']) ts2 s2 /\ conflict e e' /\
      ~ hb (tr ++ [e; e']) (length tr) (S (length tr)).
Proof.
  intros cs s ts s' E1 E2 Hr Hrace. destruct (rtc_run _ _ _ _ Hr) as [tr Htr].
  assert (Hlk : forall e e' : event, (tr ++ [e; e']) !! length tr = Some e /\ (tr ++ [e; e']) !! S (length tr) = Some e').
  { intros e e'. split; rewrite lookup_app_r by lia; [by rewrite Nat.sub_diag|]. by replace (S (length tr) - length tr) with 1 by lia. }
  destruct Hrace as [(i & j & ti & tj & gi & gj & l & wi & wj & Hi & Hj & Hij & Hl & Ai & Aj & Hw)|(i & t & Hi & g & g' & l & w & w' & Hg & A1 & A2 & Hw)].
  - assert (Hal : part_of l <> PI).
    { destruct (C49_no_race_on_indices cs s ts s' l E1 E2 Hr) as [->|(x & n & ->)]; [|done..]. by exists i, j, ti, tj, gi, gj, wi, wj. }
    destruct (alias_step _ _ _ _ s' Ai Hal) as (-> & ti' & s1 & Hs1 & Hm1).
    destruct (alias_step _ _ _ _ s1 Aj Hal) as (-> & tj' & s2 & Hs2 & Hm2).
    exists tr, (MkEv i 0 ti), (MkEv j 0 tj), (<[j := tj']> (<[i := ti']> ts)), s2. split_and!.
    + change [MkEv i 0 ti; MkEv j 0 tj] with ([MkEv i 0 ti] ++ [MkEv j 0 tj]). rewrite app_assoc.
      eapply R_step; [by eapply R_step|by rewrite list_lookup_insert_ne|done|done].
    + exists l, wi, wj. split_and!; try done.
    + destruct (Hlk (MkEv i 0 ti) (MkEv j 0 tj)) as [L1 L2]. intros Hh. destruct (hb_adjacent _ _ _ _ L1 L2 Hh) as [[? _]|(m & Hx)]; [done|].
      unfold is_unlock, is_runlock in Hx. cbn in Hx. by destruct Ai, Hx.
  - destruct t as [p|m k|pcs d k|scs q en r k].
    + exfalso. apply Hg. by inversion A1; inversion A2; simplify_eq.
    + exfalso. inversion A1.
    + inversion A1 as [| | | | | | | | | | | | | | |? ? ? j p Hpj| | | |]; subst.
      inversion A2 as [| | | | | | | | | | | | | | |? ? ? j0 ? Hpj0| | | |]; subst.
      assert (Hjj : j <> j0) by congruence.
      assert (Hs1 : tstep s' (TPut pcs d k) (TNext (TPut (<[j := None]> pcs) d k) (set_I (i_put p d (r_I s')) s'))) by (by apply S_PutChild, Hpj).
      assert (Hj1 : (<[j := None]> pcs) !! j0 = Some (Some (Some p))) by (by rewrite list_lookup_insert_ne).
      pose proof (S_PutChild (set_I (i_put p d (r_I s')) s') _ d k j0 p Hj1) as Hs2.
      eexists tr, (MkEv i (S j) (TPut pcs d k)), (MkEv i (S j0) (TPut (<[j := None]> pcs) d k)), _, _. split_and!.
      * change [?x; ?y] with ([x] ++ [y]). rewrite app_assoc. eapply R_step; [eapply R_step|..].
        -- exact Htr.
        -- exact Hi.
        -- exact Hs1.
        -- exists j. split; [done|]. rewrite list_lookup_insert by (by eapply lookup_lt_Some). congruence.
        -- apply list_lookup_insert. by eapply lookup_lt_Some.
        -- exact Hs2.
        -- exists j0. split; [done|]. rewrite (list_lookup_insert _ j0) by (by eapply lookup_lt_Some). congruence.
      * exists (LObj p), true, true. split; [by constructor|]. split; [by constructor|]. split; [by left|done].
      * destruct (Hlk (MkEv i (S j) (TPut pcs d k)) (MkEv i (S j0) (TPut (<[j := None]> pcs) d k))) as [L1 L2].
        intros Hh. destruct (hb_adjacent _ _ _ _ L1 L2 Hh) as [[_ [Hx|[Hx|[Hx|Hx]]]]|(m & Hx)].
        -- cbn in Hx. congruence.
        -- done.
        -- by destruct Hx.
        -- by destruct Hx as (? & _ & ?).
        -- unfold is_unlock, is_runlock in Hx. cbn in Hx. by destruct Hx.
    + exfalso. eapply (C49_no_race_in_search cs s ts s' i scs q en r k Hr Hi). by exists g, g', l, w, w'.
Qed.
Print Assumptions C96_race_unordered.

(** The events of a schedule of Run.v. *)
Definition goroutine (t : thr) (j : nat) : nat :=
  match t with
  | TPut pcs _ _ => if all_none pcs then 0 else S j
  | TSearch scs _ _ _ _ => if all_done scs then 0 else S j
  | _ => 0
  end.
Fixpoint events (l : list (nat * nat)) (ts : list thr) (s : repo) : list event :=
  match l with
  | [] => []
  | (i, j) :: l =>
      match ts !! i with
      | Some t =>
          match next_of s t j with
          | Some (t', s') => MkEv i (goroutine t j) t :: events l (<[i := t']> ts) s'
          | None => events l ts s
          end
      | None => events l ts s
      end
  end.

Lemma next_of_mover s t j t' s' : next_of s t j = Some (t', s') -> mover t t' (goroutine t j).
Proof.
  destruct t as [p|m k|pcs d k|scs q en r k]; cbn; intros H; try done.
  - destruct (all_none pcs); [by injection H as <- <-|].
    destruct (pcs !! j) as [[[p|]|]|] eqn:Ej; try done. injection H as <- <-. exists j. split; [done|].
    rewrite list_lookup_insert by (by eapply lookup_lt_Some). congruence.
  - destruct (all_done scs); [by injection H as <- <-|].
    destruct (scs !! j) as [[]|] eqn:Ej; try done;
      repeat match type of H with context [match ?x with _ => _ end] => destruct x; try done end;
      injection H as <- <-; exists j; (split; [done|]);
      rewrite list_lookup_insert by (by eapply lookup_lt_Some); congruence.
Qed.
Lemma events_run l : forall ts0 s0 tr ts s,
  run ts0 s0 tr ts s -> run ts0 s0 (tr ++ events l ts s) (Run.run l ts s).1 (Run.run l ts s).2.
Proof.
  induction l as [|[i j] l IH]; intros ts0 s0 tr ts s H; cbn [events Run.run].
  - by rewrite app_nil_r.
  - destruct (ts !! i) as [t|] eqn:Ei; cbn; [|by apply IH].
    destruct (next_of s t j) as [[t1 s1]|] eqn:E; [|by apply IH].
    rewrite (cons_middle _ tr), app_assoc. apply IH.
    eapply R_step; [exact H|exact Ei|by eapply next_of_sound|by eapply next_of_mover].
Qed.

(** Beside C96_always_ordered: a run from a new repo in which a goroutine of a Put
    through an alias writes an index that a later Search reads. *)
Example C96_example :
  exists calls tr ts s' a b e e',
    tracks true letters fresh new_view /\ unblocked new_view /\ proper_aliases new_view /\ without_rename calls /\
    run (start calls) fresh tr ts s' /\ a < b /\ tr !! a = Some e /\ tr !! b = Some e' /\ conflict e e' /\
    ev_call e <> ev_call e' /\ ev_g e = 1 /\ hb tr a b.
Proof.
  set (cs := [CPut "p" dA; CPut "q" dB; CAlias "a" "p"; CAlias "a" "q"; CPut "a" dA; CDrop "q"; CSearch "p" "a" LinearSearch]).
  assert (Hcs : without_rename cs) by (intros old new; unfold cs; set_solver).
  assert (Hu : unblocked new_view) by done.
  assert (Hp : proper_aliases new_view).
  { intros a l Hl. unfold new_view in Hl. simpl in Hl. by rewrite lookup_empty in Hl. }
  set (l := steps 0 12 ++ steps 1 12 ++ steps 2 9 ++ steps 3 10 ++ steps 5 3 ++ steps 4 13 ++ [(4, 1); (4, 0); (4, 0); (4, 0)] ++ steps 6 5).
  assert (Hr : run (start cs) fresh (events l (start cs) fresh) (Run.run l (start cs) fresh).1 (Run.run l (start cs) fresh).2).
  { apply (events_run l _ _ [] _ _), R_start. }
  assert (Ha : exists k, events l (start cs) fresh !! 60 = Some (MkEv 4 1 (TPut [Some (Some 0); None] dA k))) by (eexists; calc).
  assert (Hb : exists k kp, events l (start cs) fresh !! 65 = Some (MkEv 6 0 (TRun (IdxSearch (Some 0) "a" LinearSearch k kp)))) by (eexists _, _; calc).
  destruct Ha as [k Ha]. destruct Hb as (k1 & k2 & Hb).
  assert (Hc : conflict (MkEv 4 1 (TPut [Some (Some 0); None] dA k)) (MkEv 6 0 (TRun (IdxSearch (Some 0) "a" LinearSearch k1 k2)))).
  { exists (LObj 0), true, false. split; [by constructor|]. split; [by constructor|]. split; [by left|done]. }
  eexists cs, _, _, _, 60, 65, _, _. split_and!; [apply tracks_new|exact Hu|exact Hp|exact Hcs|exact Hr|lia|exact Ha|exact Hb|exact Hc|done|done|].
  eapply C96_always_ordered; [apply tracks_new|exact Hu|exact Hp|exact Hcs|exact Hr|lia|exact Ha|exact Hb|exact Hc].
Qed.

(** Beside C96_race_unordered, and against C96_always_ordered without its hypothesis on
    Rename: the UnAlias and Rename of C49 make accesses that nothing orders. *)
Theorem C96_rename_refuted :
  exists cs tr e e' ts s, run (start cs) fresh (tr ++ [e; e']) ts s /\ conflict e e' /\
    ~ hb (tr ++ [e; e']) (length tr) (S (length tr)).
Proof.
  destruct C49_rename_unalias_refuted as (cs & ts & s & Hr & H).
  destruct (C96_race_unordered cs fresh ts s eq_refl eq_refl Hr (or_introl H)) as (tr & e & e' & ts2 & s2 & H1).
  by exists cs, tr, e, e', ts2, s2.
Qed.
Print Assumptions C96_rename_refuted.
