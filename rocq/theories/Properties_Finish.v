(** * Property C86: client programs come to an end, without races and panics. *)
From Coq Require Import Lia.
From stdpp Require Import gmap list.
From Verif Require Import Entities Search SpecSearch Properties_Search Repo Sem RepoWp SpecRepo
  ProofRepo ProofTotal ProofReach Properties_Repo SpecConc Locks Race ProofRace Reduce ProofConc ProofSim Run
  Properties_Conc Properties_Puts SpecLin Serial Properties_Clash SpecHelp Properties_Help SpecClient Properties_Client.
Open Scope nat_scope.
Open Scope string_scope.
Open Scope list_scope.

(** ** A run of clients is a run of a pool *)

Lemma pool_more ts s ts' s' x : rtc pstep (Pool ts s) (Pool ts' s') -> rtc pstep (Pool (ts ++ [x]) s) (Pool (ts' ++ [x]) s').
Proof.
  intros Hr. refine (rtc_ind_r (R := pstep) (fun p => match p with Pool ts' s' => rtc pstep (Pool (ts ++ [x]) s) (Pool (ts' ++ [x]) s')
    | PCrashed => True end) (Pool ts s) _ _ _ Hr); [apply rtc_refl|].
  intros y z _ Hs IH. inversion Hs as [ts1 s1 i t t' s2 Hi Ht|]; simplify_eq; [|done]. eapply rtc_r; [exact IH|].
  rewrite <- insert_app_l by (by eapply lookup_lt_Some). econstructor; [|done]. by apply lookup_app_l_Some.
Qed.

Record as_pool (b : bool) (s : repo) (l : list cstate) (s' : repo) (cs : list call) (ts : list thr) (f : nat -> nat) : Prop := {
  ap_run : rtc pstep (Pool (start cs) s) (Pool ts s');
  ap_busy : forall i c t k, l !! i = Some (Busy c t k) -> cs !! f i = Some c /\ ts !! f i = Some t;
  ap_inj : forall i j c t k c' t' k', l !! i = Some (Busy c t k) -> l !! j = Some (Busy c' t' k') -> f i = f j -> i = j;
  ap_rest : forall n t, ts !! n = Some t -> finished t \/ exists i c k, l !! i = Some (Busy c t k) /\ f i = n;
  ap_fine : b = true -> ~ left_behind cs ts;
}.

Lemma ap_length b s l s' cs ts f : as_pool b s l s' cs ts f -> length ts = length cs.
Proof.
  intros H. refine (rtc_ind_r (R := pstep) (fun p => match p with Pool ts1 s1 => length ts1 = length cs | PCrashed => True end) _ _ _ _
    (ap_run _ _ _ _ _ _ _ H)).
  - unfold start. by rewrite fmap_length.
  - intros y z _ Hs IH. inversion Hs; simplify_eq; [|done]. by rewrite insert_length.
Qed.

Definition step_of (b : bool) : world -> world -> Prop := if b then smooth else wstep.

Lemma ap_return b s l s' cs ts f i c t k q :
  as_pool b s l s' cs ts f -> l !! i = Some (Busy c t k) -> finished t -> as_pool b s (<[i := Idle q]> l) s' cs ts f.
Proof.
  intros [Hrun Hbusy Hinj Hrest Hfine] Hi Hf.
  assert (Hold : forall j c1 t1 k1, <[i:=Idle q]> l !! j = Some (Busy c1 t1 k1) -> l !! j = Some (Busy c1 t1 k1)).
  { intros j c1 t1 k1 Hj. destruct (decide (j = i)) as [->|Hne].
    - by rewrite list_lookup_insert in Hj by (by eapply lookup_lt_Some).
    - by rewrite list_lookup_insert_ne in Hj by done. }
  split; [done| | | |done].
  - intros j c1 t1 k1 Hj%Hold. by eapply Hbusy.
  - intros j j' c1 t1 k1 c2 t2 k2 Hj%Hold Hj'%Hold. by eapply Hinj.
  - intros n t1 Hn. destruct (Hrest _ _ Hn) as [?|(j & c' & k' & Hj & <-)]; [by left|].
    destruct (decide (j = i)) as [->|Hne]; [left; by simplify_eq|]. right. exists j, c', k'. by rewrite list_lookup_insert_ne.
Qed.

Lemma ap_reach b ps s w :
  rtc (step_of b) (Live (Idle <$> ps) s []) w ->
  match w with Live l s' cs => exists ts f, as_pool b s l s' cs ts f | Dead => True end.
Proof.
  intros Hr. refine (rtc_ind_r (R := step_of b) (fun w => match w with Live l s' cs => exists ts f, as_pool b s l s' cs ts f
    | Dead => True end) _ _ _ _ Hr).
  - exists [], (fun _ => 0). split.
    + apply rtc_refl.
    + intros i c t k Hi. rewrite list_lookup_fmap in Hi. by destruct (ps !! i).
    + intros i j c t k c' t' k' Hi. rewrite list_lookup_fmap in Hi. by destruct (ps !! i).
    + done.
    + intros _ (i & a & x & Hi & _). done.
  - intros y z _ Hs IH.
    assert (Hw : wstep y z) by (destruct b; [apply Hs|done]).
    assert (Hb : b = true -> match z with Live l _ _ => ~ refused l | Dead => True end) by (intros ->; apply Hs).
    clear Hs. inversion Hw as [l s1 cs i c k Hi|l s1 cs i c t k t' s2 Hi Ht|l s1 cs i c r k Hi|l s1 cs i c k Hi|]; simplify_eq; [..|done];
      destruct IH as (ts & f & HA); pose proof (ap_length _ _ _ _ _ _ _ HA) as Hlen; destruct HA as [Hrun Hbusy Hinj Hrest Hfine].
    + (* a new call *)
      exists (ts ++ [TRun (prog_of c)]), (fun j => if decide (j = i) then length cs else f j). split.
      * unfold start. rewrite fmap_app. by apply pool_more.
      * intros j c' t' k' Hj. destruct (decide (j = i)) as [->|Hne].
        { rewrite list_lookup_insert in Hj by (by eapply lookup_lt_Some). simplify_eq.
          split; [by apply list_lookup_middle|]. rewrite <- Hlen. by apply list_lookup_middle. }
        rewrite list_lookup_insert_ne in Hj by done. destruct (Hbusy _ _ _ _ Hj) as [? ?].
        split; by apply lookup_app_l_Some.
      * assert (Hlt : forall j c' t' k', l !! j = Some (Busy c' t' k') -> f j < length cs).
        { intros j c' t' k' Hj. destruct (Hbusy _ _ _ _ Hj) as [? _]. by eapply lookup_lt_Some. }
        intros j j' c1 t1 k1 c2 t2 k2 Hj Hj'. destruct (decide (j = i)) as [->|Hne], (decide (j' = i)) as [->|Hne']; try done.
        { intros E. rewrite list_lookup_insert_ne in Hj' by done. pose proof (Hlt _ _ _ _ Hj'). lia. }
        { intros E. rewrite list_lookup_insert_ne in Hj by done. pose proof (Hlt _ _ _ _ Hj). lia. }
        rewrite list_lookup_insert_ne in Hj, Hj' by done. by eapply Hinj.
      * intros n t Hn. apply lookup_app_Some in Hn as [Hn|[Hn1 Hn]].
        { destruct (Hrest _ _ Hn) as [?|(j & c' & k' & Hj & <-)]; [by left|right]. exists j, c', k'.
          assert (j <> i) by (intros ->; simplify_eq). rewrite list_lookup_insert_ne by done. by rewrite decide_False. }
        apply list_lookup_singleton_Some in Hn as [Hn <-]. right. exists i, c, k.
        split; [apply list_lookup_insert; by eapply lookup_lt_Some|]. rewrite decide_True by done. lia.
      * intros Eb (n & a & x & Hc & Hx & Hn). apply lookup_app_Some in Hn as [Hn|[Hn1 Hn]].
        { apply (Hfine Eb). exists n, a, x. split_and!; try done. apply lookup_app_Some in Hc as [?|[? ?]]; [done|].
          apply lookup_lt_Some in Hn. lia. }
        apply list_lookup_singleton_Some in Hn as [Hn E]. destruct c; try done; simpl in E; unfold UnAlias_prog in E; by repeat case_match.
    + (* a step of a call *)
      destruct (Hbusy _ _ _ _ Hi) as [Hc Htn]. exists (<[f i := t']> ts), f. split.
      * eapply rtc_r; [exact Hrun|]. by econstructor.
      * intros j c' t1 k' Hj. destruct (decide (j = i)) as [->|Hne].
        { rewrite list_lookup_insert in Hj by (by eapply lookup_lt_Some). simplify_eq. split; [done|].
          apply list_lookup_insert. by eapply lookup_lt_Some. }
        rewrite list_lookup_insert_ne in Hj by done. destruct (Hbusy _ _ _ _ Hj) as [? ?]. split; [done|].
        rewrite list_lookup_insert_ne; [done|]. intros E. apply Hne. symmetry. by eapply Hinj.
      * assert (Hold : forall j c1 t1 k1, <[i:=Busy c t' k]> l !! j = Some (Busy c1 t1 k1) -> exists c2 t2 k2, l !! j = Some (Busy c2 t2 k2)).
        { intros j c1 t1 k1 Hj. destruct (decide (j = i)) as [->|Hne]; [by eexists _, _, _|]. rewrite list_lookup_insert_ne in Hj by done. by eexists _, _, _. }
        intros j j' c1 t1 k1 c2 t2 k2 Hj Hj'. destruct (Hold _ _ _ _ Hj) as (? & ? & ? & ?), (Hold _ _ _ _ Hj') as (? & ? & ? & ?). by eapply Hinj.
      * intros n t1 Hn. destruct (decide (n = f i)) as [->|Hne].
        { rewrite list_lookup_insert in Hn by (by eapply lookup_lt_Some). simplify_eq. right. exists i, c, k. split; [|done].
          apply list_lookup_insert. by eapply lookup_lt_Some. }
        rewrite list_lookup_insert_ne in Hn by done. destruct (Hrest _ _ Hn) as [?|(j & c' & k' & Hj & <-)]; [by left|right].
        exists j, c', k'. split; [|done]. rewrite list_lookup_insert_ne; [done|]. congruence.
      * intros Eb (n & a & x & Hcn & Hx & Hn). destruct (decide (n = f i)) as [->|Hne].
        { rewrite list_lookup_insert in Hn by (by eapply lookup_lt_Some). simplify_eq. apply (Hb eq_refl). exists i, a, x, k. split; [|done].
          apply list_lookup_insert. by eapply lookup_lt_Some. }
        rewrite list_lookup_insert_ne in Hn by done. apply (Hfine Eb). by exists n, a, x.
    + exists ts, f. eapply (ap_return b s l s1 cs ts f i c (TRun (Ret r)) k); [by split|done|done].
    + exists ts, f. eapply (ap_return b s l s1 cs ts f i c (TRun Throw) k); [by split|done|done].
Qed.

(** ** The theorems *)

Definition cnext (x' x : cstate) : Prop :=
  match x, x' with
  | Idle (Ask c k), Busy c' t k' => c' = c /\ t = TRun (prog_of c) /\ k' = k
  | Busy c t k, Busy c' t' k' => c' = c /\ k' = k /\ tnext t' t
  | Busy c t k, Idle p => exists a, p = k a
  | _, _ => False
  end.

Lemma client_acc p : Acc cnext (Idle p).
Proof.
  induction p as [|c k IH]; constructor; intros x Hx; [by destruct x|]. destruct x as [|c' t k']; [done|].
  destruct Hx as (-> & -> & ->). induction (thr_tacc (TRun (prog_of c))) as [t _ IHt]. constructor. intros [q|c' t' k'] Hx.
  - destruct Hx as [a ->]. apply IH.
  - destruct Hx as (-> & -> & Ht). by apply IHt.
Qed.
Lemma cstate_acc x : Acc cnext x.
Proof.
  destruct x as [p|c t k]; [apply client_acc|]. induction (thr_tacc t) as [t _ IHt]. constructor. intros [q|c' t' k'] Hx.
  - destruct Hx as [a ->]. apply client_acc.
  - destruct Hx as (-> & -> & Ht). by apply IHt.
Qed.
Definition lnext (l' l : list cstate) : Prop := exists i x x', l !! i = Some x /\ cnext x' x /\ l' = <[i := x']> l.
Lemma list_acc l : Acc lnext l.
Proof.
  induction l as [|x l IH].
  - constructor. intros l' (i & t & t' & Hi & _). done.
  - revert x. induction IH as [l _ IHl]. intros x. induction (cstate_acc x) as [x _ IHx].
    constructor. intros l' (i & x1 & x' & Hi & Hn & ->). destruct i as [|i]; simplify_eq/=.
    + by apply IHx.
    + apply IHl. by exists i, x1, x'.
Qed.
Lemma world_acc w : Acc (fun w' w => wstep w w') w.
Proof.
  assert (Hd : Acc (fun w' w => wstep w w') Dead) by (constructor; intros w' Hw; inversion Hw).
  destruct w as [l s cs|]; [|done]. revert s cs. induction (list_acc l) as [l _ IH]. intros s cs.
  constructor. intros w' Hw. inversion Hw; simplify_eq; [..|done]; apply IH; eexists _, _, _; (split_and!; [done| |done]); simpl; try done; eauto.
  split_and!; [done..|]. by eexists _, _.
Qed.

(** Every run of client programs is finite. *)
Theorem C86_no_infinite_run :
  forall f : nat -> world, ~ forall n, wstep (f n) (f (S n)).
Proof.
  intros f Hf. assert (forall w n, w = f n -> False) as H; [|by apply (H (f 0) 0)].
  intros w. induction (world_acc w) as [w _ IH]. intros n ->. by eapply IH; [apply (Hf n)|].
Qed.
Print Assumptions C86_no_infinite_run.

Lemma finished_step s t r : finished t -> ~ tstep s t r.
Proof. intros Hf Hs. destruct t as [[]| | |]; try done; by inversion Hs. Qed.

(** No client waits for ever unless some UnAlias was refused. *)
Theorem C86_no_deadlock :
  forall ps s l s' cs,
    r_imu s = rw_free -> r_amu s = rw_free ->
    rtc smooth (Live (Idle <$> ps) s []) (Live l s' cs) ->
    (Forall (eq (Idle Stop)) l /\ r_imu s' = rw_free /\ r_amu s' = rw_free) \/ exists w, wstep (Live l s' cs) w.
Proof.
  intros ps s l s' cs E1 E2 Hr. destruct (ap_reach true ps s _ Hr) as (ts & f & HA).
  destruct HA as [Hrun Hbusy Hinj Hrest Hfine]. specialize (Hfine eq_refl).
  destruct (C48_no_deadlock cs s ts s' E1 E2 Hrun Hfine) as [Hall|[p Hp]].
  - assert (Hd : Forall (eq (Idle Stop)) l \/ Exists (fun x => Idle Stop <> x) l).
    { clear. induction l as [|x l IH]; [by left; constructor|].
      destruct x as [[|c k]|]; [destruct IH; [left; by constructor|right; by constructor]|right; by constructor..]. }
    destruct Hd as [Hd|Hd].
    + left. split; [done|]. destruct (C48_all_return cs s _ E1 E2 Hrun) as (p' & Hr' & Hp').
      assert (p' = Pool ts s') as ->.
      { apply rtc_inv in Hr' as [<-|(y & Hs & _)]; [done|]. exfalso. inversion Hs; simplify_eq; (eapply finished_step; [|done]; by eapply Forall_lookup_1). }
      destruct Hp' as [|(ts1 & s1 & E & [?|[_ ?]])]; [done|..]; by simplify_eq.
    + right. apply Exists_exists in Hd as (x & Hx & Hne). apply elem_of_list_lookup in Hx as [i Hi].
      destruct x as [[|c k]|c t k]; [done|eexists; by eapply W_ask|].
      destruct (Hbusy _ _ _ _ Hi) as [_ Ht]. pose proof (Forall_lookup_1 _ _ _ _ Hall Ht) as Hf.
      destruct t as [[]| | |]; try done; eexists; [by eapply W_return|by eapply W_throw].
  - right. inversion Hp as [? ? n t t' s2 Hn Hs|? ? n t Hn Hs]; simplify_eq;
      (destruct (Hrest _ _ Hn) as [Hf|(i & c & k & Hi & _)]; [exfalso; by eapply finished_step|]); eexists; [by eapply W_run|by eapply W_die].
Qed.
Print Assumptions C86_no_deadlock.

Lemma refused_dec l : refused l \/ ~ refused l.
Proof.
  induction l as [|x l IH]; [right; intros (i & a & x & k & Hi & _); done|].
  destruct IH as [(i & a & y & k & Hi & Hy)|Hno]; [left; by exists (S i), a, y, k|].
  assert (Hx : (exists a y k, x = Busy (CUnAlias a y) (TRun (Ret (RBool false))) k /\ y <> "") \/
    ~ exists a y k, x = Busy (CUnAlias a y) (TRun (Ret (RBool false))) k /\ y <> "").
  { destruct x as [|c t k]; [right; by intros (? & ? & ? & ? & _)|].
    destruct c; try (right; intros (? & ? & ? & ? & _); congruence).
    destruct (decide (index = "")); [right; intros (? & ? & ? & ? & ?); congruence|].
    destruct t as [[[|[]| | | | |]| | | | | | | | | | | | | | | | | | | | | | |]| | |]; first [left; by eauto 10|right; intros (? & ? & ? & ? & ?); congruence]. }
  destruct Hx as [(a & y & k & -> & Hy)|Hx]; [left; by exists 0, a, y, k|right].
  intros (i & a & y & k & Hi & Hy). destruct i as [|i]; simplify_eq/=; [apply Hx; eauto|apply Hno; by exists i, a, y, k].
Qed.

(** So from every state reached all clients can come to their end, after which both
    locks are free, unless the process dies or an UnAlias is refused. *)
Theorem C86_all_finish :
  forall ps s w,
    r_imu s = rw_free -> r_amu s = rw_free -> rtc smooth (Live (Idle <$> ps) s []) w ->
    exists w', rtc wstep w w' /\
      match w' with
      | Dead => True
      | Live l s' _ => refused l \/ Forall (eq (Idle Stop)) l /\ r_imu s' = rw_free /\ r_amu s' = rw_free
      end.
Proof.
  intros ps s w E1 E2. induction (world_acc w) as [w _ IH]. intros Hr.
  destruct w as [l s' cs|]; [|by exists Dead].
  destruct (C86_no_deadlock ps s l s' cs E1 E2 Hr) as [H|[w Hw]]; [exists (Live l s' cs); split; [apply rtc_refl|by right]|].
  assert (Hd : smooth (Live l s' cs) w \/ exists l1 s1 cs1, w = Live l1 s1 cs1 /\ refused l1).
  { destruct w as [l1 s1 cs1|]; [|by left; split]. destruct (refused_dec l1); [right; by eexists _, _, _|left; by split]. }
  destruct Hd as [Hs|(l1 & s1 & cs1 & -> & Hl)].
  - destruct (IH w Hw) as (w' & ? & ?); [by eapply rtc_r|]. exists w'. split; [by eapply rtc_l|done].
  - exists (Live l1 s1 cs1). split; [by apply rtc_once|by left].
Qed.
Print Assumptions C86_all_finish.

(** Clients do not race with one another. *)
Theorem C86_no_race :
  forall ps s l s' cs,
    r_imu s = rw_free -> r_amu s = rw_free -> separate cs ->
    rtc wstep (Live (Idle <$> ps) s []) (Live l s' cs) -> ~ race_between (thread_of <$> l).
Proof.
  intros ps s l s' cs E1 E2 Hs Hr (i & j & ti & tj & gi & gj & loc & wi & wj & Hi & Hj & Hij & Hl & Ai & Aj & Hw).
  destruct (ap_reach false ps s _ Hr) as (ts & f & [Hrun Hbusy Hinj _ _]).
  apply (C49_no_race_between_calls cs s ts s' E1 E2 Hs Hrun).
  rewrite list_lookup_fmap in Hi, Hj. destruct (l !! i) as [x|] eqn:Ei; [|done]. destruct (l !! j) as [y|] eqn:Ej; [|done]. simplify_eq/=.
  destruct x as [|ci ti ki]; [inversion Ai|]. destruct y as [|cj tj kj]; [inversion Aj|]. simpl in *.
  exists (f i), (f j), ti, tj, gi, gj, loc, wi, wj. split_and!; try done; [by eapply Hbusy..|].
  intros E. apply Hij. by eapply Hinj.
Qed.
Print Assumptions C86_no_race.

(** If every alias lists existing indices, nobody renames an index to itself and the
    engines do not panic on the queries asked, no client sees a panic and the process
    lives. *)
Theorem C86_no_panic :
  forall ckn tk s v ps l s' cs,
    tracks ckn tk s v -> unblocked v -> separate cs -> (forall n, CRename n n ∉ cs) ->
    (forall a la x, v_ali v !! a = Some la -> x ∈ la -> is_Some (v_idx v !! x)) ->
    (forall n q e, CSearch n q e ∈ cs -> engine_safe ckn tk q e) ->
    rtc wstep (Live (Idle <$> ps) s []) (Live l s' cs) ->
    ~ wstep (Live l s' cs) Dead /\ forall i c k, l !! i <> Some (Busy c (TRun Throw) k).
Proof.
  intros ckn tk s v ps l s' cs Ht Hu Hs Hn Hd He Hr.
  destruct (ap_reach false ps s _ Hr) as (ts & f & [Hrun Hbusy Hinj _ _]). split.
  - intros Hw. inversion Hw as [| | | |? ? ? i c t k Hi Hx]; simplify_eq. destruct (Hbusy _ _ _ _ Hi) as [_ Hti].
    destruct (C52_no_panic ckn tk s v cs PCrashed Ht Hu Hs Hn Hd He) as (? & ? & ? & _); [|done].
    eapply rtc_r; [exact Hrun|]. by eapply P_crash.
  - intros i c k Hi. destruct (Hbusy _ _ _ _ Hi) as [_ Hti].
    destruct (C52_no_panic ckn tk s v cs _ Ht Hu Hs Hn Hd He Hrun) as (? & ? & ? & Hno). simplify_eq. by apply (Hno (f i)).
Qed.
Print Assumptions C86_no_panic.

(** Programs that do not take single indices out of aliases are never refused. *)
Theorem C86_without_unalias :
  forall ps s w,
    Forall (makes_only (fun c => forall a x, c = CUnAlias a x -> x = "")) ps ->
    rtc wstep (Live (Idle <$> ps) s []) w -> rtc smooth (Live (Idle <$> ps) s []) w.
Proof.
  intros ps s w HP Hr.
  refine (proj2 (rtc_ind_r (R := wstep) (fun w => rtc wstep (Live (Idle <$> ps) s []) w /\ rtc smooth (Live (Idle <$> ps) s []) w) _ _ _ _ Hr)).
  - split; apply rtc_refl.
  - intros y z _ Hs [H1 H2]. assert (H3 : rtc wstep (Live (Idle <$> ps) s []) z) by (by eapply rtc_r).
    split; [done|]. eapply rtc_r; [exact H2|]. split; [done|]. destruct z as [l s' cs|]; [|done].
    intros (i & a & x & k & Hi & Hx). destruct (only_calls _ _ _ _ HP H3) as [_ Hcs].
    destruct (ap_reach false ps s _ H3) as (ts & f & HA). destruct (ap_busy _ _ _ _ _ _ _ HA _ _ _ _ Hi) as [Hc _].
    apply Hx. by apply (Forall_lookup_1 _ _ _ _ Hcs Hc a).
Qed.
Print Assumptions C86_without_unalias.

(** After a refused UnAlias a client can wait for ever. *)
Theorem C86_refused_refuted :
  exists ps l s' cs,
    rtc wstep (Live (Idle <$> ps) fresh []) (Live l s' cs) /\ ~ Forall (eq (Idle Stop)) l /\
    forall w, ~ wstep (Live l s' cs) w.
Proof.
  set (cs := [CUnAlias "a" "x"; CPut "n" dA]). set (sched := steps 0 2 ++ steps 1 7).
  assert (exists k, (after_run sched cs).1 = [TRun (Ret (RBool false)); TPend MI k]) as [k Ek] by (eexists; calc).
  assert (rw_readers (r_imu (after_run sched cs).2) = 1) as E by calc.
  pose proof (after_run_reach sched cs) as Hr. rewrite Ek in Hr.
  generalize dependent (after_run sched cs).2. intros s' E Hr.
  set (k0 := fun _ : answer => Stop).
  exists [Ask (CUnAlias "a" "x") k0; Ask (CPut "n" dA) k0], [Idle Stop; Busy (CPut "n" dA) (TPend MI k) k0], s', cs. split_and!.
  - eapply rtc_l; [apply (W_ask _ _ _ 0 (CUnAlias "a" "x") k0); done|]. eapply rtc_l; [apply (W_ask _ _ _ 1 (CPut "n" dA) k0); done|].
    eapply rtc_transitive.
    { apply (busy_run (fun i => match i with O => CUnAlias "a" "x" | S _ => CPut "n" dA end) (fun _ => k0) _ _ _ cs Hr). }
    apply rtc_once.
    exact (W_return [Busy (CUnAlias "a" "x") (TRun (Ret (RBool false))) k0; Busy (CPut "n" dA) (TPend MI k) k0] s' cs 0 _ _ k0 eq_refl).
  - intros H. apply Forall_inv_tail, Forall_inv in H. done.
  - intros w Hw. inversion Hw as [? ? ? i ? ? Hi|? ? ? i ? ? ? ? ? Hi Ht|? ? ? i ? ? ? Hi|? ? ? i ? ? Hi|? ? ? i ? ? ? Hi Ht]; simplify_eq;
      destruct i as [|[|i]]; simplify_eq/=; inversion Ht; simplify_eq/=; congruence.
Qed.
Print Assumptions C86_refused_refuted.

(** The clients of C85 meet the hypotheses. *)
Example C86_example :
  r_imu duo_repo = rw_free /\ r_amu duo_repo = rw_free /\ tracks true letters duo_repo duo_view /\ unblocked duo_view /\
  Forall (makes_only (fun c => forall a x, c = CUnAlias a x -> x = "")) [writer; reader] /\
  (forall a la x, v_ali duo_view !! a = Some la -> x ∈ la -> is_Some (v_idx duo_view !! x)) /\
  exists l s' cs, rtc wstep (Live (Idle <$> [writer; reader]) duo_repo []) (Live l s' cs) /\
    cs = [CPut "al" dC; CSearch "a" "b" LinearSearch] /\ separate cs /\
    (forall n, CRename n n ∉ cs) /\ (forall n q e, CSearch n q e ∈ cs -> engine_safe true letters q e) /\
    exists x y, l = [x; y] /\ ~ idle x /\ ~ idle y.
Proof.
  split_and!; [calc|calc|apply duo_tracks|done|..].
  - apply Forall_cons. split; [simpl; split_and!; try done|]. apply Forall_singleton. split; [done|].
    intros [[| | | |[|]| |]|]; simpl; done.
  - intros a la x Ha Hx. unfold duo_view in *. simpl in *. apply lookup_singleton_Some in Ha as [<- <-].
    repeat (apply elem_of_cons in Hx as [->|Hx]); [..|by apply elem_of_nil in Hx]; vm_compute; eauto.
  - eexists _, _, _. split_and!.
    + eapply rtc_l; [by apply (W_ask _ _ _ 0)|]. eapply rtc_l; [by apply (W_ask _ _ _ 1)|]. apply rtc_refl.
    + done.
    + left. intros old new H. by repeat (apply elem_of_cons in H as [?|H]); [..|by apply elem_of_nil in H].
    + intros n H. by repeat (apply elem_of_cons in H as [?|H]); [..|by apply elem_of_nil in H].
    + intros n q e H. repeat (apply elem_of_cons in H as [?|H]); simplify_eq; [|by apply elem_of_nil in H].
      apply (C44_engines_safe true letters _ id).
    + eexists _, _. split; [done|]. split; intros H; exact H.
Qed.
