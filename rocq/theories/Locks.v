(** * Locking discipline of the repo programs.
    A ghost record of what each call holds; every call obeys the discipline
    [disc]; pools of disciplined calls cannot deadlock and respect mutual
    exclusion. *)
From Coq Require Import Lia.
From stdpp Require Import list gmap.
From Verif Require Import Entities Search SpecSearch Repo Sem RepoWp SpecRepo ProofRepo ProofTotal.
Open Scope nat_scope.

(** ** What a call holds of one mutex *)
Inductive hold := HN | HR | HP | HW.  (* nothing, read, announced writer, write *)
Global Instance hold_eq_dec : EqDecision hold.
Proof. solve_decision. Defined.

Definition rd (a : hold) : bool := match a with HR | HW => true | _ => false end.
Definition wr (a : hold) : bool := match a with HW => true | _ => false end.

Global Instance mutex_eq_dec : EqDecision mutex.
Proof. solve_decision. Defined.

Notation held := (hold * hold)%type.
Definition get_h (m : mutex) (h : held) : hold := match m with MI => h.1 | MA => h.2 end.
Definition set_h (m : mutex) (a : hold) (h : held) : held :=
  match m with MI => (a, h.2) | MA => (h.1, a) end.
Notation none_held := ((HN, HN) : held).

(** ** What holding permits *)
Inductive mode := Any | NoRename | NoUnAlias.
Inductive part := PI | PM | PR.       (* index table and objects, alias table, alias arrays *)

Definition canR (md : mode) (x : part) (h : held) : bool :=
  match md, x with
  | _, PI => rd h.1
  | Any, _ => true
  | NoRename, _ => rd h.2
  | NoUnAlias, PM => rd h.2 || wr h.1
  | NoUnAlias, PR => wr h.1 || (rd h.1 && rd h.2)
  end.
Definition canW (md : mode) (x : part) (h : held) : bool :=
  match md, x with
  | _, PI => wr h.1
  | Any, _ => true
  | NoRename, _ => wr h.2
  | NoUnAlias, PM => rd h.1 && wr h.2
  | NoUnAlias, PR => wr h.1 || (rd h.1 && wr h.2)
  end.

Definition compat1 (a b : hold) : Prop := (wr a -> rd b = false) /\ (wr b -> rd a = false).
Definition compat (h h' : held) : Prop := compat1 h.1 h'.1 /\ compat1 h.2 h'.2.

Lemma can_excl md x h h' : md <> Any -> compat h h' -> canW md x h -> canR md x h' = false.
Proof.
  intros Hm [[H1 H2] [H3 H4]]. destruct h as [a b], h' as [c d]. simpl in *.
  destruct md; [done|..]; destruct x, a, b, c, d; simpl in *; intros Hw; try done;
    first [discriminate (H1 I)|discriminate (H2 I)|discriminate (H3 I)|discriminate (H4 I)].
Qed.
Lemma canW_canR md x h : canW md x h -> canR md x h.
Proof. destruct md, x, h as [[] []]; simpl; try done. Qed.

(** ** The discipline.  [grow]: no lock has been released since the section began.
    [L r]: the call may return [r] while holding locks. *)
Fixpoint disc (md : mode) (L : ret -> Prop) (grow : bool) (h : held) (p : prog) : Prop :=
  match p with
  | Ret r => h = none_held \/ (L r /\ h.1 <> HP /\ h.2 <> HP /\ h.1 <> HW /\ h.2 <> HR)
  | Throw => h = none_held
  | RLock m k =>
      (grow = true \/ h = none_held) /\ get_h m h = HN /\ get_h MA h = HN /\
      disc md L true (set_h m HR h) k
  | Lock m k =>
      (grow = true \/ h = none_held) /\ get_h m h = HN /\ get_h MA h = HN /\
      disc md L true (set_h m HW h) k
  | RUnlock m k => get_h m h = HR /\ disc md L false (set_h m HN h) k
  | Unlock m k => get_h m h = HW /\ disc md L false (set_h m HN h) k
  | GetIndex n k => canR md PI h /\ forall o, disc md L grow h (k o)
  | SetIndex n p k => grow = true /\ canW md PI h /\ disc md L grow h k
  | DelIndex n k => grow = true /\ canW md PI h /\ disc md L grow h k
  | RangeIndices k => canR md PI h /\ forall l, disc md L grow h (k l)
  | GetAlias a k => canR md PM h /\ forall o, disc md L grow h (k o)
  | SetAlias a s k => grow = true /\ canW md PM h /\ disc md L grow h k
  | DelAlias a k => grow = true /\ canW md PM h /\ disc md L grow h k
  | RangeAliases k => canR md PM h /\ forall l, disc md L grow h (k l)
  | LoadElem s i k => canR md PR h /\ forall x, disc md L grow h (k x)
  | StoreElem s i v k => grow = true /\ canW md PR h /\ disc md L grow h k
  | Append s v k => grow = true /\ canW md PR h /\ forall s', disc md L grow h (k s')
  | MakeSlice l k => grow = true /\ canW md PR h /\ forall s', disc md L grow h (k s')
  | NewIndex n k => grow = true /\ canW md PI h /\ forall p, disc md L grow h (k p)
  | IdxPut p d k => grow = true /\ canW md PI h /\ disc md L grow h k
  | IdxSearch p q e k kp =>
      canR md PI h /\ (forall r, disc md L grow h (k r)) /\ disc md L grow h kp
  | IdxRead p k => canR md PI h /\ forall o, disc md L grow h (k o)
  | GoPut ps d k => grow = true /\ canW md PI h /\ disc md L grow h k
  | GoSearch ps q e k => canR md PI h /\ forall r, disc md L grow h (k r)
  end.

Definition tdisc (md : mode) (L : ret -> Prop) (grow : bool) (h : held) (t : thr) : Prop :=
  match t with
  | TRun p => disc md L grow h p
  | TPend m k =>
      grow = true /\ get_h m h = HP /\ (m = MI -> h.2 = HN) /\ disc md L true (set_h m HW h) k
  | TPut cs d k => grow = true /\ canW md PI h /\ disc md L grow h k
  | TSearch cs q e r k => canR md PI h /\ forall r, disc md L grow h (k r)
  end.

(** ** Every call obeys the discipline *)
Definition allowed (md : mode) (c : call) : Prop :=
  match md with
  | Any => True
  | NoRename => forall old new, c <> CRename old new
  | NoUnAlias => forall a i, c <> CUnAlias a i
  end.

(** The only call that can return while holding a lock is UnAlias(a, i), i <> "",
    when it returns false. *)
Definition may_leak (c : call) (r : ret) : Prop :=
  match c with CUnAlias _ i => i <> ""%string /\ r = RBool false | _ => False end.

Section loops.
  Context (md : mode) (L : ret -> Prop) (h : held).
  Lemma disc_scan g sl n i index k :
    canR md PR h -> (forall b, disc md L g h (k b)) -> disc md L g h (scan_loop sl i n index k).
  Proof.
    intros Hr Hk. revert i. induction n as [|n IH]; intros i; simpl; [done|].
    split; [done|]. intros x. destruct (decide _); auto.
  Qed.
  Lemma disc_filter sl n i index acc k :
    canR md PR h -> canW md PR h -> (forall b, disc md L true h (k b)) ->
    disc md L true h (filter_loop sl i n index acc k).
  Proof.
    intros Hr Hw Hk. revert i acc. induction n as [|n IH]; intros i acc; simpl; [done|].
    split; [done|]. intros x. destruct (decide _); simpl; auto.
  Qed.
  Lemma disc_rename_elems sl n i old new k :
    canR md PR h -> canW md PR h -> disc md L true h k -> disc md L true h (rename_elems sl i n old new k).
  Proof.
    intros Hr Hw Hk. revert i. induction n as [|n IH]; intros i; simpl; [done|].
    split; [done|]. intros x. destruct (decide _); simpl; auto.
  Qed.
  Lemma disc_rename_loop l old new k :
    canR md PM h -> canR md PR h -> canW md PR h -> disc md L true h k ->
    disc md L true h (rename_loop l old new k).
  Proof.
    intros Hm Hr Hw Hk. induction l as [|a l IH]; simpl; [done|]. split; [done|]. intros [sl|]; [|done].
    by apply disc_rename_elems.
  Qed.
  Lemma disc_resolve g sl n i acc k :
    canR md PR h -> canR md PI h -> (forall b, disc md L g h (k b)) ->
    disc md L g h (resolve_loop sl i n acc k).
  Proof.
    intros Hr Hw Hk. revert i acc. induction n as [|n IH]; intros i acc; simpl; [done|]. auto.
  Qed.
  Lemma disc_drop l n k :
    canR md PM h -> canW md PM h -> canR md PR h -> canW md PR h -> disc md L true h k ->
    disc md L true h (drop_loop l n k).
  Proof.
    intros Hm Hm' Hr Hw Hk. induction l as [|a l IH]; simpl; [done|]. split; [done|]. intros [sl|]; [|done].
    apply disc_filter; [done..|]. intros s'. repeat destruct (decide _); simpl; auto.
  Qed.
  Lemma disc_rows g l acc k :
    canR md PM h -> (forall b, disc md L g h (k b)) -> disc md L g h (rows_loop l acc k).
  Proof.
    intros Hm Hk. revert acc. induction l as [|a l IH]; intros acc; simpl; [done|].
    split; [done|]. intros [sl|]; auto.
  Qed.
  Lemma disc_string g show l acc k :
    canR md PI h -> (forall b, disc md L g h (k b)) -> disc md L g h (string_loop show l acc k).
  Proof.
    intros Hm Hk. revert acc. induction l as [|a l IH]; intros acc; simpl; [done|].
    split; [done|]. intros o. split; [done|]. intros [mi|]; auto.
  Qed.
End loops.

Lemma disc_search_tail md L g ps q e :
  (forall r, disc md L g (HR, HN) (RUnlock MI (Ret r))) -> disc md L g (HR, HN) (RUnlock MI Throw) ->
  canR md PI (HR, HN) -> disc md L g (HR, HN) (search_tail ps q e).
Proof. intros H1 H2 H3. destruct ps as [|p [|p' ps]]; simpl in *; auto. Qed.

Theorem disc_call md c : allowed md c -> disc md (may_leak c) true none_held (prog_of c).
Proof.
  intros Ha.
  assert (Hc : forall x, canR md x (HW, HW) /\ canW md x (HW, HW) /\ canR md PI (HR, HN) /\ canR md PI (HW, HN) /\
      canR md x (HR, HW) /\ canR md x (HR, HR) /\ canW md PI (HW, HN) /\ canR md PM (HN, HR) /\ 
      canW md PM (HR, HW) /\ canW md PR (HR, HW)).
  { intros x. destruct md, x; done. }
  pose proof (Hc PI) as HI. pose proof (Hc PM) as HM. pose proof (Hc PR) as HR'. clear Hc.
  destruct_and!.
  assert (Hu : forall r, disc md (may_leak c) false none_held (Ret r)) by (intros; by left).
  destruct c; unfold prog_of.
  - simpl. naive_solver.
  - simpl. split_and!; try by auto 20. intros l. apply disc_rows; [done|]. intros b. simpl. auto.
  - simpl. naive_solver.
  - simpl. naive_solver.
  - simpl. split_and!; try by auto 20. intros [p|]; [|simpl; auto 20].
    simpl. split_and!; try by auto 20. intros [sl|].
    + apply disc_scan; [done|]. intros []; simpl; [by auto 20|].
      by auto 20.
    + simpl. by auto 20.
  - destruct md; [| |by destruct (Ha alias index)].
    all: unfold UnAlias_prog; destruct (decide (index = "")) as [->|Hi]; [simpl; by auto 20|].
    all: simpl; split_and!; try by auto 20.
    all: intros [p|]; [|simpl; by auto 20].
    all: simpl; split_and!; try by auto 20.
    all: intros [sl|]; [|simpl; by auto 20].
    all: apply disc_filter; [done..|]; intros s'; destruct (decide _); simpl; by auto 20.
  - simpl. split_and!; try by auto 20. intros [p|].
    { simpl. split_and!; try by auto 20. }
    simpl. split_and!; try by auto 20. intros [sl|]; [|simpl; split_and!; try by auto 20].
    apply disc_resolve; [done..|]. intros ps. simpl. split_and!; try by auto 20.
  - assert (disc md (may_leak (CSearch index terms engine)) false (HR, HN) (RUnlock MI Throw)) by done.
    assert (disc md (may_leak (CSearch index terms engine)) true (HR, HN) (RUnlock MI Throw)) by done.
    assert (forall g r, disc md (may_leak (CSearch index terms engine)) g (HR, HN) (RUnlock MI (Ret r))) by (intros; by auto).
    unfold Search_prog. cbn [disc get_h set_h fst snd]. split_and!; try by auto 20. intros [p|].
    { by apply disc_search_tail. }
    cbn [disc get_h set_h fst snd]. split_and!; try by auto 20. intros [sl|]; [|simpl; by auto 20].
    apply disc_resolve; [done..|]. intros ps. cbn [disc get_h set_h fst snd]. split; [done|].
    by apply disc_search_tail.
  - destruct md; [|by destruct (Ha old new)|].
    all: simpl; split_and!; try by auto 20.
    all: intros [p|]; [|simpl; by auto 20].
    all: simpl; split_and!; try by auto 20.
    all: intros l; apply disc_rename_loop; [done..|]; simpl; by auto 20.
  - simpl. split_and!; try by auto 20. intros [p|]; [|simpl; by auto 20].
    simpl. split_and!; try by auto 20. intros l. apply disc_drop; [done..|]. simpl. by auto 20.
  - simpl. split_and!; try by auto 20. intros l. apply disc_string; [done|]. intros t. simpl. by auto 20.
Qed.

(** ** The state of a mutex is determined by what the calls hold *)
Inductive trans (w : rwmutex) : hold -> hold -> rwmutex -> Prop :=
| Tr_rlock : rw_pending w = false -> rw_writer w = false -> trans w HN HR (MkRW (S (rw_readers w)) false false)
| Tr_announce : rw_pending w = false -> rw_writer w = false -> trans w HN HP (MkRW (rw_readers w) true false)
| Tr_acquire : rw_readers w = 0 -> trans w HP HW (MkRW 0 false true)
| Tr_runlock n : rw_readers w = S n -> trans w HR HN (MkRW n (rw_pending w) (rw_writer w))
| Tr_unlock : rw_writer w = true -> trans w HW HN (MkRW (rw_readers w) (rw_pending w) false).

Definition cnt (x : hold) (hs : list hold) : nat := length (filter (eq x) hs).
Definition b2n (b : bool) : nat := if b then 1 else 0.

Lemma cnt_insert x hs i a b :
  hs !! i = Some a ->
  cnt x (<[i := b]> hs) + b2n (bool_decide (x = a)) = cnt x hs + b2n (bool_decide (x = b)).
Proof.
  unfold cnt. revert i. induction hs as [|c hs IH]; intros [|i] Hi; simplify_eq/=.
  - rewrite !filter_cons. destruct x, a, b; simpl; lia.
  - specialize (IH _ Hi). rewrite !filter_cons. destruct (decide (x = c)); simpl; lia.
Qed.
Lemma cnt_pos x hs i : hs !! i = Some x -> 0 < cnt x hs.
Proof.
  intros Hi. unfold cnt. destruct (filter (eq x) hs) as [|y l] eqn:E; [|simpl; lia].
  assert (x ∈ filter (eq x) hs) as Hx; [|rewrite E in Hx; by apply elem_of_nil in Hx].
  apply elem_of_list_filter. split; [done|by eapply elem_of_list_lookup_2].
Qed.
Lemma cnt_ex x hs : 0 < cnt x hs -> exists i, hs !! i = Some x.
Proof.
  unfold cnt. intros H. destruct (filter (eq x) hs) as [|y l] eqn:E; [simpl in H; lia|].
  assert (y ∈ filter (eq x) hs) as Hx by (rewrite E; left).
  apply elem_of_list_filter in Hx as [<- Hx]. by apply elem_of_list_lookup in Hx.
Qed.
Lemma cnt_two x hs i j : hs !! i = Some x -> hs !! j = Some x -> i <> j -> 2 <= cnt x hs.
Proof.
  intros Hi Hj Hne. pose proof (cnt_insert x hs i x (if decide (x = HN) then HR else HN) Hi) as E.
  rewrite bool_decide_eq_true_2 in E by done.
  rewrite bool_decide_eq_false_2 in E by (by destruct (decide _), x).
  simpl in E. pose proof (cnt_pos x (<[i:=if decide (x = HN) then HR else HN]> hs) j) as Hp.
  rewrite list_lookup_insert_ne in Hp by done. specialize (Hp Hj). lia.
Qed.

Record lock_ok (w : rwmutex) (hs : list hold) : Prop := {
  lk_r : rw_readers w = cnt HR hs;
  lk_p : b2n (rw_pending w) = cnt HP hs;
  lk_w : b2n (rw_writer w) = cnt HW hs;
  lk_one : cnt HP hs + cnt HW hs <= 1;
  lk_excl : cnt HW hs = 1 -> cnt HR hs = 0 }.

Lemma lock_ok_trans w hs i a b w' :
  lock_ok w hs -> hs !! i = Some a -> trans w a b w' -> lock_ok w' (<[i := b]> hs).
Proof.
  intros [H1 H2 H3 H4 H5] Hi Ht.
  pose proof (cnt_insert HR hs i a b Hi) as ER. pose proof (cnt_insert HP hs i a b Hi) as EP.
  pose proof (cnt_insert HW hs i a b Hi) as EW. destruct w as [r p q]. simpl in *.
  inversion Ht; simplify_eq; simpl in *;
    split; simpl in *; try lia; destruct p, q; simpl in *; lia.
Qed.

Lemma lock_ok_compat w hs i j a b :
  lock_ok w hs -> hs !! i = Some a -> hs !! j = Some b -> i <> j -> compat1 a b.
Proof.
  intros [H1 H2 H3 H4 H5] Hi Hj Hne. split; intros Hw.
  - destruct a; try done. pose proof (cnt_pos _ _ _ Hi). destruct b; try done.
    + pose proof (cnt_pos _ _ _ Hj). lia.
    + pose proof (cnt_two _ _ _ _ Hi Hj Hne). lia.
  - destruct b; try done. pose proof (cnt_pos _ _ _ Hj). destruct a; try done.
    + pose proof (cnt_pos _ _ _ Hi). lia.
    + pose proof (cnt_two _ _ _ _ Hi Hj Hne). lia.
Qed.

(** ** Steps of a disciplined call *)
Definition rw_of (a : hold) : rwmutex :=
  match a with
  | HN => rw_free | HR => MkRW 1 false false | HP => MkRW 0 true false | HW => MkRW 0 false true
  end.
Lemma trans_alone w a b w' : trans w a b w' -> trans (rw_of a) a b (rw_of b).
Proof. destruct 1; by constructor. Qed.

Record data := MkD { d_I : Ipart; d_A : Apart }.
Definition dat (s : repo) : data := MkD (r_I s) (r_A s).
Definition alone (D : data) (h : held) : repo := MkRepo (d_I D) (d_A D) (rw_of h.1) (rw_of h.2).

(** [D] and [D'] agree on the parts selected by [f]. *)
Definition agree (f : part -> bool) (D D' : data) : Prop :=
  (f PI -> d_I D = d_I D') /\
  (f PM -> a_map (d_A D) = a_map (d_A D')) /\
  (f PR -> a_arr (d_A D) = a_arr (d_A D') /\ a_next (d_A D) = a_next (d_A D')).
(** [D'] on the parts selected by [f], [D] elsewhere. *)
Definition merge (f : part -> bool) (D D' : data) : data :=
  MkD (if f PI then d_I D' else d_I D)
      (MkA (if f PM then a_map (d_A D') else a_map (d_A D))
           (if f PR then a_arr (d_A D') else a_arr (d_A D))
           (if f PR then a_next (d_A D') else a_next (d_A D))).

Lemma agree_refl f D : agree f D D.
Proof. by split_and!. Qed.
Lemma agree_sym f D D' : agree f D D' -> agree f D' D.
Proof. intros (H1 & H2 & H3). split_and!; intros Hf; [by rewrite H1|by rewrite H2|by destruct (H3 Hf)]. Qed.
Lemma agree_trans f D D' D'' : agree f D D' -> agree f D' D'' -> agree f D D''.
Proof.
  intros (H1 & H2 & H3) (H4 & H5 & H6). split_and!; intros Hf.
  - by rewrite H1, H4. - by rewrite H2, H5. - destruct (H3 Hf), (H6 Hf). split; congruence.
Qed.
Lemma agree_weaken (f g : part -> bool) D D' : (forall x, g x -> f x) -> agree f D D' -> agree g D D'.
Proof. intros Hfg (H1 & H2 & H3). split_and!; auto. Qed.
Lemma agree_or (f g : part -> bool) D D' :
  agree f D D' -> agree g D D' -> agree (fun x => f x || g x) D D'.
Proof.
  intros (H1 & H2 & H3) (H4 & H5 & H6).
  split_and!; intros Hf; apply orb_prop_elim in Hf as [Hf|Hf]; auto.
Qed.
Lemma agree_all D D' : agree (fun _ => true) D D' -> D = D'.
Proof.
  destruct D as [I [m a n]], D' as [I' [m' a' n']]. intros (H1 & H2 & H3). simpl in *.
  f_equal; [by apply H1|]. destruct H3 as [-> ->]; [done|]. by rewrite H2.
Qed.
Lemma merge_agree f D D' : agree f (merge f D D') D'.
Proof. unfold merge. split_and!; intros Hf; simpl; by destruct (f _). Qed.
Lemma merge_agree_not f D D' : agree (fun x => negb (f x)) (merge f D D') D.
Proof. unfold merge. split_and!; intros Hf; simpl; by destruct (f _). Qed.
Lemma merge_id f D D' : agree f D D' -> merge f D D' = D.
Proof.
  intros (H1 & H2 & H3). destruct D as [I [m a n]], D' as [I' [m' a' n']]. unfold merge. simpl in *.
  f_equal; [destruct (f PI); [by rewrite H1|done]|]. f_equal; [destruct (f PM); [by rewrite H2|done]|..];
    destruct (f PR); try done; by destruct H3.
Qed.

(** How a step changes the locks held: not at all, or one transition of one mutex. *)
Inductive lstep (h : held) (s : repo) : held -> repo -> Prop :=
| LS_same s' : r_imu s' = r_imu s -> r_amu s' = r_amu s -> lstep h s h s'
| LS_mu m b w' : trans (get_mu m s) (get_h m h) b w' -> lstep h s (set_h m b h) (set_mu m w' s).

(** [h'] is [h] after acquiring, or releasing, one mutex. *)
Definition acquired (h h' : held) : Prop :=
  exists m a, (get_h m h = HN \/ get_h m h = HP) /\ a <> HN /\ h' = set_h m a h.
Definition released (h h' : held) : Prop :=
  exists m, rd (get_h m h) /\ h' = set_h m HN h.

Lemma acquired_mono md x h h' :
  acquired h h' -> (canR md x h -> canR md x h') /\ (canW md x h -> canW md x h').
Proof.
  intros (m & a & Hm & Ha & ->). destruct h as [b c]. destruct m, a; try done; simpl in Hm;
  (destruct Hm; subst; destruct md, x; simpl; try done);
  destruct b || destruct c; try done.
Qed.
Lemma released_mono md x h h' :
  released h h' -> (canR md x h' -> canR md x h) /\ (canW md x h' -> canW md x h).
Proof.
  intros (m & Hm & ->). destruct h as [b c]. destruct m; destruct b, c; try done; destruct md, x; simpl; try done.
Qed.

Definition releasing (t : thr) : Prop :=
  match t with TRun (RUnlock _ _) | TRun (Unlock _ _) => True | _ => False end.

Lemma alone_read md h D0 s :
  agree (fun x => canR md x h) D0 (dat s) ->
  alone (merge (fun x => canW md x h) D0 (dat s)) h = alone D0 h.
Proof.
  intros H. rewrite merge_id; [done|]. eapply agree_weaken; [|exact H]. intros x. apply canW_canR.
Qed.
Lemma alone_I md h D0 s i :
  agree (fun x => canR md x h) D0 (dat s) -> canW md PI h ->
  alone (merge (fun x => canW md x h) D0 (dat (set_I i s))) h = set_I i (alone D0 h).
Proof.
  intros (H1 & H2 & H3) Hw. destruct D0 as [I0 [m0 a0 n0]], s as [I1 [m1 a1 n1] im am]. unfold merge, alone, set_I, dat.
  simpl in *. destruct (canW md PI h) eqn:E1; [|done].
  pose proof (canW_canR md PM h). pose proof (canW_canR md PR h). f_equal.
  destruct (canW md PM h), (canW md PR h); f_equal; try done; try (symmetry; by auto); by (destruct H3; auto).
Qed.
Lemma alone_M md h D0 s m :
  agree (fun x => canR md x h) D0 (dat s) -> canW md PM h ->
  alone (merge (fun x => canW md x h) D0 (dat (set_A (MkA m (a_arr (r_A s)) (a_next (r_A s))) s))) h =
    set_A (MkA m (a_arr (d_A D0)) (a_next (d_A D0))) (alone D0 h).
Proof.
  intros (H1 & H2 & H3) Hw. destruct D0 as [I0 [m0 a0 n0]], s as [I1 [m1 a1 n1] im am]. unfold merge, alone, set_A, dat.
  simpl in *. destruct (canW md PM h) eqn:E1; [|done].
  pose proof (canW_canR md PI h). pose proof (canW_canR md PR h). f_equal.
  - destruct (canW md PI h); [symmetry; by auto|done].
  - destruct (canW md PR h); [|done]. destruct H3; [by auto|]. by subst.
Qed.
Lemma alone_R md h D0 s a n :
  agree (fun x => canR md x h) D0 (dat s) -> canW md PR h ->
  alone (merge (fun x => canW md x h) D0 (dat (set_A (MkA (a_map (r_A s)) a n) s))) h =
    set_A (MkA (a_map (d_A D0)) a n) (alone D0 h).
Proof.
  intros (H1 & H2 & H3) Hw. destruct D0 as [I0 [m0 a0 n0]], s as [I1 [m1 a1 n1] im am]. unfold merge, alone, set_A, dat.
  simpl in *. destruct (canW md PR h) eqn:E1; [|done].
  pose proof (canW_canR md PI h). pose proof (canW_canR md PM h). f_equal.
  - destruct (canW md PI h); [symmetry; by auto|done].
  - destruct (canW md PM h); [|done]. by rewrite H2 by auto.
Qed.

Lemma nw_I md h s i : canW md PI h -> agree (fun x => negb (canW md x h)) (dat (set_I i s)) (dat s).
Proof. intros Hw. split_and!; simpl; [|done..]. by destruct (canW md PI h). Qed.
Lemma nw_M md h s m n a : canW md PM h -> a = a_arr (r_A s) -> n = a_next (r_A s) ->
  agree (fun x => negb (canW md x h)) (dat (set_A (MkA m a n) s)) (dat s).
Proof. intros Hw -> ->. split_and!; simpl; [done| |done]. by destruct (canW md PM h). Qed.
Lemma nw_R md h s m n a : canW md PR h -> m = a_map (r_A s) ->
  agree (fun x => negb (canW md x h)) (dat (set_A (MkA m a n) s)) (dat s).
Proof. intros Hw ->. split_and!; simpl; [done|done|]. by destruct (canW md PR h). Qed.

Lemma append_parts sl v cap (x x' : Apart) :
  a_arr x = a_arr x' -> a_next x = a_next x' ->
  a_append sl v cap x = (MkA (a_map x) (a_arr (a_append sl v cap x).1) (a_next (a_append sl v cap x).1), (a_append sl v cap x').2) /\
  a_append sl v cap x' = (MkA (a_map x') (a_arr (a_append sl v cap x).1) (a_next (a_append sl v cap x).1), (a_append sl v cap x').2).
Proof.
  destruct x as [m a n], x' as [m' a' n']. simpl. intros -> ->. unfold a_append, a_alloc, a_store, a_cont.
  destruct (_ <? _); done.
Qed.

Lemma set_mu_alone m b D h : set_mu m (rw_of b) (alone D h) = alone D (set_h m b h).
Proof. by destruct m. Qed.
Lemma get_mu_alone m D h : get_mu m (alone D h) = rw_of (get_h m h).
Proof. by destruct m. Qed.
Lemma dat_set_mu m w s : dat (set_mu m w s) = dat s.
Proof. by destruct m. Qed.

Lemma step_disc md L g h t s t' s' :
  tdisc md L g h t -> tstep s t (TNext t' s') -> (g = true \/ h <> none_held) ->
  exists g' h',
    tdisc md L g' h' t' /\ lstep h s h' s' /\
    (releasing t -> g' = false /\ dat s' = dat s /\ released h h') /\
    (~ releasing t -> g' = g /\ (h' = h \/ g = true /\ acquired h h')) /\
    (g = false -> dat s' = dat s) /\
    agree (fun x => negb (canW md x h)) (dat s') (dat s) /\
    (forall D0, agree (fun x => canR md x h) D0 (dat s) ->
       tstep (alone D0 h) t (TNext t' (alone (merge (fun x => canW md x h) D0 (dat s')) h'))).
Proof.
  intros Hd Hs Hg.
  assert (Hr : s' = s -> lstep h s h s' /\ (g = false -> dat s' = dat s) /\
      agree (fun x => negb (canW md x h)) (dat s') (dat s)).
  { intros ->. split_and!; try done. by constructor. }
  destruct t as [p|m k|cs d k|cs q e r k].
  - destruct p; cbn [tdisc disc] in Hd; inversion Hs; simplify_eq.
    + (* RLock *)
      destruct Hd as (Hn & Hm & HA & Hd). assert (g = true) as -> by (destruct Hg; naive_solver).
      exists true, (set_h m HR h). split_and!; try done.
      * apply LS_mu. rewrite Hm. by constructor.
      * intros _. split; [done|]. right. split; [done|]. exists m, HR. by auto.
      * by rewrite dat_set_mu.
      * intros D0 HD. rewrite dat_set_mu, <- set_mu_alone, merge_id by
          (eapply agree_weaken; [|exact HD]; intros x; apply canW_canR).
        pose proof (S_RLock (alone D0 h) m p (rw_of HN)) as Hx. rewrite get_mu_alone, Hm in Hx.
        by apply Hx.
    + (* RUnlock *)
      destruct Hd as (Hm & Hd).
      exists false, (set_h m HN h). split_and!; try done.
      * apply LS_mu. rewrite Hm. by constructor.
      * intros _. split_and!; [done|by rewrite dat_set_mu|]. exists m. by rewrite Hm.
      * intros _. by rewrite dat_set_mu.
      * by rewrite dat_set_mu.
      * intros D0 HD. rewrite dat_set_mu, <- set_mu_alone, merge_id by
          (eapply agree_weaken; [|exact HD]; intros x; apply canW_canR).
        pose proof (S_RUnlock (alone D0 h) m p (rw_of HR) 0) as Hx. rewrite get_mu_alone, Hm in Hx.
        by apply Hx.
    + (* Lock *)
      destruct Hd as (Hn & Hm & HA & Hd). assert (g = true) as -> by (destruct Hg; naive_solver).
      exists true, (set_h m HP h). split; [destruct m; simpl in *; by split_and!|]. split_and!; try done.
      * apply LS_mu. rewrite Hm. by constructor.
      * intros _. split; [done|]. right. split; [done|]. exists m, HP. by auto.
      * by rewrite dat_set_mu.
      * intros D0 HD. rewrite dat_set_mu, <- set_mu_alone, merge_id by
          (eapply agree_weaken; [|exact HD]; intros x; apply canW_canR).
        pose proof (S_Announce (alone D0 h) m p (rw_of HN)) as Hx. rewrite get_mu_alone, Hm in Hx.
        by apply Hx.
    + (* Unlock *)
      destruct Hd as (Hm & Hd).
      exists false, (set_h m HN h). split_and!; try done.
      * apply LS_mu. rewrite Hm. by constructor.
      * intros _. split_and!; [done|by rewrite dat_set_mu|]. exists m. by rewrite Hm.
      * intros _. by rewrite dat_set_mu.
      * by rewrite dat_set_mu.
      * intros D0 HD. rewrite dat_set_mu, <- set_mu_alone, merge_id by
          (eapply agree_weaken; [|exact HD]; intros x; apply canW_canR).
        pose proof (S_Unlock (alone D0 h) m p (rw_of HW)) as Hx. rewrite get_mu_alone, Hm in Hx.
        by apply Hx.
    + (* GetIndex *)
      destruct Hd as [Hc Hd]. exists g, h. destruct (Hr eq_refl) as (? & ? & ?). split; [apply Hd|]. split_and!; try by auto.
      intros D0 HD. rewrite alone_read by done. destruct HD as (E & _). simpl in E. rewrite <- E by done.
      apply (S_GetIndex (alone D0 h)).
    + (* SetIndex *)
      destruct Hd as (-> & Hc & Hd). exists true, h. split_and!; try (by auto); [by constructor|by apply nw_I|].
      intros D0 HD. rewrite alone_I by done. destruct HD as (E & _). simpl in E.
      rewrite <- E by (by apply canW_canR). apply (S_SetIndex (alone D0 h)).
    + (* DelIndex *)
      destruct Hd as (-> & Hc & Hd). exists true, h. split_and!; try (by auto); [by constructor|by apply nw_I|].
      intros D0 HD. rewrite alone_I by done. destruct HD as (E & _). simpl in E.
      rewrite <- E by (by apply canW_canR). apply (S_DelIndex (alone D0 h)).
    + (* RangeIndices *)
      destruct Hd as [Hc Hd]. exists g, h. destruct (Hr eq_refl) as (? & ? & ?). split; [apply Hd|]. split_and!; try by auto.
      intros D0 HD. rewrite alone_read by done. destruct HD as (E & _). simpl in E.
      apply (S_RangeIndices (alone D0 h)). simpl. by rewrite E.
    + (* GetAlias *)
      destruct Hd as [Hc Hd]. exists g, h. destruct (Hr eq_refl) as (? & ? & ?). split; [apply Hd|]. split_and!; try by auto.
      intros D0 HD. rewrite alone_read by done. destruct HD as (_ & E & _). simpl in E. rewrite <- E by done.
      apply (S_GetAlias (alone D0 h)).
    + (* SetAlias *)
      destruct Hd as (-> & Hc & Hd). exists true, h. split_and!; try (by auto); [by constructor|by apply nw_M|].
      intros D0 HD. unfold a_set. rewrite alone_M by done. destruct HD as (_ & E & _). simpl in E.
      rewrite <- E by (by apply canW_canR). apply (S_SetAlias (alone D0 h)).
    + (* DelAlias *)
      destruct Hd as (-> & Hc & Hd). exists true, h. split_and!; try (by auto); [by constructor|by apply nw_M|].
      intros D0 HD. unfold a_del. rewrite alone_M by done. destruct HD as (_ & E & _). simpl in E.
      rewrite <- E by (by apply canW_canR). apply (S_DelAlias (alone D0 h)).
    + (* RangeAliases *)
      destruct Hd as [Hc Hd]. exists g, h. destruct (Hr eq_refl) as (? & ? & ?). split; [apply Hd|]. split_and!; try by auto.
      intros D0 HD. rewrite alone_read by done. destruct HD as (_ & E & _). simpl in E.
      apply (S_RangeAliases (alone D0 h)). simpl. by rewrite E.
    + (* LoadElem *)
      destruct Hd as [Hc Hd]. exists g, h. destruct (Hr eq_refl) as (? & ? & ?). split; [apply Hd|]. split_and!; try by auto.
      intros D0 HD. rewrite alone_read by done. destruct HD as (_ & _ & E). destruct (E Hc) as [E1 _]. simpl in E1.
      replace (a_load s0 i (r_A s')) with (a_load s0 i (d_A D0)) by (unfold a_load; by rewrite E1).
      apply (S_LoadElem (alone D0 h)).
    + (* StoreElem *)
      destruct Hd as (-> & Hc & Hd). exists true, h. split_and!; try (by auto); [by constructor|by apply nw_R|].
      intros D0 HD. unfold a_store. rewrite alone_R by done. destruct HD as (_ & _ & E).
      destruct E as [E1 E2]; [by apply canW_canR|]. simpl in E1, E2. rewrite <- E1, <- E2. apply (S_StoreElem (alone D0 h)).
    + (* Append *)
      destruct Hd as (-> & Hc & Hd). exists true, h.
      destruct (append_parts s0 v cap (r_A s) (r_A s) eq_refl eq_refl) as [Ea _].
      split; [apply Hd|]. split_and!; try (by auto); [by constructor| |].
      { rewrite Ea. cbn [fst]. by apply nw_R. }
      intros D0 HD. pose proof HD as (E0 & E3 & E).
      destruct E as [E1 E2]; [by apply canW_canR|]. simpl in E1, E2.
      destruct (append_parts s0 v cap (r_A s) (d_A D0) (eq_sym E1) (eq_sym E2)) as [Eb Ec].
      rewrite Eb. cbn [fst snd]. rewrite alone_R by done.
      pose proof (S_Append (alone D0 h) s0 v k cap) as Hx. cbn [alone r_A] in Hx. rewrite Ec in Hx. by apply Hx.
    + (* MakeSlice *)
      destruct Hd as (-> & Hc & Hd). exists true, h.
      split; [apply Hd|]. split_and!; try (by auto); [by constructor|by apply nw_R|].
      intros D0 HD. pose proof HD as (E0 & E3 & E).
      destruct E as [E1 E2]; [by apply canW_canR|]. simpl in E1, E2.
      unfold a_alloc. cbn [fst snd]. rewrite alone_R by done. rewrite <- E1, <- E2.
      apply (S_MakeSlice (alone D0 h)).
    + (* NewIndex *)
      destruct Hd as (-> & Hc & Hd). exists true, h. split; [apply Hd|]. split_and!; try (by auto); [by constructor|by apply nw_I|].
      intros D0 HD. rewrite alone_I by done. destruct HD as (E & _). simpl in E.
      rewrite <- E by (by apply canW_canR). apply (S_NewIndex (alone D0 h)).
    + (* IdxPut *)
      destruct Hd as (-> & Hc & Hd). exists true, h. split_and!; try (by auto); [by constructor|by apply nw_I|].
      intros D0 HD. rewrite alone_I by done. destruct HD as (E & _). simpl in E.
      rewrite <- E by (by apply canW_canR). apply (S_IdxPut (alone D0 h)).
    + (* IdxSearch *)
      destruct Hd as (Hc & Hd & Hd'). exists g, h. destruct (Hr eq_refl) as (? & ? & ?). split; [apply Hd|]. split_and!; try by auto.
      intros D0 HD. rewrite alone_read by done. destruct HD as (E & _). simpl in E.
      apply (S_IdxSearch (alone D0 h)). simpl. by rewrite E.
    + destruct Hd as (Hc & Hd & Hd'). exists g, h. destruct (Hr eq_refl) as (? & ? & ?). split_and!; try by auto.
      intros D0 HD. rewrite alone_read by done. destruct HD as (E & _). simpl in E.
      apply (S_IdxSearch_panic (alone D0 h)). simpl. by rewrite E.
    + (* IdxRead *)
      destruct Hd as [Hc Hd]. exists g, h. destruct (Hr eq_refl) as (? & ? & ?). split; [apply Hd|]. split_and!; try by auto.
      intros D0 HD. rewrite alone_read by done. destruct HD as (E & _). simpl in E. rewrite <- E by done.
      apply (S_IdxRead (alone D0 h)).
    + (* GoPut *)
      destruct Hd as (-> & Hc & Hd). exists true, h. destruct (Hr eq_refl) as (? & ? & ?). split_and!; try by auto.
      intros D0 HD. rewrite alone_read by done. constructor.
    + (* GoSearch *)
      destruct Hd as (Hc & Hd). exists g, h. destruct (Hr eq_refl) as (? & ? & ?). split_and!; try by auto.
      intros D0 HD. rewrite alone_read by done. constructor.
  - (* Acquire *)
    destruct Hd as (-> & Hm & HA & Hd). inversion Hs; simplify_eq.
    exists true, (set_h m HW h). split_and!; try done.
    * apply LS_mu. rewrite Hm. by constructor.
    * intros _. split; [done|]. right. split; [done|]. exists m, HW. by auto.
    * by rewrite dat_set_mu.
    * intros D0 HD. rewrite dat_set_mu, <- set_mu_alone, merge_id by
        (eapply agree_weaken; [|exact HD]; intros x; apply canW_canR).
      pose proof (S_Acquire (alone D0 h) m k) as Hx. rewrite get_mu_alone, Hm in Hx. by apply Hx.
  - destruct Hd as (-> & Hc & Hd). inversion Hs; simplify_eq; exists true, h.
    + split_and!; try (by auto); [by constructor|by apply nw_I|].
      intros D0 HD. rewrite alone_I by done. destruct HD as (E & _). simpl in E.
      rewrite <- E by (by apply canW_canR). by apply (S_PutChild (alone D0 h)).
    + destruct (Hr eq_refl) as (? & ? & ?). split_and!; try by auto.
      intros D0 HD. rewrite alone_read by done. by constructor.
  - destruct Hd as (Hc & Hd).
    assert (s' = s) as E0 by (by inversion Hs). destruct (Hr E0) as (? & ? & ? & ?).
    exists g, h. split_and!; try (by auto); [inversion Hs; simplify_eq; try done; apply Hd|].
    intros D0 HD. rewrite E0, alone_read by done. destruct HD as (E & _). simpl in E.
    inversion Hs; simplify_eq.
    + eapply S_Child_search; [done|]. simpl. by rewrite E.
    + by eapply S_Child_lock.
    + by eapply S_Child_read.
    + by eapply S_Child_write.
    + by eapply S_Child_unlock.
    + by eapply S_SearchWait.
Qed.

(** A crash of a disciplined call is not a bad unlock, and happens alone too. *)
Lemma crash_disc md L g h t s :
  tdisc md L g h t -> tstep s t TCrash ->
  (forall m, rd (get_h m h) -> wr (get_h m h) = false -> rw_readers (get_mu m s) <> 0) ->
  (forall m, wr (get_h m h) -> rw_writer (get_mu m s) = true) ->
  forall D0, agree (fun x => canR md x h) D0 (dat s) -> tstep (alone D0 h) t TCrash.
Proof.
  intros Hd Hs H1 H2 D0 (E & _). simpl in E. inversion Hs; simplify_eq; cbn [tdisc disc] in Hd.
  - exfalso. destruct Hd as [Hm _]. apply (H1 m); by rewrite Hm || done.
  - exfalso. destruct Hd as [Hm _]. rewrite H2 in H; [done|]. by rewrite Hm.
  - by eapply S_PutChild_nil.
  - destruct Hd as [Hc _]. eapply S_Child_panic; [done|]. simpl. by rewrite E.
Qed.

Lemma disc_grow md L g h p : disc md L g h p -> disc md L true h p.
Proof.
  revert g h. induction p; intros g h; simpl; try done; try naive_solver.
Qed.

(** ** Pools *)
Record pool_inv (md : mode) (L : nat -> ret -> Prop) (gh : list (bool * held)) (ts : list thr) (s : repo) : Prop := {
  pi_len : length gh = length ts;
  pi_thr : forall i t g h, ts !! i = Some t -> gh !! i = Some (g, h) ->
    tdisc md (L i) g h t /\ (g = true \/ h <> none_held);
  pi_lock : forall m, lock_ok (get_mu m s) ((fun x => get_h m x.2) <$> gh) }.

Lemma get_mu_set_mu m m' w s : get_mu m (set_mu m' w s) = if decide (m = m') then w else get_mu m s.
Proof. by destruct m, m'. Qed.

Lemma get_h_set_h m m' a h : get_h m (set_h m' a h) = if decide (m = m') then a else get_h m h.
Proof. by destruct m, m'. Qed.

Lemma locks_step (gh : list (bool * held)) i g h (g' : bool) (h' : held) s s' :
  (forall m, lock_ok (get_mu m s) ((fun x => get_h m x.2) <$> gh)) ->
  gh !! i = Some (g, h) -> lstep h s h' s' ->
  forall m, lock_ok (get_mu m s') ((fun x : bool * held => get_h m x.2) <$> <[i := (g', h')]> gh).
Proof.
  intros H Hi Hl m. rewrite list_fmap_insert. simpl.
  assert (((fun x : bool * held => get_h m x.2) <$> gh) !! i = Some (get_h m h)) as Hm
    by (by rewrite list_lookup_fmap, Hi).
  destruct Hl as [s' E1 E2|m' b w' Ht].
  - replace (get_mu m s') with (get_mu m s) by (by destruct m). rewrite list_insert_id; [done|done].
  - rewrite get_mu_set_mu, get_h_set_h. destruct (decide (m = m')) as [->|Hne].
    + by eapply lock_ok_trans.
    + by rewrite list_insert_id.
Qed.

Lemma pool_inv_compat md L gh ts s i j gi hi gj hj :
  pool_inv md L gh ts s -> gh !! i = Some (gi, hi) -> gh !! j = Some (gj, hj) -> i <> j -> compat hi hj.
Proof.
  intros [_ _ H] Hi Hj Hne. split.
  - eapply (lock_ok_compat _ _ i j _ _ (H MI)); [..|done]; rewrite list_lookup_fmap; [by rewrite Hi|by rewrite Hj].
  - eapply (lock_ok_compat _ _ i j _ _ (H MA)); [..|done]; rewrite list_lookup_fmap; [by rewrite Hi|by rewrite Hj].
Qed.

(** A call that has released everything starts afresh. *)
Definition restart (g : bool) (h : held) : bool := if decide (h = none_held) then true else g.

Lemma tdisc_grow md L g h t : tdisc md L g h t -> tdisc md L true h t.
Proof.
  destruct t; simpl.
  - apply disc_grow.
  - by intros (_ & ?).
  - intros (_ & ? & ?). split_and!; [done..|]. by eapply disc_grow.
  - intros (? & H). split; [done|]. intros r. eapply disc_grow, H.
Qed.

Lemma pool_step md L gh ts s i t t' s' g h g' h' :
  pool_inv md L gh ts s -> ts !! i = Some t -> gh !! i = Some (g, h) ->
  tdisc md (L i) g' h' t' -> lstep h s h' s' ->
  pool_inv md L (<[i := (restart g' h', h')]> gh) (<[i := t']> ts) s'.
Proof.
  intros [H1 H2 H3] Hi Hg Hd Hl. split.
  - by rewrite !insert_length.
  - intros j t1 g1 h1 Hj Hgj.
    apply list_lookup_insert_Some in Hj as [(-> & <- & _)|[Hne Hj]].
    + apply list_lookup_insert_Some in Hgj as [(_ & E & _)|[? _]]; [|done]. simplify_eq.
      unfold restart. destruct (decide (_ = none_held)) as [->|Hne]; [|by auto].
      split; [|by left]. by eapply tdisc_grow.
    + rewrite list_lookup_insert_ne in Hgj by done. eauto.
  - by eapply locks_step.
Qed.

Lemma pool_inv_step md L gh ts s i t t' s' :
  pool_inv md L gh ts s -> ts !! i = Some t -> tstep s t (TNext t' s') ->
  exists gh', pool_inv md L gh' (<[i := t']> ts) s'.
Proof.
  intros [H1 H2 H3] Hi Hs.
  destruct (lookup_lt_is_Some_2 gh i) as [[g h] Hg]; [rewrite H1; by eapply lookup_lt_Some|].
  destruct (H2 _ _ _ _ Hi Hg) as [Hd Hgr].
  destruct (step_disc _ _ _ _ _ _ _ _ Hd Hs Hgr) as (g' & h' & Hd' & Hl & _).
  exists (<[i := (true, h')]> gh). split.
  - by rewrite !insert_length.
  - intros j t1 g1 h1 Hj Hgj.
    apply list_lookup_insert_Some in Hj as [(-> & <- & _)|[Hne Hj]].
    + apply list_lookup_insert_Some in Hgj as [(_ & E & _)|[? _]]; [|done]. simplify_eq.
      split; [|by left]. by eapply tdisc_grow.
    + rewrite list_lookup_insert_ne in Hgj by done. eauto.
  - by eapply locks_step.
Qed.

Definition leaks_of (cs : list call) (i : nat) (r : ret) : Prop :=
  exists c, cs !! i = Some c /\ may_leak c r.

Lemma cnt_replicate x n : x <> HN -> cnt x (replicate n HN) = 0.
Proof. intros Hx. induction n as [|n IH]; [done|]. unfold cnt in *. simpl. rewrite filter_cons. by destruct x. Qed.

Lemma disc_leak md (L L' : ret -> Prop) g h p :
  (forall r, L r -> L' r) -> disc md L g h p -> disc md L' g h p.
Proof. intros HL. revert g h. induction p; intros g h; simpl; try done; naive_solver. Qed.

Lemma pool_start md cs s :
  r_imu s = rw_free -> r_amu s = rw_free -> Forall (allowed md) cs ->
  pool_inv md (leaks_of cs) (replicate (length cs) (true, none_held)) (start cs) s.
Proof.
  intros E1 E2 Hc. split.
  - unfold start. by rewrite fmap_length, replicate_length.
  - intros i t g h Hi Hg. apply lookup_replicate in Hg as [? _]. simplify_eq. split; [|by left].
    unfold start in Hi. apply list_lookup_fmap_inv in Hi as (c & -> & Hi). simpl.
    eapply disc_leak; [|apply disc_call; by eapply Forall_lookup_1]. intros r Hr. by exists c.
  - intros m. rewrite fmap_replicate. replace (get_h m _) with HN by (by destruct m).
    replace (get_mu m s) with rw_free by (by destruct m).
    split; simpl; rewrite ?cnt_replicate by done; done || lia.
Qed.

Lemma pool_reach md cs s p :
  r_imu s = rw_free -> r_amu s = rw_free -> Forall (allowed md) cs ->
  rtc pstep (Pool (start cs) s) p ->
  match p with Pool ts s' => exists gh, pool_inv md (leaks_of cs) gh ts s' | PCrashed => True end.
Proof.
  intros E1 E2 Hc Hp.
  refine (rtc_ind_r (R := pstep) (fun p => match p with Pool ts s' => exists gh, pool_inv md (leaks_of cs) gh ts s' | PCrashed => True end)
    (Pool (start cs) s) _ _ p Hp).
  - eexists. by apply pool_start.
  - intros y z _ Hs IH. inversion Hs; simplify_eq; [|done]. destruct IH as [gh IH].
    by eapply pool_inv_step.
Qed.

(** ** No deadlock *)
Definition stuck (s : repo) (t : thr) : Prop := ~ finished t /\ forall x, ~ tstep s t x.

Lemma stuck_cases s t :
  stuck s t ->
  exists m k,
    ((t = TRun (RLock m k) \/ t = TRun (Lock m k)) /\
       (rw_pending (get_mu m s) = true \/ rw_writer (get_mu m s) = true)) \/
    (t = TPend m k /\ rw_readers (get_mu m s) <> 0).
Proof.
  intros [Hf Hb]. destruct t as [p|m k|cs d k|cs q e r k].
  - destruct p; try (by destruct Hf); try (by exfalso; eapply Hb; econstructor).
    + exists m, p. left. split; [by left|].
      destruct (rw_pending _) eqn:E1; [by left|]. destruct (rw_writer _) eqn:E2; [by right|].
      exfalso. eapply Hb. by eapply S_RLock.
    + exfalso. destruct (rw_readers (get_mu m s)) eqn:E; eapply Hb; [by eapply S_RUnlock_bad|by eapply S_RUnlock].
    + exists m, p. left. split; [by right|].
      destruct (rw_pending _) eqn:E1; [by left|]. destruct (rw_writer _) eqn:E2; [by right|].
      exfalso. eapply Hb. by eapply S_Announce.
    + exfalso. destruct (rw_writer (get_mu m s)) eqn:E; eapply Hb; [by eapply S_Unlock|by eapply S_Unlock_bad].
    + exfalso. eapply Hb. apply (S_Append _ _ _ _ (S (sl_len s0))). lia.
    + exfalso. destruct (i_search p q e (r_I s)) eqn:E; eapply Hb; [by eapply S_IdxSearch|by eapply S_IdxSearch_panic].
  - exists m, k. right. split; [done|]. intros E. eapply Hb. by apply S_Acquire.
  - exfalso. destruct (step_or_stuck (TPut cs d k) s) as [H|[[x Hx]|[H1 H2]]]; [done|by eapply Hb|].
    destruct (omap id cs) as [|y l] eqn:E.
    + eapply Hb. by apply S_PutWait, omap_id_None.
    + assert (y ∈ omap id cs) as Hx by (rewrite E; left).
      apply elem_of_list_omap in Hx as ([z|] & Hy & Hz); [|done]. simpl in Hz. simplify_eq.
      apply elem_of_list_lookup in Hy as [i Hi].
      destruct y as [p|]; eapply Hb; [by eapply S_PutChild|by eapply S_PutChild_nil].
  - exfalso. destruct (TSearch_progress cs q e r k s) as [x Hx]. by eapply Hb.
Qed.

Lemma step_or_all_stuck (ts : list thr) s :
  (exists i t x, ts !! i = Some t /\ tstep s t x) \/
  (forall i t, ts !! i = Some t -> finished t \/ stuck s t).
Proof.
  induction ts as [|t ts IH]; [by right|].
  destruct IH as [(i & t' & x & Hi & Hx)|IH]; [left; by exists (S i), t', x|].
  destruct (step_or_stuck t s) as [Hf|[[x Hx]|Hb]].
  - right. intros [|i] t' Hi; simplify_eq/=; [by left|eauto].
  - left. by exists 0, t, x.
  - right. intros [|i] t' Hi; simplify_eq/=; [by right|eauto].
Qed.

Theorem progress md L gh (ts : list thr) s :
  pool_inv md L gh ts s ->
  (forall i t g h, ts !! i = Some t -> gh !! i = Some (g, h) -> finished t -> h = none_held) ->
  Forall finished ts \/ exists p, pstep (Pool ts s) p.
Proof.
  intros [H1 H2 H3] Hfin.
  destruct (step_or_all_stuck ts s) as [(i & t & [t' s'|] & Hi & Hx)|Hall].
  { right. eexists. by eapply P_step. }
  { right. eexists. by eapply P_crash. }
  left.
  assert (Hex : forall m x, 0 < cnt x ((fun y => get_h m y.2) <$> gh) ->
    exists i t g h, ts !! i = Some t /\ gh !! i = Some (g, h) /\ get_h m h = x).
  { intros m x Hc. apply cnt_ex in Hc as [i Hi]. apply list_lookup_fmap_inv in Hi as ([g h] & -> & Hi).
    destruct (lookup_lt_is_Some_2 ts i) as [t Ht]; [rewrite <- H1; by eapply lookup_lt_Some|].
    by exists i, t, g, h. }
  (* nobody holds or waits for MA *)
  assert (HA : forall i t g h, ts !! i = Some t -> gh !! i = Some (g, h) -> rd h.2 -> False).
  { intros i t g h Hi Hg Hh. destruct (Hall _ _ Hi) as [Hf|Hs].
    - by rewrite (Hfin _ _ _ _ Hi Hg Hf) in Hh.
    - destruct (H2 _ _ _ _ Hi Hg) as [Hd _].
      destruct (stuck_cases _ _ Hs) as (m & k & [[[->| ->] _]|[-> _]]); simpl in Hd.
      + destruct Hd as (_ & _ & E & _). by rewrite E in Hh.
      + destruct Hd as (_ & _ & E & _). by rewrite E in Hh.
      + destruct Hd as (_ & E & E' & _). destruct m; [by rewrite E' in Hh|]. simpl in E. by rewrite E in Hh. }
  pose proof (H3 MA) as LA. pose proof (H3 MI) as LI. simpl in LA, LI.
  assert (EA1 : rw_readers (r_amu s) = 0).
  { rewrite (lk_r _ _ LA). destruct (cnt HR _) eqn:E; [done|]. exfalso.
    destruct (Hex MA HR) as (i & t & g & h & Hi & Hg & Hh); [simpl in *; lia|]. eapply HA; [done..|]. simpl in Hh. by rewrite Hh. }
  assert (EA2 : rw_writer (r_amu s) = false).
  { pose proof (lk_w _ _ LA) as E. destruct (rw_writer (r_amu s)); [|done]. exfalso.
    destruct (Hex MA HW) as (i & t & g & h & Hi & Hg & Hh); [simpl in *; lia|]. eapply HA; [done..|]. simpl in Hh. by rewrite Hh. }
  assert (EA3 : rw_pending (r_amu s) = false).
  { pose proof (lk_p _ _ LA) as E. destruct (rw_pending (r_amu s)); [|done]. exfalso.
    destruct (Hex MA HP) as (i & t & g & h & Hi & Hg & Hh); [simpl in *; lia|]. simpl in Hh.
    destruct (Hall _ _ Hi) as [Hf|Hs]; [by rewrite (Hfin _ _ _ _ Hi Hg Hf) in Hh|].
    destruct (H2 _ _ _ _ Hi Hg) as [Hd _].
    destruct (stuck_cases _ _ Hs) as (m & k & [[[->| ->] _]|[-> Hw]]); simpl in Hd.
    - destruct Hd as (_ & _ & E1 & _). congruence.
    - destruct Hd as (_ & _ & E1 & _). congruence.
    - destruct Hd as (_ & E1 & E2 & _). destruct m; [rewrite E2 in Hh; done|]. done. }
  (* so nobody holds or waits for MI *)
  assert (HI : forall i t g h, ts !! i = Some t -> gh !! i = Some (g, h) -> rd h.1 -> False).
  { intros i t g h Hi Hg Hh. destruct (Hall _ _ Hi) as [Hf|Hs].
    - by rewrite (Hfin _ _ _ _ Hi Hg Hf) in Hh.
    - destruct (H2 _ _ _ _ Hi Hg) as [Hd _].
      destruct (stuck_cases _ _ Hs) as (m & k & [[[->| ->] Hw]|[-> Hw]]); simpl in Hd; destruct m; simpl in *.
      + destruct Hd as (_ & E & _). by rewrite E in Hh.
      + destruct Hw; congruence.
      + destruct Hd as (_ & E & _). by rewrite E in Hh.
      + destruct Hw; congruence.
      + destruct Hd as (_ & E & _). by rewrite E in Hh.
      + done. }
  assert (EI1 : rw_readers (r_imu s) = 0).
  { rewrite (lk_r _ _ LI). destruct (cnt HR _) eqn:E; [done|]. exfalso.
    destruct (Hex MI HR) as (i & t & g & h & Hi & Hg & Hh); [simpl in *; lia|]. eapply HI; [done..|]. simpl in Hh. by rewrite Hh. }
  assert (EI2 : rw_writer (r_imu s) = false).
  { pose proof (lk_w _ _ LI) as E. destruct (rw_writer (r_imu s)); [|done]. exfalso.
    destruct (Hex MI HW) as (i & t & g & h & Hi & Hg & Hh); [simpl in *; lia|]. eapply HI; [done..|]. simpl in Hh. by rewrite Hh. }
  assert (EI3 : rw_pending (r_imu s) = false).
  { pose proof (lk_p _ _ LI) as E. destruct (rw_pending (r_imu s)); [|done]. exfalso.
    destruct (Hex MI HP) as (i & t & g & h & Hi & Hg & Hh); [simpl in *; lia|]. simpl in Hh.
    destruct (Hall _ _ Hi) as [Hf|Hs]; [by rewrite (Hfin _ _ _ _ Hi Hg Hf) in Hh|].
    destruct (H2 _ _ _ _ Hi Hg) as [Hd _].
    destruct (stuck_cases _ _ Hs) as (m & k & [[[->| ->] Hw]|[-> Hw]]); simpl in Hd; destruct m; simpl in *.
    - destruct Hd as (_ & E1 & _). congruence.
    - destruct Hw; congruence.
    - destruct Hd as (_ & E1 & _). congruence.
    - destruct Hw; congruence.
    - done.
    - done. }
  apply Forall_lookup. intros i t Hi. destruct (Hall _ _ Hi) as [Hf|Hs]; [done|]. exfalso.
  destruct (stuck_cases _ _ Hs) as (m & k & [[_ Hw]|[_ Hw]]); destruct m; simpl in *; try done; destruct Hw; congruence.
Qed.

(** ** Every interleaving is finite *)
Definition tnext (t' t : thr) : Prop := exists s s', tstep s t (TNext t' s').

Lemma TPut_tacc k d :
  Acc tnext (TRun k) -> forall n cs, length (omap id cs) = n -> Acc tnext (TPut cs d k).
Proof.
  intros Hk n. induction n as [n IH] using lt_wf_ind. intros cs Hn. constructor. intros t' (s & s' & Hs).
  inversion Hs; simplify_eq; [|done].
  eapply IH; [|reflexivity]. rename select (_ !! _ = _) into Hi. apply omap_id_insert in Hi. rewrite Hi. simpl. lia.
Qed.
Lemma TSearch_tacc q e k :
  (forall r, Acc tnext (TRun (k r))) ->
  forall n cs r, sum_list (sweight <$> cs) = n -> Acc tnext (TSearch cs q e r k).
Proof.
  intros Hk n. induction n as [n IH] using lt_wf_ind. intros cs r Hn. constructor. intros t' (s & s' & Hs).
  inversion Hs; simplify_eq; try apply Hk; (eapply IH; [|reflexivity]; eapply sum_insert; [done|simpl; lia]).
Qed.
Lemma run_tacc p : Acc tnext (TRun p).
Proof.
  induction p; constructor; intros t' (st & st' & Hs); inversion Hs; simplify_eq; eauto.
  - constructor. intros t2 (s2 & s2' & Hs2). by inversion Hs2; simplify_eq.
  - by eapply TPut_tacc.
  - by eapply TSearch_tacc.
Qed.
Lemma thr_tacc t : Acc tnext t.
Proof.
  destruct t.
  - apply run_tacc.
  - constructor. intros t2 (s2 & s2' & Hs2). inversion Hs2; simplify_eq. apply run_tacc.
  - eapply TPut_tacc; [apply run_tacc|done].
  - eapply TSearch_tacc; [intros; apply run_tacc|done].
Qed.

Definition tsnext (ts' ts : list thr) : Prop := exists i t t', ts !! i = Some t /\ tnext t' t /\ ts' = <[i := t']> ts.
Lemma ts_tacc ts : Acc tsnext ts.
Proof.
  induction ts as [|t ts IH].
  - constructor. intros ts' (i & t & t' & Hi & _). done.
  - revert t. induction IH as [ts _ IHts]. intros t. induction (thr_tacc t) as [t _ IHt].
    constructor. intros ts' (i & t1 & t' & Hi & Hn & ->). destruct i as [|i]; simplify_eq/=.
    + by apply IHt.
    + apply IHts. by exists i, t1, t'.
Qed.

Theorem pool_terminates p : Acc (fun p' p => pstep p p') p.
Proof.
  assert (Hcr : Acc (fun p' p => pstep p p') PCrashed) by (constructor; intros p' Hp; inversion Hp).
  destruct p as [ts s|]; [|done]. revert s. induction (ts_tacc ts) as [ts _ IH]. intros s.
  constructor. intros p' Hp. inversion Hp; simplify_eq; [|done]. apply IH. eexists _, _, _. split_and!; [done| |done].
  by eexists _, _.
Qed.
