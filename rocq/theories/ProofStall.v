(** * Concurrent calls with a panicking tokenizer or builder: a Put that panics is a
    Put that stops inside its critical section. *)
From Coq Require Import Lia.
From stdpp Require Import gmap list.
From Verif Require Import Entities Search SpecSearch Repo Sem RepoWp SpecRepo ProofRepo ProofTotal SpecConc Locks Race ProofRace
  Fault SpecFault Properties_Conc.
Open Scope nat_scope.

(** ** The relation between a call and the same call with faults *)
Section stalled.
  Context (f : fault).

  Inductive stalled : prog -> prog -> Prop :=
  | st_Ret r : stalled (Ret r) (Ret r)
  | st_Throw : stalled Throw Throw
  | st_RLock m k k' : stalled k k' -> stalled (RLock m k) (RLock m k')
  | st_RUnlock m k k' : stalled k k' -> stalled (RUnlock m k) (RUnlock m k')
  | st_Lock m k k' : stalled k k' -> stalled (Lock m k) (Lock m k')
  | st_Unlock m k k' : stalled k k' -> stalled (Unlock m k) (Unlock m k')
  | st_GetIndex n k k' : (forall x, stalled (k x) (k' x)) -> stalled (GetIndex n k) (GetIndex n k')
  | st_SetIndex n p k k' : stalled k k' -> stalled (SetIndex n p k) (SetIndex n p k')
  | st_DelIndex n k k' : stalled k k' -> stalled (DelIndex n k) (DelIndex n k')
  | st_RangeIndices k k' : (forall x, stalled (k x) (k' x)) -> stalled (RangeIndices k) (RangeIndices k')
  | st_GetAlias n k k' : (forall x, stalled (k x) (k' x)) -> stalled (GetAlias n k) (GetAlias n k')
  | st_SetAlias n p k k' : stalled k k' -> stalled (SetAlias n p k) (SetAlias n p k')
  | st_DelAlias n k k' : stalled k k' -> stalled (DelAlias n k) (DelAlias n k')
  | st_RangeAliases k k' : (forall x, stalled (k x) (k' x)) -> stalled (RangeAliases k) (RangeAliases k')
  | st_LoadElem sl i k k' : (forall x, stalled (k x) (k' x)) -> stalled (LoadElem sl i k) (LoadElem sl i k')
  | st_StoreElem sl i v k k' : stalled k k' -> stalled (StoreElem sl i v k) (StoreElem sl i v k')
  | st_Append sl v k k' : (forall x, stalled (k x) (k' x)) -> stalled (Append sl v k) (Append sl v k')
  | st_MakeSlice l k k' : (forall x, stalled (k x) (k' x)) -> stalled (MakeSlice l k) (MakeSlice l k')
  | st_NewIndex n k k' : (forall x, stalled (k x) (k' x)) -> stalled (NewIndex n k) (NewIndex n k')
  | st_build n k : f_build f n = true -> stalled (NewIndex n k) Throw
  | st_IdxPut p d k k' : stalled k k' -> stalled (IdxPut p d k) (IdxPut p d k')
  | st_text p d k : f_text f (req_statement d) = true -> stalled (IdxPut p d k) Throw
  | st_IdxSearch p q e k k' kp kp' :
      (forall x, stalled (k x) (k' x)) -> stalled kp kp' -> stalled (IdxSearch p q e k kp) (IdxSearch p q e k' kp')
  | st_IdxRead p k k' : (forall x, stalled (k x) (k' x)) -> stalled (IdxRead p k) (IdxRead p k')
  | st_GoPut ps d k k' : stalled k k' -> stalled (GoPut ps d k) (GoPut ps d k')
  | st_go_bad ps d k k' :
      f_text f (req_statement d) = true -> ps <> [] -> stalled (GoPut ps d k) (GoPut [None] d k')
  | st_GoSearch ps q e k k' : (forall x, stalled (k x) (k' x)) -> stalled (GoSearch ps q e k) (GoSearch ps q e k').

  Hint Constructors stalled : core.

  Lemma st_scan sl n : forall i index k k',
    (forall b, stalled (k b) (faulty f (k' b))) -> stalled (scan_loop sl i n index k) (faulty f (scan_loop sl i n index k')).
  Proof. induction n; intros; simpl; auto. constructor. intros x. case_decide; auto. Qed.
  Lemma st_filter sl n : forall i index acc k k',
    (forall b, stalled (k b) (faulty f (k' b))) -> stalled (filter_loop sl i n index acc k) (faulty f (filter_loop sl i n index acc k')).
  Proof. induction n; intros; simpl; auto. constructor. intros x. case_decide; simpl; auto. Qed.
  Lemma st_elems sl n : forall i old new k k',
    stalled k (faulty f k') -> stalled (rename_elems sl i n old new k) (faulty f (rename_elems sl i n old new k')).
  Proof. induction n; intros; simpl; auto. constructor. intros x. case_decide; simpl; auto. Qed.
  Lemma st_rename l : forall old new k k',
    stalled k (faulty f k') -> stalled (rename_loop l old new k) (faulty f (rename_loop l old new k')).
  Proof. induction l; intros; simpl; auto. constructor. intros [x|]; simpl; auto. by apply st_elems, IHl. Qed.
  Lemma st_resolve sl n : forall i acc k k',
    (forall l, (l = [] <-> acc = [] /\ n = 0) -> stalled (k l) (faulty f (k' l))) -> stalled (resolve_loop sl i n acc k) (faulty f (resolve_loop sl i n acc k')).
  Proof.
    induction n; intros i acc k k' H; simpl; [apply H; tauto|]. constructor. intros x. constructor. intros o. apply IHn.
    intros l Hl. apply H. rewrite Hl. split; intros [E ?]; [by destruct acc|done].
  Qed.
  Lemma st_drop l : forall n k k',
    stalled k (faulty f k') -> stalled (drop_loop l n k) (faulty f (drop_loop l n k')).
  Proof.
    induction l; intros; simpl; auto. constructor. intros [x|]; simpl; auto. apply st_filter. intros b.
    case_decide; simpl; auto. case_decide; simpl; auto.
  Qed.
  Lemma st_rows l : forall acc k k',
    (forall b, stalled (k b) (faulty f (k' b))) -> stalled (rows_loop l acc k) (faulty f (rows_loop l acc k')).
  Proof. induction l; intros; simpl; auto. constructor. intros [x|]; simpl; auto. Qed.
  Lemma st_string show l : forall acc k k',
    (forall b, stalled (k b) (faulty f (k' b))) -> stalled (string_loop show l acc k) (faulty f (string_loop show l acc k')).
  Proof. induction l; intros; simpl; auto. constructor. intros x. constructor. intros [y|]; simpl; auto. Qed.

  Lemma st_tail ps q e :
    stalled (search_tail ps q (f_engine f q e)) (faulty f (search_tail ps q e)).
  Proof. destruct ps as [|p [|p' ps]]; simpl; auto. Qed.

  Lemma st_put n d r :
    stalled (match r with
      | None => NewIndex n (fun p => SetIndex n p (IdxPut p d (Unlock MI (Ret RUnit))))
      | Some ps => GoPut ps d (Unlock MI (Ret RUnit)) end)
     (faulty f (match r with
      | None => NewIndex n (fun p => SetIndex n p (IdxPut p d (Unlock MI (Ret RUnit))))
      | Some ps => GoPut ps d (Unlock MI (Ret RUnit)) end)).
  Proof.
    destruct r as [ps|]; simpl.
    - destruct (f_text f (req_statement d)) eqn:E; [|auto]. destruct ps; auto.
    - destruct (f_build f n) eqn:E; [auto|]. constructor. intros p. constructor.
      destruct (f_text f (req_statement d)) eqn:E'; auto.
  Qed.

  Lemma stalled_call c : stalled (prog_of (tamed f c)) (faulty f (prog_of c)).
  Proof.
    destruct c; cbn [tamed prog_of];
      unfold List_prog, ListAliases_prog, Has_prog, HasAlias_prog, Alias_prog, Put_prog, getIndices, Search_prog, Rename_prog,
        Drop_prog, String_prog.
    - cbn. auto 20.
    - simpl. constructor. constructor. intros x. apply st_rows. simpl. auto 20.
    - cbn. auto 20.
    - cbn. auto 20.
    - simpl. constructor. constructor. intros [p|]; simpl; auto 20. constructor. constructor. intros [sl|]; simpl; auto 20.
      apply st_scan. intros [|]; simpl; auto 20.
    - unfold UnAlias_prog. case_decide; simpl; auto 20. constructor. constructor. intros [p|]; simpl; auto 20.
      constructor. constructor. constructor. intros [sl|]; simpl; auto 20. apply st_filter. intros b. case_decide; simpl; auto 20.
    - simpl. constructor. constructor. intros [p|].
      + constructor. constructor. apply (st_put index doc (Some [Some p])).
      + simpl. constructor. constructor. intros [sl|].
        * apply st_resolve. intros l _. simpl. do 3 constructor. apply (st_put index doc (Some l)).
        * simpl. do 3 constructor. apply (st_put index doc None).
    - simpl. constructor. constructor. intros [p|]; [apply (st_tail [Some p])|]. simpl. constructor. constructor. intros [sl|]; simpl; auto 20.
      apply st_resolve. intros l _. simpl. constructor. apply st_tail.
    - simpl. constructor. constructor. intros [p|]; simpl; auto 20. do 3 constructor. intros l. apply st_rename. simpl. auto 20.
    - simpl. constructor. constructor. intros [p|]; simpl; auto 20. do 4 constructor. intros l. apply st_drop. simpl. auto 20.
    - simpl. constructor. constructor. intros l. apply st_string. simpl. auto 20.
  Qed.

  (** ** Threads *)
  Inductive stalledT : thr -> thr -> Prop :=
  | sT_run p p' : stalled p p' -> stalledT (TRun p) (TRun p')
  | sT_pend m k k' : stalled k k' -> stalledT (TPend m k) (TPend m k')
  | sT_put cs d k k' : stalled k k' -> stalledT (TPut cs d k) (TPut cs d k')
  | sT_bad cs d k k' : f_text f (req_statement d) = true -> stalledT (TPut cs d k) (TPut [Some None] d k')
  | sT_search cs q e r k k' :
      (forall x, stalled (k x) (k' x)) -> stalledT (TSearch cs q e r k) (TSearch cs q e r k').
  Hint Constructors stalledT : core.

  Lemma stalled_step s t0 t t' s' :
    stalledT t0 t -> tstep s t (TNext t' s') -> exists t0', tstep s t0 (TNext t0' s') /\ stalledT t0' t'.
  Proof.
    intros Ht Hs. destruct Ht as [p p' Hp|m k k' Hk|cs d k k' Hk|cs d k k' Hb|cs q e r k k' Hk].
    - destruct Hp; inversion Hs; simplify_eq; try (by eexists; split; [by econstructor|auto]).
    - inversion Hs; simplify_eq. eexists; split; [by econstructor|auto].
    - inversion Hs; simplify_eq; eexists; (split; [by econstructor|auto]).
    - inversion Hs; simplify_eq.
      + destruct i as [|[|i]]; simplify_eq/=.
      + by match goal with H : Forall _ [_] |- _ => apply Forall_inv in H end.
    - inversion Hs; simplify_eq; eexists; (split; [by econstructor|auto]).
  Qed.

  Lemma stalled_crash s t0 t :
    stalledT t0 t -> tstep s t TCrash ->
    tstep s t0 TCrash \/ exists cs d k, t0 = TPut cs d k /\ f_text f (req_statement d) = true.
  Proof.
    intros Ht Hs. destruct Ht as [p p' Hp|m k k' Hk|cs d k k' Hk|cs d k k' Hb|cs q e r k k' Hk].
    - left. destruct Hp; inversion Hs; simplify_eq; by econstructor.
    - inversion Hs.
    - left. inversion Hs; simplify_eq; by econstructor.
    - right. eauto.
    - left. inversion Hs; simplify_eq; by econstructor.
  Qed.

  (** A thread that waits, waits in both pools. *)
  Lemma stalled_stuck s t0 t : stalledT t0 t -> stuck s t -> stuck s t0.
  Proof.
    intros Ht Hst. destruct (stuck_cases _ _ Hst) as (m & k & [[E Hw]|[E Hw]]).
    - destruct E as [->| ->]; inversion Ht as [? ? Hp| | | |]; simplify_eq; inversion Hp; simplify_eq;
        (split; [by intros []|]); intros x Hx; inversion Hx; simplify_eq; destruct Hw; congruence.
    - subst t. inversion Ht; simplify_eq. split; [by intros []|]. intros x Hx. inversion Hx; by simplify_eq.
  Qed.

  Lemma stalled_access t0 t g l w : stalledT t0 t -> access t g l w -> access t0 g l w.
  Proof.
    intros Ht Ha. destruct Ht as [p p' Hp|m k k' Hk|cs d k k' Hk|cs d k k' Hb|cs q e r k k' Hk].
    - destruct Hp; inversion Ha; simplify_eq; by econstructor.
    - inversion Ha.
    - inversion Ha; simplify_eq; by econstructor.
    - inversion Ha; simplify_eq. destruct j as [|[|j]]; simplify_eq/=.
    - inversion Ha; simplify_eq; by econstructor.
  Qed.

  Lemma stalled_reach ts0 ts s ts' s' :
    Forall2 stalledT ts0 ts -> rtc pstep (Pool ts s) (Pool ts' s') ->
    exists ts0', rtc pstep (Pool ts0 s) (Pool ts0' s') /\ Forall2 stalledT ts0' ts'.
  Proof.
    intros H0 Hr.
    assert (Hp : match Pool ts' s' with Pool ts1 s1 => exists ts0', rtc pstep (Pool ts0 s) (Pool ts0' s1) /\ Forall2 stalledT ts0' ts1
      | PCrashed => True end).
    { refine (rtc_ind_r (R := pstep) (fun p => match p with Pool ts1 s1 => exists ts0', rtc pstep (Pool ts0 s) (Pool ts0' s1) /\ Forall2 stalledT ts0' ts1
      | PCrashed => True end) _ _ _ _ Hr).
      - exists ts0. split; [apply rtc_refl|done].
      - intros y z _ Hs IH. inversion Hs as [ts1 s1 j t t' s2 Hj Ht|]; simplify_eq; [|done].
        destruct IH as (ts0' & Hr0 & HF). destruct (Forall2_lookup_r _ _ _ _ _ HF Hj) as (t0 & Hj0 & Hst).
        destruct (stalled_step _ _ _ _ _ Hst Ht) as (t0' & Ht0 & Hst'). exists (<[j := t0']> ts0'). split.
        + eapply rtc_r; [exact Hr0|]. by eapply P_step.
        + by apply Forall2_insert. }
    exact Hp.
  Qed.

  Lemma stalled_start cs : Forall2 stalledT (start (tamed f <$> cs)) (fstart f cs).
  Proof.
    unfold start, fstart. induction cs as [|c cs IH]; simpl; [constructor|]. constructor; [|done].
    constructor. apply stalled_call.
  Qed.
End stalled.

(** ** Where a Put can be *)
Fixpoint okput (n : string) (d : DocRequest) (p : prog) : Prop :=
  match p with
  | Ret r => r = RUnit
  | Throw => False
  | RLock _ k | RUnlock _ k | Lock _ k | Unlock _ k | SetIndex _ _ k => okput n d k
  | GetIndex _ k => forall x, okput n d (k x)
  | GetAlias _ k => forall x, okput n d (k x)
  | LoadElem _ _ k => forall x, okput n d (k x)
  | NewIndex n' k => n' = n /\ forall p, k p = SetIndex n p (IdxPut p d (Unlock MI (Ret RUnit)))
  | IdxPut _ d' k => d' = d /\ k = Unlock MI (Ret RUnit)
  | GoPut _ d' k => d' = d /\ k = Unlock MI (Ret RUnit)
  | _ => False
  end.
Definition okputT (n : string) (d : DocRequest) (t : thr) : Prop :=
  match t with
  | TRun p => okput n d p
  | TPend _ k => okput n d k
  | TPut _ d' k => d' = d /\ k = Unlock MI (Ret RUnit)
  | TSearch _ _ _ _ _ => False
  end.

Lemma okput_step n d s t t' s' : okputT n d t -> tstep s t (TNext t' s') -> okputT n d t'.
Proof.
  intros Ht Hs. inversion Hs; simplify_eq; simpl in *; destruct_and?; simplify_eq; simpl; auto; try done.
  match goal with H : forall p, _ = _ |- _ => rewrite H end. simpl. auto.
Qed.

Lemma okput_call n d : okput n d (Put_prog n d).
Proof.
  assert (Hr : forall sl m i acc k, (forall l, okput n d (k l)) -> okput n d (resolve_loop sl i m acc k)).
  { intros sl m. induction m; intros i acc k Hk; simpl; [apply Hk|]. intros x o. by apply IHm. }
  simpl. intros [p|]; simpl; [done|]. intros [sl|]; [|simpl; done]. apply Hr. intros l. simpl. done.
Qed.

Lemma okput_reach cs s ts s' i n d t :
  rtc pstep (Pool (start cs) s) (Pool ts s') -> cs !! i = Some (CPut n d) -> ts !! i = Some t -> okputT n d t.
Proof.
  intros Hr Hi. revert t.
  refine (rtc_ind_r (R := pstep) (fun p => match p with Pool ts1 _ => forall t, ts1 !! i = Some t -> okputT n d t
    | PCrashed => True end) _ _ _ (Pool ts s') Hr).
  - intros t Ht. unfold start in Ht. rewrite list_lookup_fmap, Hi in Ht. simplify_eq/=. apply okput_call.
  - intros y z _ Hs IH. inversion Hs as [ts1 s1 j t1 t1' s2 Hj Ht1|]; simplify_eq; [|done].
    intros t Ht. apply list_lookup_insert_Some in Ht as [(-> & <- & _)|[Hne Ht]]; [|by apply IH].
    eapply okput_step; [|exact Ht1]. by apply IH.
Qed.

(** ** The other calls *)
Fixpoint noput (p : prog) : Prop :=
  match p with
  | Ret _ | Throw => True
  | RLock _ k | RUnlock _ k | Lock _ k | Unlock _ k => noput k
  | SetIndex _ _ k | DelIndex _ k | SetAlias _ _ k | DelAlias _ k | StoreElem _ _ _ k => noput k
  | GetIndex _ k => forall x, noput (k x)
  | RangeIndices k | RangeAliases k => forall x, noput (k x)
  | GetAlias _ k => forall x, noput (k x)
  | LoadElem _ _ k => forall x, noput (k x)
  | Append _ _ k | MakeSlice _ k => forall x, noput (k x)
  | IdxSearch _ _ _ k kp => (forall x, noput (k x)) /\ noput kp
  | IdxRead _ k => forall x, noput (k x)
  | GoSearch _ _ _ k => forall x, noput (k x)
  | NewIndex _ _ | IdxPut _ _ _ | GoPut _ _ _ => False
  end.
Definition noputT (t : thr) : Prop :=
  match t with
  | TRun p => noput p
  | TPend _ k => noput k
  | TPut _ _ _ => False
  | TSearch _ _ _ _ k => forall x, noput (k x)
  end.

Lemma noput_step s t t' s' : noputT t -> tstep s t (TNext t' s') -> noputT t'.
Proof. intros Ht Hs. inversion Hs; simplify_eq; simpl in *; destruct_and?; auto; done. Qed.

Lemma np_scan sl n : forall i index k, (forall b, noput (k b)) -> noput (scan_loop sl i n index k).
Proof. induction n; intros; simpl; auto. intros x. case_decide; auto. Qed.
Lemma np_filter sl n : forall i index acc k, (forall b, noput (k b)) -> noput (filter_loop sl i n index acc k).
Proof. induction n; intros; simpl; auto. intros x. case_decide; simpl; auto. Qed.
Lemma np_elems sl n : forall i old new k, noput k -> noput (rename_elems sl i n old new k).
Proof. induction n; intros; simpl; auto. intros x. case_decide; simpl; auto. Qed.
Lemma np_rename l : forall old new k, noput k -> noput (rename_loop l old new k).
Proof. induction l; intros; simpl; auto. intros [x|]; simpl; auto. by apply np_elems, IHl. Qed.
Lemma np_resolve sl n : forall i acc k, (forall b, noput (k b)) -> noput (resolve_loop sl i n acc k).
Proof. induction n; intros; simpl; auto. Qed.
Lemma np_drop l : forall n k, noput k -> noput (drop_loop l n k).
Proof.
  induction l; intros; simpl; auto. intros [x|]; simpl; auto. apply np_filter. intros b.
  case_decide; simpl; auto. case_decide; simpl; auto.
Qed.
Lemma np_rows l : forall acc k, (forall b, noput (k b)) -> noput (rows_loop l acc k).
Proof. induction l; intros; simpl; auto. intros [x|]; simpl; auto. Qed.
Lemma np_string show l : forall acc k, (forall b, noput (k b)) -> noput (string_loop show l acc k).
Proof. induction l; intros; simpl; auto. intros x [y|]; simpl; auto. Qed.
Lemma np_tail ps q e : noput (search_tail ps q e).
Proof. destruct ps as [|p [|p' ps]]; simpl; auto. Qed.

Lemma noput_call c : (forall n d, c <> CPut n d) -> noput (prog_of c).
Proof.
  intros Hc. destruct c; simpl; auto.
  - intros x. by apply np_rows.
  - intros [p|]; simpl; auto. intros [sl|]; simpl; auto. apply np_scan. intros [|]; simpl; auto.
  - unfold UnAlias_prog. case_decide; simpl; auto. intros [p|]; simpl; auto. intros [sl|]; simpl; auto.
    apply np_filter. intros b. case_decide; simpl; auto.
  - by destruct (Hc index doc).
  - intros [p|]; [simpl; auto|]. intros [sl|]; simpl; auto. apply np_resolve. intros l. apply np_tail.
  - intros [p|]; simpl; auto. intros l. by apply np_rename.
  - intros [p|]; simpl; auto. intros l. by apply np_drop.
  - intros l. by apply np_string.
Qed.

Lemma noput_reach cs s ts s' i c t :
  rtc pstep (Pool (start cs) s) (Pool ts s') -> cs !! i = Some c -> (forall n d, c <> CPut n d) -> ts !! i = Some t -> noputT t.
Proof.
  intros Hr Hi Hc. revert t.
  refine (rtc_ind_r (R := pstep) (fun p => match p with Pool ts1 _ => forall t, ts1 !! i = Some t -> noputT t
    | PCrashed => True end) _ _ _ (Pool ts s') Hr).
  - intros t Ht. unfold start in Ht. rewrite list_lookup_fmap, Hi in Ht. simplify_eq/=. by apply noput_call.
  - intros y z _ Hs IH. inversion Hs as [ts1 s1 j t1 t1' s2 Hj Ht1|]; simplify_eq; [|done].
    intros t Ht. apply list_lookup_insert_Some in Ht as [(-> & <- & _)|[Hne Ht]]; [|by apply IH].
    eapply noput_step; [|exact Ht1]. by apply IH.
Qed.

(** A finished call is as far as the call without faults, unless it is a struck Put. *)
Lemma stalled_finished f cs s ts0 ts s' i t0 t :
  rtc pstep (Pool (start (tamed f <$> cs)) s) (Pool ts0 s') -> length ts0 = length cs ->
  ts0 !! i = Some t0 -> ts !! i = Some t -> stalledT f t0 t ->
  (finished t0 -> t = t0) /\
  (finished t -> t = t0 \/ exists n d, struck cs ts i n d /\ ~ finished t0 /\
     (f_build f n = true \/ f_text f (req_statement d) = true)).
Proof.
  intros Hr Hl Hi0 Hi Ht. split.
  - intros Hf. destruct t0 as [p| | |]; try done. destruct p; try done; inversion Ht as [? ? Hp| | | |]; simplify_eq; by inversion Hp.
  - intros Hf. inversion Ht as [p p' Hp| | | |]; simplify_eq; try done.
    destruct (lookup_lt_is_Some_2 cs i) as [c Hc]; [rewrite <- Hl; by eapply lookup_lt_Some|].
    assert (Hn : (exists n d, c = CPut n d) \/ forall n d, c <> CPut n d) by (destruct c; eauto).
    assert (Hc' : (tamed f <$> cs) !! i = Some (tamed f c)) by (by rewrite list_lookup_fmap, Hc).
    destruct Hn as [(n & d & ->)|Hn].
    + pose proof (okput_reach _ _ _ _ _ _ _ _ Hr Hc' Hi0) as Ho. simpl in Ho.
      destruct Hp; try done; try (by left).
      * right. destruct Ho as [-> _]. exists n, d. split; [by split|]. split; [by intros []|by left].
      * right. destruct Ho as [-> _]. exists n, d. split; [by split|]. split; [by intros []|by right].
    + assert (Hn' : forall n d, tamed f c <> CPut n d) by (intros n d; destruct c; try done; by destruct (Hn index doc)).
      pose proof (noput_reach _ _ _ _ _ _ _ Hr Hc' Hn' Hi0) as Ho. simpl in Ho.
      destruct Hp; try done; by left.
Qed.

(** ** Steps of the others while the index table is locked *)
Lemma frozen_step L g h t s t' s' :
  tdisc Any L g h t -> h.1 = HN -> rw_writer (r_imu s) = true -> tstep s t (TNext t' s') ->
  r_I s' = r_I s /\ r_imu s' = r_imu s.
Proof.
  intros Hd Hh Hw Hs. inversion Hs; subst; simpl in Hd; try done; destruct_and?;
    try (by rewrite Hh in *); destruct m; simpl in *; first [done|congruence].
Qed.

(** A struck Put holds the index table, and nothing else. *)
Lemma struck_holds f n d L g h t0 :
  stalledT f t0 (TRun Throw) -> okputT n d t0 -> tdisc Any L g h t0 -> ~ L RUnit -> h = (HW, HN).
Proof.
  intros Ht Ho Hd HL. inversion Ht as [p p' Hp| | | |]; simplify_eq.
  assert (Hend : disc Any L false (set_h MI HN h) (Ret RUnit) -> h.1 = HW -> h = (HW, HN)).
  { intros [E|[? _]] Hw; [|done]. destruct h as [a b]. simpl in *. by simplify_eq. }
  inversion Hp; subst; simpl in Ho; [done|..].
  - destruct Ho as [-> Hk]. simpl in Hd. destruct Hd as (_ & Hw & Hd). specialize (Hd 0). rewrite Hk in Hd.
    simpl in Hd. destruct Hd as (_ & _ & _ & _ & E & Hd). by apply Hend.
  - destruct Ho as [-> ->]. simpl in Hd. destruct Hd as (_ & _ & E & Hd). by apply Hend.
Qed.
