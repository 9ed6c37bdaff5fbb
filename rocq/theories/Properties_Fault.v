(** * Properties C69-C71: tokenizers and builders that panic.

    [freach f ckn tk s v dead]: [s] was reached from NewIndexRepo by some calls whose
    panics were recovered, [v] is what a caller knows about it, and [dead] says whether
    the index table was left locked. *)
From Coq Require Import Lia.
From stdpp Require Import gmap list.
From Verif Require Import Entities Search SpecSearch Properties_Search Repo Sem RepoWp SpecRepo ProofRepo ProofTotal
  Fault SpecFault ProofFault Properties_Repo.
Open Scope nat_scope.

(** What a call does, in every execution. *)
Definition falways (f : fault) (c : call) (s : repo) (P : result -> Prop) : Prop :=
  (exists res, faulty_result f c s res) /\ forall res, faulty_result f c s res -> P res.

(** ** C69: the repo with a panicking tokenizer or builder refines the machine *)

Theorem C69_calls_refine :
  forall f ckn tk s v b c,
    freach f ckn tk s v b ->
    falways f c s (fun res =>
      match res with
      | Done r s' => exists v' b', fspec f ckn tk c v b (ODone (see s' r) v') b' /\ freach f ckn tk s' v' b'
      | Panicked s' => exists v' b', fspec f ckn tk c v b (OPanic v') b' /\ freach f ckn tk s' v' b'
      | Crashed => exists b', fspec f ckn tk c v b OCrash b'
      | Blocked => exists b', fspec f ckn tk c v b OBlock b'
      end).
Proof.
  intros f ckn tk s v b c Hr. split; [apply fcall_total|]. intros res Hres.
  destruct (fcall_refines f ckn tk c s v b res (freach_shape _ _ _ _ _ _ Hr) Hres) as (o & b' & Ho & Hm).
  destruct res, o; simpl in Hm; try done.
  - destruct Hm as [<- _]. exists v0, b'. split; [done|]. by eapply FR_done.
  - exists v0, b'. split; [done|]. by eapply FR_panic.
  - eauto.
  - eauto.
Qed.
Print Assumptions C69_calls_refine.

(** Without faults it is the machine of C29. *)
Theorem C69_no_fault :
  forall ckn tk c v o b', fspec no_fault ckn tk c v false o b' <-> (spec ckn tk c v o /\ b' = false).
Proof.
  intros ckn tk c v o b'. destruct c; cbn [fspec]; try tauto.
  - cbn [no_fault f_text f_build spec]. destruct (v_idx v !! index).
    + case_decide; tauto.
    + destruct (v_leakA v) eqn:EA; [tauto|]. case_decide; [tauto|]. destruct (v_ali v !! index) as [[|x l]|]; try tauto.
      rewrite decide_False by (intros HE; by inversion HE). cbn [put_each foldr].
      assert (MkView (v_idx v) (v_ali v) (v_leakI v) false = v) as -> by (destruct v; simpl in *; by subst). tauto.
Qed.
Print Assumptions C69_no_fault.

(** A tokenizer that panics on texts containing a quote. *)
Definition bad_quote (t : string) : bool := existsb (Ascii.eqb "'"%char) (list_ascii_of_string t).
Definition quote_fault : fault := MkFault (fun _ => false) bad_quote.
Definition dQ : DocRequest := NewDocRequest "q" "it's".

Lemma freach_next f ckn tk s v c v' b' :
  freach f ckn tk s v false ->
  (forall o b1, fspec f ckn tk c v false o b1 -> ((exists x, o = ODone x v') \/ o = OPanic v') /\ b1 = b') ->
  exists s', freach f ckn tk s' v' b'.
Proof.
  intros Hr H. destruct (C69_calls_refine f ckn tk s v false c Hr) as [[res Hres] Hall]. specialize (Hall _ Hres).
  destruct res as [r s'|s'| |].
  - destruct Hall as (v1 & b1 & Hs & Hf). destruct (H _ _ Hs) as [[[x E]|E] ->]; simplify_eq. eauto.
  - destruct Hall as (v1 & b1 & Hs & Hf). destruct (H _ _ Hs) as [[[x E]|E] ->]; simplify_eq. eauto.
  - destruct Hall as [b1 Hs]. by destruct (H _ _ Hs) as [[[x E]|E] _].
  - destruct Hall as [b1 Hs]. by destruct (H _ _ Hs) as [[[x E]|E] _].
Qed.

(** An index "p" with a document, and after a failed Put to "n" also an empty index
    "n" in a locked table. *)
Definition p_view : view := MkView {["p" := [dA]]} ∅ 0 false.
Definition stuck_view : view := MkView (<["n" := []]> {["p" := [dA]]}) ∅ 0 false.
Lemma example_p : exists s, freach quote_fault true letters s p_view false.
Proof.
  eapply freach_next; [apply FR_new|]. instantiate (1 := CPut "p" dA). intros o b1 Ho.
  cbn in Ho. destruct Ho as [-> ->]. split; [left; by eexists|done].
Qed.
Example C69_example : exists s, freach quote_fault true letters s stuck_view true.
Proof.
  destruct example_p as [s Hs]. eapply freach_next; [exact Hs|]. instantiate (1 := CPut "n" dQ). intros o b1 Ho.
  cbn in Ho. destruct Ho as [-> ->]. split; [by right|done].
Qed.

(** ** C70: a panic during a first Put disables the repository *)

(** If the builder panics on a new name, or the tokenizer on its first document, the
    Put panics and leaves the index table locked; in the second case an empty index
    has appeared. *)
Theorem C70_first_put_panics :
  forall f ckn tk s v n d,
    freach f ckn tk s v false -> unblocked v -> v_idx v !! n = None -> v_ali v !! n = None ->
    f_build f n = true \/ f_text f (req_statement d) = true ->
    falways f (CPut n d) s (fun res => exists s', res = Panicked s' /\
      freach f ckn tk s' (if f_build f n then v else MkView (<[n := []]> (v_idx v)) (v_ali v) 0 false) true).
Proof.
  intros f ckn tk s v n d Hr [HI HA] Hn Ha Hbad. destruct (C69_calls_refine f ckn tk s v false (CPut n d) Hr) as [Hex Hall].
  split; [done|]. intros res Hres. specialize (Hall _ Hres).
  assert (Hs : forall o b', fspec f ckn tk (CPut n d) v false o b' ->
    o = OPanic (if f_build f n then v else MkView (<[n := []]> (v_idx v)) (v_ali v) 0 false) /\ b' = true).
  { intros o b'. cbn [fspec]. rewrite Hn, Ha, HI, HA. rewrite decide_False by (intros E; by apply E).
    destruct (f_build f n); [by intros []|]. destruct Hbad as [?| ->]; [done|]. by intros []. }
  destruct res as [r s'|s'| |].
  - destruct Hall as (v1 & b1 & Hx & _). by destruct (Hs _ _ Hx).
  - destruct Hall as (v1 & b1 & Hx & Hf). destruct (Hs _ _ Hx) as [E ->]. simplify_eq. eauto.
  - destruct Hall as [b1 Hx]. by destruct (Hs _ _ Hx).
  - destruct Hall as [b1 Hx]. by destruct (Hs _ _ Hx).
Qed.
Print Assumptions C70_first_put_panics.

(** From then on every call that needs the index table waits for ever; the others
    answer as before. *)
Theorem C70_table_stays_locked :
  forall f ckn tk s v c,
    freach f ckn tk s v true ->
    (~ alias_only c -> falways f c s (fun res => res = Blocked)) /\
    (alias_only c -> falways f c s (fun res =>
       match res with
       | Done r s' => exists v', spec ckn tk c v (ODone (see s' r) v') /\ freach f ckn tk s' v' true /\ v_idx v' = v_idx v
       | Blocked => v_leakA v = true
       | _ => False
       end)).
Proof.
  intros f ckn tk s v c Hr. destruct (C69_calls_refine f ckn tk s v true c Hr) as [Hex Hall]. cbn [fspec] in Hall.
  split; intros Hc; (split; [done|]); intros res Hres; specialize (Hall _ Hres).
  - revert Hall. destruct (decide (alias_only c)); [done|]. intros Hall. destruct res as [r s'|s'| |]; try done.
    + by destruct Hall as (? & ? & [_ ?] & _).
    + by destruct Hall as (? & ? & [_ ?] & _).
    + by destruct Hall as (? & [_ ?]).
  - revert Hall. destruct (decide (alias_only c)); [|done]. intros Hall. destruct res as [r s'|s'| |].
    + destruct Hall as (v1 & b1 & [-> Hx] & Hf). exists v1. split_and!; [done|done|].
      destruct c; try done; cbn [spec] in Hx.
      * destruct (v_leakA v); [done|]. destruct Hx as (? & _ & ?). by simplify_eq.
      * destruct (v_leakA v); [done|]. by simplify_eq.
      * simpl in Hc. rewrite decide_True in Hx by done. destruct (v_leakA v); [done|]. by simplify_eq.
    + exfalso. destruct Hall as (v1 & b1 & [-> Hx] & Hf). destruct c; try done; cbn [spec] in Hx.
      * destruct (v_leakA v); [done|]. by destruct Hx as (? & _ & ?).
      * by destruct (v_leakA v).
      * simpl in Hc. rewrite decide_True in Hx by done. by destruct (v_leakA v).
    + exfalso. destruct Hall as (b1 & [-> Hx]). destruct c; try done; cbn [spec] in Hx.
      * destruct (v_leakA v); [done|]. by destruct Hx as (? & _ & ?).
      * by destruct (v_leakA v).
      * simpl in Hc. rewrite decide_True in Hx by done. by destruct (v_leakA v).
    + destruct Hall as (b1 & [-> Hx]). destruct c; try done; cbn [spec] in Hx.
      * destruct (v_leakA v); [done|]. by destruct Hx as (? & _ & ?).
      * by destruct (v_leakA v).
      * simpl in Hc. rewrite decide_True in Hx by done. by destruct (v_leakA v).
Qed.
Print Assumptions C70_table_stays_locked.

(** Concurrent calls do not help: whatever runs, and in whatever order, the calls
    that need the index table never take their first step, and the table keeps its
    contents. *)
Fixpoint no_index (p : prog) : Prop :=
  match p with
  | Ret _ | Throw => True
  | RLock m k | RUnlock m k | Lock m k | Unlock m k => m = MA /\ no_index k
  | GetAlias _ k => forall x, no_index (k x)
  | SetAlias _ _ k | DelAlias _ k | StoreElem _ _ _ k => no_index k
  | RangeAliases k => forall x, no_index (k x)
  | LoadElem _ _ k => forall x, no_index (k x)
  | Append _ _ k | MakeSlice _ k => forall x, no_index (k x)
  | _ => False
  end.
Definition no_index_thr (t : thr) : Prop :=
  match t with TRun p => no_index p | TPend m k => m = MA /\ no_index k | _ => False end.

Lemma no_index_step s t t' s' :
  no_index_thr t -> tstep s t (TNext t' s') -> no_index_thr t' /\ r_I s' = r_I s /\ r_imu s' = r_imu s.
Proof.
  intros Ht Hs. inversion Hs; subst; simpl in Ht; try done; try (destruct Ht as [-> Ht]); simpl; auto.
Qed.

Lemma alias_only_no_index f c : alias_only c -> no_index (faulty f (prog_of c)).
Proof.
  destruct c; try done; intros H; simpl in H.
  - cbn [prog_of]. unfold ListAliases_prog. cbn [faulty no_index]. split; [done|]. intros l.
    generalize (@nil (string * slice)). induction l as [|a l IH]; intros acc; simpl; [done|]. intros [x|]; apply IH.
  - subst. cbn [prog_of]. unfold UnAlias_prog. rewrite decide_True by done. simpl. by repeat (split || intros ?).
Qed.

Lemma locked_start c :
  ~ alias_only c -> exists k, prog_of c = RLock MI k \/ prog_of c = Lock MI k.
Proof.
  destruct c; intros H; try (by destruct H); try (by eexists; left); try (by eexists; right).
  cbn [prog_of]. unfold UnAlias_prog. rewrite decide_False by done. eexists. by left.
Qed.

Theorem C70_blocked_for_ever :
  forall f ckn tk s v cs ts s',
    freach f ckn tk s v true ->
    rtc pstep (Pool ((fun c => TRun (faulty f (prog_of c))) <$> cs) s) (Pool ts s') ->
    r_I s' = r_I s /\ r_imu s' = r_imu s /\
    forall i c, cs !! i = Some c -> ~ alias_only c -> ts !! i = Some (TRun (faulty f (prog_of c))).
Proof.
  intros f ckn tk s v cs ts s' Hr Hp. destruct (freach_shape _ _ _ _ _ _ Hr) as [_ _ Em _].
  assert (H : match Pool ts s' with
    | PCrashed => True
    | Pool ts1 s1 => length ts1 = length cs /\ r_I s1 = r_I s /\ r_imu s1 = r_imu s /\
        forall i c, cs !! i = Some c ->
          if decide (alias_only c) then exists t, ts1 !! i = Some t /\ no_index_thr t
          else ts1 !! i = Some (TRun (faulty f (prog_of c)))
    end).
  { refine (rtc_ind_r (R := pstep) (fun p => match p with
    | PCrashed => True
    | Pool ts1 s1 => length ts1 = length cs /\ r_I s1 = r_I s /\ r_imu s1 = r_imu s /\
        forall i c, cs !! i = Some c ->
          if decide (alias_only c) then exists t, ts1 !! i = Some t /\ no_index_thr t
          else ts1 !! i = Some (TRun (faulty f (prog_of c)))
    end) _ _ _ _ Hp).
    - split_and!; [apply fmap_length|done|done|]. intros i c Hc. rewrite list_lookup_fmap, Hc. simpl. case_decide; [|done].
      eexists. split; [done|]. by apply alias_only_no_index.
    - intros y z _ Hs IH. inversion Hs as [ts0 s0 j t t' s1 Hj Ht|]; simplify_eq; [|done].
      destruct IH as (Hl & EI & Emu & IH).
      assert (Hlen : exists c, cs !! j = Some c \/ cs !! j = None).
      { destruct (cs !! j) as [c|]; [exists c; by left|exists CList; by right]. }
      destruct Hlen as [c [Hc|Hc]].
      + pose proof (IH _ _ Hc) as Hthr. destruct (decide (alias_only c)) as [Ha|Ha].
        * destruct Hthr as (t1 & E & Hn). rewrite Hj in E. simplify_eq.
          destruct (no_index_step _ _ _ _ Hn Ht) as (Hn' & E1 & E2). split_and!; [by rewrite insert_length|congruence|congruence|].
          intros i c1 Hi. destruct (decide (i = j)) as [->|Hne].
          -- rewrite Hi in Hc. simplify_eq. rewrite decide_True by done. exists t'. split; [|done].
             apply list_lookup_insert. by eapply lookup_lt_Some.
          -- rewrite list_lookup_insert_ne by done. by apply IH.
        * exfalso. rewrite Hj in Hthr. simplify_eq. destruct (locked_start c Ha) as [k [E|E]]; rewrite E in Ht; cbn [faulty] in Ht;
            inversion Ht; simplify_eq; cbn [get_mu] in *; rewrite Emu, Em in *; done.
      + exfalso. apply lookup_lt_Some in Hj. apply lookup_ge_None in Hc. lia. }
  simpl in H. destruct H as (_ & H1 & H2 & H3). split_and!; [done|done|]. intros i c Hc Ha. specialize (H3 _ _ Hc).
  by rewrite decide_False in H3 by done.
Qed.
Print Assumptions C70_blocked_for_ever.

(** A Put of a bad text to an existing index, or through an alias naming at least
    one index, ends the process. *)
Theorem C70_put_crashes :
  forall f ckn tk s v n d l,
    freach f ckn tk s v false -> unblocked v -> f_text f (req_statement d) = true ->
    is_Some (v_idx v !! n) \/ (v_idx v !! n = None /\ v_ali v !! n = Some l /\ l <> []) ->
    falways f (CPut n d) s (fun res => res = Crashed).
Proof.
  intros f ckn tk s v n d l Hr [HI HA] Ht Hn. destruct (C69_calls_refine f ckn tk s v false (CPut n d) Hr) as [Hex Hall].
  split; [done|]. intros res Hres. specialize (Hall _ Hres).
  assert (Hs : forall o b', fspec f ckn tk (CPut n d) v false o b' -> o = OCrash).
  { intros o b'. cbn [fspec]. rewrite HI, HA, Ht. rewrite !decide_False by (intros E; by apply E).
    destruct Hn as [[x ->]|(-> & -> & Hl)]; [by intros []|]. destruct l; [done|]. by intros []. }
  destruct res as [r s'|s'| |]; [|..|done|].
  - by destruct Hall as (v1 & b1 & Hx%Hs & _).
  - by destruct Hall as (v1 & b1 & Hx%Hs & _).
  - by destruct Hall as [b1 Hx%Hs].
Qed.
Print Assumptions C70_put_crashes.

(** The hypotheses are met, and the bad Put is not a special text only. *)
Example C70_example :
  (exists s, freach quote_fault true letters s p_view false) /\ unblocked p_view /\
  v_idx p_view !! "n" = None /\ v_ali p_view !! "n" = None /\ f_text quote_fault (req_statement dQ) = true /\
  is_Some (v_idx p_view !! "p") /\ f_build nil_builder "n" = true /\ f_text nil_tokenizer "" = true /\
  ~ alias_only CList /\ alias_only (CUnAlias "al" "").
Proof. split; [apply example_p|]. split_and!; try done. by intros []. Qed.

(** ** C71: a panic during a Search *)

(** A Search whose text the tokenizer rejects panics and changes nothing: the state
    is the one before, no lock is kept. *)
Theorem C71_search_panics :
  forall f ckn tk s v n q e x,
    freach f ckn tk s v false -> f_text f q = true ->
    is_Some (v_idx v !! n) \/ (v_idx v !! n = None /\ v_leakA v = false /\ v_ali v !! n = Some [x]) ->
    falways f (CSearch n q e) s (fun res => exists s', res = Panicked s' /\ freach f ckn tk s' v false).
Proof.
  intros f ckn tk s v n q e x Hr Ht Hn. destruct (C69_calls_refine f ckn tk s v false (CSearch n q e) Hr) as [Hex Hall].
  split; [done|]. intros res Hres. specialize (Hall _ Hres).
  assert (Hs : forall o b', fspec f ckn tk (CSearch n q e) v false o b' -> o = OPanic v /\ b' = false).
  { intros o b'. cbn [fspec]. rewrite Ht. destruct Hn as [[y ->]|(-> & -> & ->)]; by intros []. }
  destruct res as [r s'|s'| |].
  - by destruct Hall as (v1 & b1 & [Hx _]%Hs & _).
  - destruct Hall as (v1 & b1 & [Hx ->]%Hs & Hf). simplify_eq. eauto.
  - by destruct Hall as [b1 [Hx _]%Hs].
  - by destruct Hall as [b1 [Hx _]%Hs].
Qed.
Print Assumptions C71_search_panics.

(** Through an alias of several indices it ends the process. *)
Theorem C71_search_crashes :
  forall f ckn tk s v n q e x y l,
    freach f ckn tk s v false -> f_text f q = true -> v_leakA v = false ->
    v_idx v !! n = None -> v_ali v !! n = Some (x :: y :: l) ->
    falways f (CSearch n q e) s (fun res => res = Crashed).
Proof.
  intros f ckn tk s v n q e x y l Hr Ht HA Hn Ha. destruct (C69_calls_refine f ckn tk s v false (CSearch n q e) Hr) as [Hex Hall].
  split; [done|]. intros res Hres. specialize (Hall _ Hres).
  assert (Hs : forall o b', fspec f ckn tk (CSearch n q e) v false o b' -> o = OCrash).
  { intros o b'. cbn [fspec]. rewrite Ht, HA, Hn, Ha. by intros []. }
  destruct res as [r s'|s'| |]; [|..|done|].
  - by destruct Hall as (v1 & b1 & Hx%Hs & _).
  - by destruct Hall as (v1 & b1 & Hx%Hs & _).
  - by destruct Hall as [b1 Hx%Hs].
Qed.
Print Assumptions C71_search_crashes.

(** A text the tokenizer accepts is searched as if the tokenizer never panicked. *)
Theorem C71_good_search :
  forall f ckn tk s v n q e,
    freach f ckn tk s v false -> f_text f q = false ->
    falways f (CSearch n q e) s (fun res =>
      match res with
      | Done r s' => spec ckn tk (CSearch n q e) v (ODone (see s' r) v) /\ freach f ckn tk s' v false
      | Panicked s' => spec ckn tk (CSearch n q e) v (OPanic v) /\ freach f ckn tk s' v false
      | Crashed => spec ckn tk (CSearch n q e) v OCrash
      | Blocked => spec ckn tk (CSearch n q e) v OBlock
      end).
Proof.
  intros f ckn tk s v n q e Hr Ht. destruct (C69_calls_refine f ckn tk s v false (CSearch n q e) Hr) as [Hex Hall].
  split; [done|]. intros res Hres. specialize (Hall _ Hres). cbn [fspec] in Hall. rewrite Ht in Hall.
  assert (Hv : forall o v', spec ckn tk (CSearch n q e) v (ODone o v') -> v' = v).
  { intros o v'. cbn [spec]. destruct (v_idx v !! n); [destruct (search_docs _ _ _ _ _); intros; by simplify_eq|].
    destruct (v_leakA v); [done|]. destruct (v_ali v !! n) as [[|x [|y l]]|]; intros Hx.
    - destruct Hx as [(? & ? & _ & _ & ?)|[_ ?]]; by simplify_eq.
    - destruct (search_name _ _ _ _ _ _); by simplify_eq.
    - destruct Hx as [(? & ? & _ & _ & ?)|[_ ?]]; by simplify_eq.
    - by simplify_eq. }
  assert (Hv' : forall v', spec ckn tk (CSearch n q e) v (OPanic v') -> v' = v).
  { intros v'. cbn [spec]. destruct (v_idx v !! n); [destruct (search_docs _ _ _ _ _); intros; by simplify_eq|].
    destruct (v_leakA v); [done|]. destruct (v_ali v !! n) as [[|x [|y l]]|]; intros Hx.
    - destruct Hx as [(? & ? & _ & _ & ?)|[_ ?]]; by simplify_eq.
    - destruct (search_name _ _ _ _ _ _); by simplify_eq.
    - destruct Hx as [(? & ? & _ & _ & ?)|[_ ?]]; by simplify_eq.
    - by simplify_eq. }
  destruct res as [r s'|s'| |].
  - destruct Hall as (v1 & b1 & [-> Hx] & Hf). pose proof (Hv _ _ Hx). by subst v1.
  - destruct Hall as (v1 & b1 & [-> Hx] & Hf). pose proof (Hv' _ Hx). by subst v1.
  - by destruct Hall as [b1 [_ Hx]].
  - by destruct Hall as [b1 [_ Hx]].
Qed.
Print Assumptions C71_good_search.

Example C71_example :
  (exists s, freach quote_fault true letters s p_view false) /\ f_text quote_fault "o'" = true /\
  f_text quote_fault "a" = false /\ is_Some (v_idx p_view !! "p").
Proof. split; [apply example_p|]. by split_and!. Qed.

(** An alias of two indices, as C71_search_crashes and C70_put_crashes need. *)
Definition two_view : view := MkView (<["r" := [dA]]> {["p" := [dA]]}) {["al" := ["p"; "r"]]} 0 false.
Definition duo_view : view := MkView (<["r" := [dA]]> {["p" := [dA]]}) ∅ 0 false.
Definition one_view : view := MkView (<["r" := [dA]]> {["p" := [dA]]}) {["al" := ["p"]]} 0 false.
Example C71_example_alias :
  (exists s, freach quote_fault true letters s two_view false) /\ v_idx two_view !! "al" = None /\
  v_ali two_view !! "al" = Some ["p"; "r"] /\ v_leakA two_view = false.
Proof.
  split; [|by split_and!]. destruct example_p as [s0 H0].
  destruct (freach_next _ _ _ _ _ (CPut "r" dA) duo_view false H0) as [s1 H1].
  { intros o b1 Ho. cbn in Ho. destruct Ho as [-> ->]. split; [left; by eexists|done]. }
  destruct (freach_next _ _ _ _ _ (CAlias "al" "p") one_view false H1) as [s2 H2].
  { intros o b1 Ho. cbn in Ho. destruct Ho as [-> ->]. split; [left; by eexists|done]. }
  apply (freach_next _ _ _ _ _ (CAlias "al" "r") _ false H2).
  intros o b1 Ho. cbn in Ho. rewrite decide_False in Ho by done.
  rewrite decide_False in Ho by (change ("r" ∉ ["p"]); by intros ?%elem_of_list_singleton).
  destruct Ho as [-> ->]. split; [|done]. left. exists (OBool true). unfold two_view.
  do 2 f_equal. by apply (bool_decide_unpack _).
Qed.
