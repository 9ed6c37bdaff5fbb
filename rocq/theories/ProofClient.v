(** * Client programs cannot tell concurrent calls from calls taken in turns. *)
From Coq Require Import Lia.
From stdpp Require Import list gmap.
From Verif Require Import Entities Search Repo Sem SpecRepo SpecConc SpecLin SpecHelp SpecClient.
Open Scope nat_scope.

Notation entry := (nat * view * view)%type.
Notation nums log := (log.*1.*1).

Section client.
  Context (ckn : bool) (tk : Tokenizer) (cs : list call).

  (** [p] makes the calls numbered [ns], gets the answers the log allows, and then
      meets [goal]; the last call may be left out. *)
  Inductive fits (log : list entry) (goal : client -> Prop) : client -> list nat -> Prop :=
  | fits_end p : goal p -> fits log goal p []
  | fits_last c k n : cs !! n = Some c -> goal (Ask c k) -> (forall a, goal (k a)) -> fits log goal (Ask c k) [n]
  | fits_cons c k n a ns :
      cs !! n = Some c -> (forall vb va, (n, vb, va) ∈ log -> explained ckn tk c a vb va) ->
      fits log goal (k a) ns -> fits log goal (Ask c k) (n :: ns).

  Lemma replay full goal own log v v' l :
    chain v log v' -> log ⊆ full ->
    (forall n vb va, (n, vb, va) ∈ log -> exists c, cs !! n = Some c /\ may_take ckn tk c vb va) ->
    (forall n, n ∈ nums log -> exists i, own n = Some i /\ i < length l) ->
    (forall i p, l !! i = Some p -> fits full (goal i) p (filter (fun n => own n = Some i) (nums log))) ->
    exists l', rtc (turn ckn tk) (Turn l v) (Turn l' v') /\ length l' = length l /\
      forall i p, l' !! i = Some p -> goal i p.
  Proof.
    intros Hch. revert l. induction Hch as [v|n v v1 log v2 Hch IH]; intros l Hsub Htk Hown Hfit.
    - exists l. split_and!; [apply rtc_refl|done|]. intros i p Hi. specialize (Hfit _ _ Hi). by inversion Hfit.
    - destruct (Hown n) as (i & Hi & Hlt); [by left|]. destruct (lookup_lt_is_Some_2 _ _ Hlt) as [p Hp].
      pose proof (Hfit _ _ Hp) as Hf. cbn [fmap list_fmap fst] in Hf. rewrite filter_cons, decide_True in Hf by done.
      assert (Hoff : forall j q, j <> i -> l !! j = Some q -> fits full (goal j) q (filter (fun n => own n = Some j) (nums log))).
      { intros j q Hj Hq. specialize (Hfit _ _ Hq). cbn [fmap list_fmap fst] in Hfit.
        by rewrite filter_cons, decide_False in Hfit by congruence. }
      assert (Hgo : forall l1, length l1 = length l ->
        (forall j q, l1 !! j = Some q -> fits full (goal j) q (filter (fun n => own n = Some j) (nums log))) ->
        exists l', rtc (turn ckn tk) (Turn l1 v1) (Turn l' v2) /\ length l' = length l /\ forall i p, l' !! i = Some p -> goal i p).
      { intros l1 Hl1 H. destruct (IH l1) as (l' & ? & ? & ?); [set_solver| | |done|].
        - intros m vb va Hm. apply Htk. by right.
        - intros m Hm. destruct (Hown m) as (j & ? & ?); [by right|]. exists j. split; [done|lia].
        - exists l'. split_and!; [done|lia|done]. }
      destruct (Htk n v v1) as (c & Hc & Hm); [by left|].
      inversion Hf as [|c0 k0 n0 Hc0 G1 G2 Ep En|c0 k0 n0 a0 ns Hc0 He Hr Ep En]; subst; rewrite Hc in Hc0; simplify_eq.
      + destruct Hm as [[a Ha]|[_ ->]].
        * destruct (Hgo (<[i := k0 a]> l)) as (l' & Hr & ? & ?); [by rewrite insert_length| |].
          -- intros j q [(<- & <- & _)|[Hne Hj]]%list_lookup_insert_Some; [|by apply Hoff].
             rewrite <- H. by apply fits_end.
          -- exists l'. split_and!; [|done..]. eapply rtc_l; [by eapply T_call|done].
        * apply Hgo; [done|]. intros j q Hj. destruct (decide (j = i)) as [->|Hne]; [|by apply Hoff].
          rewrite Hp in Hj. simplify_eq. rewrite <- H. by apply fits_end.
      + destruct (Hgo (<[i := k0 a0]> l)) as (l' & Hr' & ? & ?); [by rewrite insert_length| |].
        * intros j q [(<- & <- & _)|[Hne Hj]]%list_lookup_insert_Some; [done|by apply Hoff].
        * exists l'. split_and!; [|done..]. eapply rtc_l; [eapply T_call; [done|apply He, Hsub; by left]|done].
  Qed.

  (** [p] has made the calls numbered [ns] and is now at [q]. *)
  Inductive walks (log : list entry) : client -> list nat -> client -> Prop :=
  | walks_nil p : walks log p [] p
  | walks_cons c k n a ns q :
      cs !! n = Some c -> (exists vb va, (n, vb, va) ∈ log /\ explained ckn tk c a vb va) ->
      walks log (k a) ns q -> walks log (Ask c k) (n :: ns) q.

  Lemma walks_log log log' p ns q : log ⊆ log' -> walks log p ns q -> walks log' p ns q.
  Proof.
    intros Hs H. induction H as [|c k n a ns q Hc (vb & va & Hin & He) H IH]; [constructor|].
    econstructor; [done| |done]. exists vb, va. split; [by apply Hs|done].
  Qed.
  Lemma walks_snoc log p ns c k n a :
    walks log p ns (Ask c k) -> cs !! n = Some c -> (exists vb va, (n, vb, va) ∈ log /\ explained ckn tk c a vb va) ->
    walks log p (ns ++ [n]) (k a).
  Proof.
    intros H Hc He. remember (Ask c k) as q eqn:E. induction H as [|c' k' n' a' ns q Hc' He' H IH]; subst.
    - econstructor; [done..|constructor].
    - simpl. econstructor; [done..|]. by apply IH.
  Qed.
  Lemma walks_prefix log p ns1 ns2 q : walks log p (ns1 ++ ns2) q -> exists q', walks log p ns1 q' /\ walks log q' ns2 q.
  Proof.
    revert p. induction ns1 as [|n ns1 IH]; intros p H; simpl in H; [exists p; split; [constructor|done]|].
    inversion H as [|c k n' a ns q' Hc He Hw]; subst. destruct (IH _ Hw) as (q' & ? & ?). exists q'. split; [|done].
    by econstructor.
  Qed.

  Lemma unique_entry (log : list entry) n vb va vb' va' :
    NoDup (nums log) -> (n, vb, va) ∈ log -> (n, vb', va') ∈ log -> vb = vb' /\ va = va'.
  Proof.
    intros Hn. induction log as [|[[m x] y] log IH]; [intros H; by apply elem_of_nil in H|].
    cbn [fmap list_fmap fst] in Hn. apply NoDup_cons in Hn as [Hm Hn].
    assert (Hno : forall x y, (m, x, y) ∉ log).
    { intros x' y' Hin. apply Hm. apply elem_of_list_fmap. exists (m, x'). split; [done|]. apply elem_of_list_fmap. by exists (m, x', y'). }
    intros [E1|H1]%elem_of_cons [E2|H2]%elem_of_cons; simplify_eq; [done|by destruct (Hno _ _ H2)|by destruct (Hno _ _ H1)|by apply IH].
  Qed.

  Lemma walks_fits (log : list entry) (goal : client -> Prop) p ns q rest :
    NoDup (nums log) -> walks log p ns q -> fits log goal q rest -> fits log goal p (ns ++ rest).
  Proof.
    intros Hn H Hf. induction H as [|c k n a ns q Hc (vb & va & Hin & He) H IH]; [done|]. simpl.
    eapply (fits_cons _ _ _ _ _ a); [done| |by apply IH].
    intros vb' va' Hin'. by destruct (unique_entry _ _ _ _ _ _ Hn Hin Hin') as [-> ->].
  Qed.
  Lemma walks_goal log (goal : client -> Prop) p ns q : NoDup (nums log) -> walks log p ns q -> goal q -> fits log goal p ns.
  Proof. intros Hn H Hg. rewrite <- (app_nil_r ns). eapply walks_fits; [done..|]. by constructor. Qed.

  (** ** The invariant *)

  Context (v0 : view) (L : list thr -> repo -> gmap nat nat -> list entry -> Prop).
  Context (HLlin : forall ts s begun log, L ts s begun log -> linearized ckn tk v0 cs ts s log).
  Context (HLstep : forall ts s begun log i t t' s2,
      L ts s begun log -> ts !! i = Some t -> tstep s t (TNext t' s2) ->
      exists now, L (<[i := t']> ts) s2 (begun ∪ {[i := length log]}) (log ++ now) /\
        forall j, j ∈ nums now -> j = i \/ is_Some (begun !! j)).
  Context (HLdie : forall ts s begun log i t,
      L ts s begun log -> ts !! i = Some t -> tstep s t TCrash ->
      exists from, begun !! i = Some from /\ deadly ckn tk v0 cs log from i).
  Context (HLlen : forall ts s begun log, L ts s begun log -> length ts = length cs).

  Notation of own i ns := (filter (fun n => own n = Some i) ns).

  Definition over (ts : list thr) (h : list nat) : Prop := forall m, m ∈ h -> exists t, ts !! m = Some t /\ finished t.

  (** The calls [h] of the client number [i] are over; a call that runs has taken
      effect or not. *)
  Definition client_ok (ts : list thr) (begun : gmap nat nat) (log : list entry) (own : nat -> option nat)
    (i : nat) (p0 : client) (x : cstate) (h : list nat) : Prop :=
    match x with
    | Idle q => walks log p0 h q /\ over ts h /\ (forall m, own m = Some i -> m ∈ h) /\ of own i (nums log) = h
    | Busy c t k => exists n,
        walks log p0 h (Ask c k) /\ over ts h /\ cs !! n = Some c /\ ts !! n = Some t /\ own n = Some i /\ n ∉ h /\
        (forall m, own m = Some i -> m ∈ h \/ m = n) /\
        (of own i (nums log) = h \/ of own i (nums log) = h ++ [n]) /\
        forall from, begun !! n = Some from -> h ⊆ take from (nums log)
    end.

  Record winv (ps : list client) (l : list cstate) (s : repo) (cs1 : list call) (ts : list thr)
    (begun : gmap nat nat) (log : list entry) (own : nat -> option nat) : Prop := {
    wi_L : L ts s begun log;
    wi_len : length l = length ps;
    wi_own : forall m i, own m = Some i -> m < length cs1 /\ i < length ps;
    wi_owned : forall m, m < length cs1 -> is_Some (own m);
    wi_todo : forall m c, length cs1 <= m -> cs !! m = Some c -> ts !! m = Some (TRun (prog_of c)) /\ begun !! m = None;
    wi_log : forall m, m ∈ nums log -> m < length cs1;
    wi_client : forall i p0 x, ps !! i = Some p0 -> l !! i = Some x -> exists h, client_ok ts begun log own i p0 x h }.

  Lemma filter_ext_in (P Q : nat -> Prop) `{!forall x, Decision (P x), !forall x, Decision (Q x)} (l : list nat) :
    (forall x, x ∈ l -> P x <-> Q x) -> filter P l = filter Q l.
  Proof.
    induction l as [|x l IH]; [done|]. intros Hiff. rewrite !filter_cons. rewrite IH by (intros y Hy; apply Hiff; by right).
    pose proof (Hiff x ltac:(by left)) as Hx. destruct (decide (P x)), (decide (Q x)); tauto.
  Qed.

  Lemma step_ask ps l s cs1 ts begun log own i c k :
    winv ps l s cs1 ts begun log own -> l !! i = Some (Idle (Ask c k)) -> cs1 ++ [c] `prefix_of` cs ->
    exists own', winv ps (<[i := Busy c (TRun (prog_of c)) k]> l) s (cs1 ++ [c]) ts begun log own'.
  Proof.
    intros [HL Hlen Hown Howned Htodo Hlog Hcl] Hi Hpre.
    assert (Hn : cs !! length cs1 = Some c).
    { destruct Hpre as [r ->]. rewrite <- app_assoc. by apply list_lookup_middle. }
    set (own' := fun m => if decide (m = length cs1) then Some i else own m).
    assert (Ho : forall m j, own m = Some j -> own' m = Some j).
    { intros m j Hm. unfold own'. rewrite decide_False; [done|]. apply Hown in Hm. lia. }
    assert (Ho' : forall m j, own' m = Some j -> own m = Some j \/ (m = length cs1 /\ j = i)).
    { intros m j. unfold own'. case_decide; [intros; simplify_eq; by right|by left]. }
    assert (Hof : forall j, of own' j (nums log) = of own j (nums log)).
    { intros j. apply filter_ext_in. intros m Hm. split; [|apply Ho]. intros [?|[-> _]]%Ho'; [done|]. apply Hlog in Hm. lia. }
    exists own'. split.
    - done.
    - by rewrite insert_length.
    - intros m j [Hm|[-> ->]]%Ho'; rewrite app_length; simpl.
      + apply Hown in Hm. lia.
      + split; [lia|]. rewrite <- Hlen. by eapply lookup_lt_Some.
    - intros m. rewrite app_length. simpl. intros Hm. unfold own'. case_decide; [eauto|]. apply Howned. lia.
    - intros m c'. rewrite app_length. simpl. intros Hm. apply Htodo. lia.
    - intros m Hm. rewrite app_length. apply Hlog in Hm. lia.
    - intros j p0 x Hp Hx. apply list_lookup_insert_Some in Hx as [(<- & <- & _)|[Hne Hx]].
      + destruct (Hcl _ _ _ Hp Hi) as (h & Hw & Hov & Hh & Hf). exists h, (length cs1).
        destruct (Htodo (length cs1) c) as [Ht Hb]; [done..|].
        split_and!; [done|done|done|done| | | | |].
        * unfold own'. by rewrite decide_True.
        * rewrite <- Hf. intros Hm%elem_of_list_filter. destruct Hm as [_ Hm]. apply Hlog in Hm. lia.
        * intros m [Hm|[-> _]]%Ho'; [left; by apply Hh|by right].
        * left. by rewrite Hof.
        * intros from. by rewrite Hb.
      + destruct (Hcl _ _ _ Hp Hx) as (h & Hok). exists h. unfold client_ok in *. rewrite Hof.
        assert (Hoj : forall m, own' m = Some j -> own m = Some j). { intros m [?|[_ ->]]%Ho'; done. }
        destruct x as [q|c' t' k'].
        * destruct Hok as (? & ? & Hh & ?). split_and!; [done|done| |done]. intros m Hm%Hoj. by apply Hh.
        * destruct Hok as (n & ? & ? & ? & ? & ? & ? & Hh & ?). exists n. split_and!; try done; [by apply Ho| |naive_solver..].
          intros m Hm%Hoj. by apply Hh.
  Qed.

  Lemma of_now (own : nat -> option nat) (i : nat) (h : list nat) (log now : list entry) :
    NoDup (nums (log ++ now)) -> (forall m, own m = Some i -> m ∈ h) -> (forall m, m ∈ h -> m ∈ nums log) ->
    of own i (nums now) = [].
  Proof.
    intros Hn Hh Hl. rewrite !fmap_app in Hn. apply NoDup_app in Hn as (_ & Hd & _).
    destruct (of own i (nums now)) as [|m r] eqn:E; [done|exfalso].
    assert (Hm : m ∈ of own i (nums now)) by (rewrite E; by left). apply elem_of_list_filter in Hm as [Ho Hm].
    by apply (Hd m); auto.
  Qed.

  Lemma step_run ps l s cs1 ts begun log own i c t k t' s' :
    winv ps l s cs1 ts begun log own -> l !! i = Some (Busy c t k) -> tstep s t (TNext t' s') -> i < length ps ->
    exists ts' begun' log', winv ps (<[i := Busy c t' k]> l) s' cs1 ts' begun' log' own.
  Proof.
    intros [HL Hlen Hown Howned Htodo Hlog Hcl] Hi Hs Hlt.
    destruct (lookup_lt_is_Some_2 _ _ Hlt) as [p0 Hp].
    destruct (Hcl _ _ _ Hp Hi) as (h & n & Hw & Hov & Hc & Ht & Hon & Hnh & Hh & Hf & Hfrom).
    assert (Hnf : ~ finished t) by (intros Hf'; destruct t as [[]| | |]; try done; by inversion Hs).
    destruct (HLstep _ _ _ _ _ _ _ _ HL Ht Hs) as (now & HL' & Hnow).
    assert (Hov' : forall h0, over ts h0 -> over (<[n := t']> ts) h0).
    { intros h0 Ho m Hm. destruct (Ho _ Hm) as (t0 & Ht0 & Hf0). exists t0. rewrite list_lookup_insert_ne; [done|].
      intros <-. simplify_eq. by apply Hnf. }
    pose proof (HLlin _ _ _ _ HL') as [Hnd Hcalls _].
    assert (Hnl : n < length ts) by (by eapply lookup_lt_Some).
    assert (Hn1 : n < length cs1) by (by eapply Hown).
    assert (Hsub : log ⊆ log ++ now) by (intros x Hx; apply elem_of_app; by left).
    assert (Htake : forall from, take from (nums log) ⊆ take from (nums (log ++ now))).
    { intros from x Hx. rewrite !fmap_app.
      apply elem_of_list_lookup in Hx as [j Hj]. apply lookup_take_Some in Hj as [Hj Hlt'].
      apply elem_of_list_lookup. exists j. apply lookup_take_Some. split; [by apply lookup_app_l_Some|done]. }
    exists (<[n := t']> ts), (begun ∪ {[n := length log]}), (log ++ now). split.
    - done.
    - by rewrite insert_length.
    - done.
    - done.
    - intros m c' Hm Hc'. destruct (Htodo m c' Hm Hc') as [? Hb]. split; [by rewrite list_lookup_insert_ne by lia|].
      apply lookup_union_None. split; [done|]. apply lookup_singleton_ne. lia.
    - intros m. rewrite !fmap_app. intros [Hm|Hm]%elem_of_app; [by apply Hlog|].
      destruct (Hnow _ Hm) as [->|[from Hb]]; [done|]. destruct (decide (m < length cs1)) as [|Hge]; [done|exfalso].
      destruct (lookup_lt_is_Some_2 cs m) as [c' Hc']; [apply Hcalls; rewrite !fmap_app; apply elem_of_app; by right|].
      destruct (Htodo m c') as [_ ?]; [lia|done|congruence].
    - intros j p x Hpj Hx.
      assert (Hbusy : forall h0 n0 c0 t0 t1 k0,
        walks log p h0 (Ask c0 k0) -> over ts h0 -> cs !! n0 = Some c0 -> ts !! n0 = Some t0 -> own n0 = Some j -> n0 ∉ h0 ->
        (forall m, own m = Some j -> m ∈ h0 \/ m = n0) ->
        (of own j (nums log) = h0 \/ of own j (nums log) = h0 ++ [n0]) ->
        (forall from, begun !! n0 = Some from -> h0 ⊆ take from (nums log)) ->
        <[n := t']> ts !! n0 = Some t1 ->
        client_ok (<[n := t']> ts) (begun ∪ {[n := length log]}) (log ++ now) own j p (Busy c0 t1 k0) h0).
      { intros h0 n0 c0 t0 t1 k0 G1 G1' G2 G3 G4 G5 G6 G7 G8 G9.
        assert (Hin : forall m, m ∈ h0 -> m ∈ nums log).
        { intros m Hm. assert (m ∈ of own j (nums log)) as Hx' by (destruct G7 as [->| ->]; [done|apply elem_of_app; by left]).
          by apply elem_of_list_filter in Hx' as [_ ?]. }
        exists n0. split_and!; try done; [by eapply walks_log|by apply Hov'| |].
        - rewrite !fmap_app, filter_app.
          assert (Hd : NoDup (nums log ++ nums now)) by (by rewrite <- !fmap_app). apply NoDup_app in Hd as (_ & Hd1 & Hd2).
          assert (Hnn : forall m, m ∈ of own j (nums now) -> m = n0 /\ m ∈ nums now).
          { intros m [Ho Hm]%elem_of_list_filter. destruct (G6 _ Ho) as [Hm0| ->]; [|done]. exfalso. by apply (Hd1 m); auto. }
          assert (Hndf : NoDup (of own j (nums now))) by (by apply NoDup_filter).
          destruct G7 as [E|E].
          + rewrite E. destruct (of own j (nums now)) as [|m [|m' r]] eqn:Er.
            * left. by rewrite app_nil_r.
            * right. destruct (Hnn m) as [-> _]; [by left|done].
            * exfalso. destruct (Hnn m) as [-> _]; [by left|]. destruct (Hnn m') as [-> _]; [right; by left|].
              apply NoDup_cons in Hndf as [Hx' _]. apply Hx'. by left.
          + right. rewrite E. destruct (of own j (nums now)) as [|m r] eqn:Er; [by rewrite app_nil_r|exfalso].
            destruct (Hnn m) as [-> Hm]; [by left|]. apply (Hd1 n0); [|done].
            assert (n0 ∈ of own j (nums log)) as Hx' by (rewrite E; apply elem_of_app; right; by left).
            by apply elem_of_list_filter in Hx' as [_ ?].
        - intros from [Hb|[_ Hb]]%lookup_union_Some_raw.
          + intros m Hm. by apply Htake, (G8 _ Hb).
          + apply lookup_singleton_Some in Hb as [_ <-]. intros m Hm.
            apply Htake. rewrite take_ge by (by rewrite !fmap_length). by apply Hin. }
      apply list_lookup_insert_Some in Hx as [(<- & <- & _)|[Hne Hx]].
      + exists h. rewrite Hp in Hpj. simplify_eq. eapply Hbusy; try done. by apply list_lookup_insert.
      + destruct (Hcl _ _ _ Hpj Hx) as (h0 & Hok). exists h0. destruct x as [q|c0 t0 k0].
        * destruct Hok as (G1 & G1' & G2 & G3). split_and!; [by eapply walks_log|by apply Hov'|done|].
          rewrite !fmap_app, filter_app, G3.
          rewrite (of_now own j h0 log now); [by rewrite app_nil_r|done|done|].
          intros m. rewrite <- G3. by intros [_ ?]%elem_of_list_filter.
        * destruct Hok as (n0 & G1 & G1' & G2 & G3 & G4 & G5 & G6 & G7 & G8). eapply Hbusy; try done.
          rewrite list_lookup_insert_ne; [done|]. intros ->. congruence.
  Qed.

  Lemma step_back ps l s cs1 ts begun log own i c t k a p :
    winv ps l s cs1 ts begun log own -> l !! i = Some (Busy c t k) -> i < length ps ->
    t = TRun p -> finished t -> (forall a', answers p a' -> (forall r, p = Ret r -> a' = Returned (see s r)) -> a' = a) ->
    winv ps (<[i := Idle (k a)]> l) s cs1 ts begun log own.
  Proof.
    intros [HL Hlen Hown Howned Htodo Hlog Hcl] Hi Hlt -> Hfin Ha.
    destruct (lookup_lt_is_Some_2 _ _ Hlt) as [p0 Hp].
    destruct (Hcl _ _ _ Hp Hi) as (h & n & Hw & Hov & Hc & Ht & Hon & Hnh & Hh & Hf & Hfrom).
    pose proof (HLlin _ _ _ _ HL) as [Hnd Hcalls (v & Hch & Htk & Hans & _)].
    destruct (Hans _ _ Ht Hfin) as (c' & a' & vb & va & Hc' & Hin & He & Han & Hr). rewrite Hc in Hc'. simplify_eq.
    pose proof (Ha _ Han Hr) as ->.
    split; try done; [by rewrite insert_length|].
    intros j q x Hq Hx. apply list_lookup_insert_Some in Hx as [(<- & <- & _)|[Hne Hx]]; [|by eauto].
    rewrite Hp in Hq. simplify_eq. exists (h ++ [n]). split_and!.
    - eapply walks_snoc; [done..|]. eauto.
    - intros m [Hm| ->%elem_of_list_singleton]%elem_of_app; [by apply Hov|eauto].
    - intros m [?| ->]%Hh; apply elem_of_app; [by left|right; by left].
    - destruct Hf as [E|E]; [exfalso|done]. apply Hnh. rewrite <- E. apply elem_of_list_filter. split; [done|].
      apply elem_of_list_fmap. exists (n, vb). split; [done|]. apply elem_of_list_fmap. by exists (n, vb, va).
  Qed.

  Lemma winv_start ps s : L (start cs) s ∅ [] -> winv ps (Idle <$> ps) s [] (start cs) ∅ [] (fun _ => None).
  Proof.
    intros H0. split; try done.
    - by rewrite fmap_length.
    - intros m Hm. simpl in Hm. lia.
    - intros m c _ Hc. split; [|done]. unfold start. by rewrite list_lookup_fmap, Hc.
    - intros m Hm. by apply elem_of_nil in Hm.
    - intros i p0 x Hp Hx. rewrite list_lookup_fmap, Hp in Hx. simplify_eq/=. exists []. split_and!; [constructor| |done|done].
      intros m Hm. by apply elem_of_nil in Hm.
  Qed.

  Lemma winv_reach ps s l s' cs1 :
    L (start cs) s ∅ [] -> rtc wstep (Live (Idle <$> ps) s []) (Live l s' cs1) -> cs1 `prefix_of` cs ->
    exists ts begun log own, winv ps l s' cs1 ts begun log own.
  Proof.
    intros H0 Hr.
    refine (rtc_ind_r (R := wstep) (fun w => match w with
      | Live l s' cs1 => cs1 `prefix_of` cs -> exists ts begun log own, winv ps l s' cs1 ts begun log own
      | Dead => True end) (Live (Idle <$> ps) s []) _ _ _ Hr).
    - intros _. eexists _, _, _, _. by apply winv_start.
    - intros y z _ Hs IH. inversion Hs as [l1 s1 cs2 i c k Hi|l1 s1 cs2 i c t k t' s2 Hi Ht|l1 s1 cs2 i c r k Hi|l1 s1 cs2 i c k Hi|]; subst; try done; intros Hpre.
      + destruct IH as (ts & begun & log & own & HI); [etrans; [by eexists|done]|].
        destruct (step_ask _ _ _ _ _ _ _ _ _ _ _ HI Hi Hpre) as [own' HI']. eauto 10.
      + destruct (IH Hpre) as (ts & begun & log & own & HI).
        destruct (step_run _ _ _ _ _ _ _ _ _ _ _ _ _ _ HI Hi Ht) as (? & ? & ? & ?); [|eauto 10].
        rewrite <- (wi_len _ _ _ _ _ _ _ _ HI). by eapply lookup_lt_Some.
      + destruct (IH Hpre) as (ts & begun & log & own & HI). exists ts, begun, log, own.
        eapply step_back; [done|done| |done|done|intros a' _ Ha; by apply Ha].
        rewrite <- (wi_len _ _ _ _ _ _ _ _ HI). by eapply lookup_lt_Some.
      + destruct (IH Hpre) as (ts & begun & log & own & HI). exists ts, begun, log, own.
        eapply step_back; [done|done| |done|done|intros a' Ha _; by destruct a'].
        rewrite <- (wi_len _ _ _ _ _ _ _ _ HI). by eapply lookup_lt_Some.
  Qed.

  Lemma winv_turns ps l s cs1 ts begun log own :
    winv ps l s cs1 ts begun log own ->
    exists ps' v, rtc (turn ckn tk) (Turn ps v0) (Turn ps' v) /\ Forall2 at_turn l ps' /\
      (at_rest s \/ (cs1 = cs /\ Forall idle l) -> shows tk s v).
  Proof.
    intros [HL Hlen Hown Howned Htodo Hlog Hcl].
    pose proof (HLlin _ _ _ _ HL) as [Hnd Hcalls (v & Hch & Htk & Hans & Hsh)].
    destruct (replay log (fun i p => forall x, l !! i = Some x -> at_turn x p) own log v0 v ps) as (ps' & Hr & Hl & Hg); [done..| | |].
    - intros n Hn. destruct (Howned n) as [i Hi]; [by apply Hlog|]. exists i. split; [done|]. by eapply Hown.
    - intros i p0 Hp. destruct (lookup_lt_is_Some_2 l i) as [x Hx]; [rewrite Hlen; by eapply lookup_lt_Some|].
      destruct (Hcl _ _ _ Hp Hx) as [h Hok]. destruct x as [q|c t k].
      + destruct Hok as (Hw & _ & _ & ->). eapply walks_goal; [done..|]. intros x Hx'. by simplify_eq.
      + destruct Hok as (n & Hw & _ & Hc & _ & _ & _ & _ & Hf & _).
        assert (G1 : forall x, l !! i = Some x -> at_turn x (Ask c k)) by (intros x Hx'; simplify_eq; by left).
        assert (G2 : forall a x, l !! i = Some x -> at_turn x (k a)) by (intros a x Hx'; simplify_eq; right; eauto).
        destruct Hf as [->| ->]; [by eapply walks_goal|]. eapply walks_fits; [done..|]. by apply fits_last.
    - exists ps', v. split_and!; [done| |].
      2:{ intros [Hq|[-> Hidle]]; apply Hsh; [by left|right]. apply Forall_lookup_2. intros m t Ht.
        destruct (Howned m) as [i Hi]; [rewrite <- (HLlen _ _ _ _ HL); by eapply lookup_lt_Some|].
        destruct (Hown _ _ Hi) as [_ Hlt]. destruct (lookup_lt_is_Some_2 _ _ Hlt) as [p0 Hp].
        destruct (lookup_lt_is_Some_2 l i) as [x Hx]; [by rewrite Hlen|].
        destruct (Hcl _ _ _ Hp Hx) as [h Hok]. pose proof (Forall_lookup_1 _ _ _ _ Hidle Hx) as Hid. destruct x as [q|]; [|done].
        destruct Hok as (_ & Hov & Hh & _). destruct (Hov m (Hh _ Hi)) as (t0 & Ht0 & ?). by simplify_eq. }
      apply Forall2_same_length_lookup. split; [lia|]. intros i x p Hx Hp. by eapply Hg.
  Qed.

  Lemma winv_die ps l s cs1 ts begun log own i c t k :
    winv ps l s cs1 ts begun log own -> l !! i = Some (Busy c t k) -> tstep s t TCrash ->
    rtc (turn ckn tk) (Turn ps v0) Over.
  Proof.
    intros [HL Hlen Hown Howned Htodo Hlog Hcl] Hi Hs.
    pose proof (HLlin _ _ _ _ HL) as [Hnd Hcalls _].
    destruct (lookup_lt_is_Some_2 ps i) as [p0 Hp]; [rewrite <- Hlen; by eapply lookup_lt_Some|].
    destruct (Hcl _ _ _ Hp Hi) as (h & n & Hw & _ & Hc & Ht & Hon & Hnh & Hh & Hf & Hfrom).
    destruct (HLdie _ _ _ _ _ _ HL Ht Hs) as (from & Hb & log1 & v1 & j & c' & Hch & Hpre & Hex & Hj & Hcr & Hcase).
    specialize (Hfrom _ Hb).
    (* the client of the call that kills *)
    assert (Hkill : exists i1, own j = Some i1 /\ i1 < length ps /\ forall p, ps !! i1 = Some p ->
      exists h1 h2 q, walks log p (h1 ++ h2) q /\ of own i1 (nums log1) = h1 /\
        ((exists h3, h2 = j :: h3) \/ (h2 = [] /\ exists k', q = Ask c' k'))).
    { destruct Hcase as [[r Er]|(-> & Hni & Hle)].
      - assert (Hjl : j ∈ nums log) by (rewrite Er; apply elem_of_app; left; apply elem_of_app; right; by left).
        destruct (Howned j) as [i1 Hi1]; [by apply Hlog|]. exists i1. split; [done|]. split; [by eapply Hown|]. intros p Hp1.
        destruct (lookup_lt_is_Some_2 l i1) as [x Hx]; [rewrite Hlen; by eapply lookup_lt_Some|].
        destruct (Hcl _ _ _ Hp1 Hx) as [hh Hok].
        assert (Ef : of own i1 (nums log) = of own i1 (nums log1) ++ j :: of own i1 r).
        { rewrite Er, !filter_app, <- app_assoc. f_equal. rewrite filter_cons, decide_True by done. done. }
        destruct x as [q|c1 t1 k1].
        + destruct Hok as (Hw1 & _ & _ & Ef1). rewrite Ef in Ef1. exists (of own i1 (nums log1)), (j :: of own i1 r), q.
          rewrite Ef1. split_and!; [done|done|left; eauto].
        + destruct Hok as (n1 & Hw1 & _ & Hc1 & _ & _ & _ & _ & [Ef1|Ef1] & _).
          * rewrite Ef in Ef1. exists (of own i1 (nums log1)), (j :: of own i1 r), (Ask c1 k1).
            rewrite Ef1. split_and!; [done|done|left; eauto].
          * rewrite Ef in Ef1. destruct (of own i1 r) as [|m r'] eqn:Em using rev_ind.
            -- apply app_inj_tail in Ef1 as [Ef1 ->]. exists hh, [], (Ask c1 k1). rewrite app_nil_r.
               split_and!; [done|done|]. right. split; [done|]. rewrite Hj in Hc1. simplify_eq. eauto.
            -- rewrite app_comm_cons, app_assoc in Ef1. apply app_inj_tail in Ef1 as [Ef1 _].
               exists (of own i1 (nums log1)), (j :: r'), (Ask c1 k1). rewrite Ef1. split_and!; [done|done|left; eauto].
      - exists i. split; [done|]. split; [by eapply lookup_lt_Some|]. intros p Hp1. rewrite Hp in Hp1. simplify_eq.
        exists h, [], (Ask c k). rewrite app_nil_r. split_and!; [done| |right; eauto].
        destruct Hpre as [r ->]. rewrite !fmap_app in Hf, Hfrom, Hnd. rewrite filter_app in Hf.
        assert (Hin : forall m, m ∈ h -> m ∈ of own i (nums log1)).
        { intros m Hm. apply elem_of_list_filter. split.
          - assert (m ∈ of own i (nums log1) ++ of own i (nums r)) as Hx.
            { destruct Hf as [->| ->]; [done|apply elem_of_app; by left]. }
            rewrite <- filter_app in Hx. by apply elem_of_list_filter in Hx as [? _].
          - specialize (Hfrom _ Hm). rewrite take_app_le in Hfrom by (rewrite !fmap_length; lia).
            by eapply elem_of_take in Hfrom as (? & ? & _); eapply elem_of_list_lookup_2. }
        assert (Hlast : forall x, x ∈ of own i (nums r) -> x = n).
        { intros x Hx. assert (x ∈ of own i (nums log1) ++ of own i (nums r)) as Hx' by (apply elem_of_app; by right).
          destruct (Hh x) as [Hxh| ->]; [by apply elem_of_list_filter in Hx as [? _]| |done]. exfalso.
          apply NoDup_app in Hnd as (_ & Hd & _). apply elem_of_list_filter in Hx as [_ Hx].
          apply Hin, elem_of_list_filter in Hxh as [_ Hxh]. by apply (Hd x). }
        destruct Hf as [E|E].
        + destruct (of own i (nums r)) as [|x ?] eqn:Er; [by rewrite app_nil_r in E|].
          exfalso. apply Hnh. rewrite <- E. apply elem_of_app. right. rewrite (Hlast x) by (by left). by left.
        + destruct (of own i (nums r)) as [|x ?] eqn:Er using rev_ind.
          * exfalso. rewrite app_nil_r in E. apply Hni.
            assert (n ∈ of own i (nums log1)) as Hx by (rewrite E; apply elem_of_app; right; by left).
            by apply elem_of_list_filter in Hx as [_ ?].
          * rewrite app_assoc in E. apply app_inj_tail in E as [E ->].
            destruct l0 as [|y l0]; [by rewrite app_nil_r in E|]. exfalso. apply Hnh. rewrite <- E.
            apply elem_of_app. right. rewrite (Hlast y) by (by left). by left. }
    destruct Hkill as (i1 & Hi1 & Hlt1 & Hkill).
    assert (Hsub : log1 ⊆ log). { destruct Hpre as [r ->]. intros x Hx. apply elem_of_app. by left. }
    destruct (replay log (fun i p => i = i1 -> exists k', p = Ask c' k') own log1 v0 v1 ps) as (ps' & Hr & Hl & Hg); [done|done|..].
    - intros m vb va Hm. destruct (Hex _ _ _ Hm) as (c1 & a & ? & ?). exists c1. split; [done|]. left. eauto.
    - intros m Hm. destruct (Howned m) as [i2 Hi2].
      { apply Hlog. apply elem_of_list_fmap in Hm as (y & -> & Hm). apply elem_of_list_fmap in Hm as (z & -> & Hm).
        apply elem_of_list_fmap. eexists. split; [done|]. apply elem_of_list_fmap. eexists. split; [done|by apply Hsub]. }
      exists i2. split; [done|]. by eapply Hown.
    - intros i2 p2 Hp2. destruct (decide (i2 = i1)) as [->|Hne].
      + destruct (Hkill _ Hp2) as (h1 & h2 & q & Hw1 & -> & Hq). apply walks_prefix in Hw1 as (q' & Hw1 & Hw2).
        eapply walks_goal; [done..|]. intros _. destruct Hq as [[h3 ->]|[-> Hq]].
        * inversion Hw2; simplify_eq. eauto.
        * by inversion Hw2; subst.
      + destruct (lookup_lt_is_Some_2 l i2) as [x Hx]; [rewrite Hlen; by eapply lookup_lt_Some|].
        destruct (Hcl _ _ _ Hp2 Hx) as [hh Hok]. destruct Hpre as [r ->].
        assert (Hshort : forall h2 q, walks (log1 ++ r) p2 (of own i2 (nums log1) ++ h2) q ->
          fits (log1 ++ r) (fun p => i2 = i1 -> exists k', p = Ask c' k') p2 (of own i2 (nums log1))).
        { intros h2 q (q' & Hw1 & _)%walks_prefix. by eapply walks_goal. }
        destruct x as [q|c1 t1 k1].
        * destruct Hok as (Hw1 & _ & _ & Ef). rewrite !fmap_app, filter_app in Ef. subst hh. by eapply Hshort.
        * destruct Hok as (n1 & Hw1 & _ & Hc1 & _ & _ & _ & _ & [Ef|Ef] & _); rewrite !fmap_app, filter_app in Ef; [subst hh; by eapply Hshort|].
          destruct (of own i2 (nums r)) as [|m r'] eqn:Em using rev_ind.
          -- rewrite app_nil_r in Ef. rewrite Ef. eapply walks_fits; [done..|]. by apply fits_last.
          -- rewrite app_assoc in Ef. apply app_inj_tail in Ef as [Ef _]. subst hh. by eapply Hshort.
    - destruct (lookup_lt_is_Some_2 ps' i1) as [p1 Hp1]; [lia|]. destruct (Hg _ _ Hp1 eq_refl) as [k' ->].
      eapply rtc_r; [done|]. by eapply T_die.
  Qed.
End client.
