(** * Property C85: programs that use the repo at once. *)
From Coq Require Import Lia.
From stdpp Require Import gmap list.
From Verif Require Import Entities Search SpecSearch Properties_Search Repo Sem RepoWp SpecRepo
  ProofRepo ProofTotal ProofReach Properties_Repo SpecConc Locks Race ProofRace Reduce ProofConc ProofSim Run
  Properties_Conc SpecLin ProofMachine ProofLin Properties_Lin Serial Properties_Clash SpecHelp ProofHelp Properties_Help
  SpecClient ProofClient ProofExact.
Open Scope nat_scope.
Open Scope string_scope.
Open Scope list_scope.

Lemma within_clients ckn tk s v cs :
  tracks ckn tk s v -> unblocked v -> gentle v cs ->
  exists L : list thr -> repo -> gmap nat nat -> list (nat * view * view) -> Prop,
    L (start cs) s ∅ [] /\
    (forall ts s begun log, L ts s begun log -> linearized ckn tk v cs ts s log) /\
    (forall ts s begun log i t t' s2,
      L ts s begun log -> ts !! i = Some t -> tstep s t (TNext t' s2) ->
      exists now, L (<[i := t']> ts) s2 (begun ∪ {[i := length log]}) (log ++ now) /\
        forall j, j ∈ now.*1.*1 -> j = i \/ is_Some (begun !! j)) /\
    (forall ts s begun log i t,
      L ts s begun log -> ts !! i = Some t -> tstep s t TCrash ->
      exists from, begun !! i = Some from /\ deadly ckn tk v cs log from i) /\
    (forall ts s begun log, L ts s begun log -> length ts = length cs).
Proof.
  intros Ht Hu Hg. destruct (C83_linearizable _ _ _ _ _ Ht Hu Hg) as (L & H0 & H1 & H2 & H3).
  exists (fun ts s begun log => L ts s begun log /\ length ts = length cs). split_and!.
  - done.
  - unfold start. by rewrite fmap_length.
  - intros ? ? ? ? [? _]. by eapply H1.
  - intros ? ? ? ? ? ? ? ? [HL Hl] Hi Hs. destruct (H2 _ _ _ _ _ _ _ _ HL Hi Hs) as (now & ? & ?).
    exists now. split; [|done]. split; [done|]. by rewrite insert_length.
  - intros ? ? ? ? ? ? [HL _] Hi Hs. by eapply H3.
  - by intros ? ? ? ? [_ ?].
Qed.

(** Clients running at once: whatever they have seen so far, they see it too if they
    take turns, one call at a time; and while no call is changing the tables, or no
    call runs, the repo is as it is then. *)
Theorem C85_clients :
  forall ckn tk s v ps l s' cs,
    tracks ckn tk s v -> unblocked v -> rtc wstep (Live (Idle <$> ps) s []) (Live l s' cs) -> gentle v cs ->
    exists ps' v',
      rtc (turn ckn tk) (Turn ps v) (Turn ps' v') /\ Forall2 at_turn l ps' /\
      (at_rest s' \/ Forall idle l -> shows tk s' v').
Proof.
  intros ckn tk s v ps l s' cs Ht Hu Hr Hg.
  destruct (within_clients _ _ _ _ _ Ht Hu Hg) as (L & H0 & H1 & H2 & H3 & H4).
  destruct (winv_reach ckn tk cs v L H1 H2 H3 H4 ps s l s' cs H0 Hr ltac:(done)) as (ts & begun & log & own & HI).
  destruct (winv_turns ckn tk cs v L H1 H4 _ _ _ _ _ _ _ _ HI) as (ps' & v' & G1 & G2 & G3).
  exists ps', v'. split_and!; [done..|]. intros [?|?]; apply G3; auto.
Qed.
Print Assumptions C85_clients.

(** If they kill the process, they can do so taking turns. *)
Theorem C85_death :
  forall ckn tk s v ps l s' cs,
    tracks ckn tk s v -> unblocked v -> rtc wstep (Live (Idle <$> ps) s []) (Live l s' cs) -> gentle v cs ->
    wstep (Live l s' cs) Dead -> rtc (turn ckn tk) (Turn ps v) Over.
Proof.
  intros ckn tk s v ps l s' cs Ht Hu Hr Hg Hd.
  destruct (within_clients _ _ _ _ _ Ht Hu Hg) as (L & H0 & H1 & H2 & H3 & H4).
  destruct (winv_reach ckn tk cs v L H1 H2 H3 H4 ps s l s' cs H0 Hr ltac:(done)) as (ts & begun & log & own & HI).
  inversion Hd; simplify_eq. by eapply (winv_die ckn tk cs v L H1 H3 ps).
Qed.
Print Assumptions C85_death.

Definition only (P : call -> Prop) (x : cstate) : Prop :=
  match x with Idle p => makes_only P p | Busy _ _ k => forall a, makes_only P (k a) end.

Lemma only_calls P ps s w :
  Forall (makes_only P) ps -> rtc wstep (Live (Idle <$> ps) s []) w ->
  match w with Live l _ cs => Forall (only P) l /\ Forall P cs | Dead => True end.
Proof.
  intros HP Hr. refine (rtc_ind_r (R := wstep) (fun w => match w with Live l _ cs => Forall (only P) l /\ Forall P cs
    | Dead => True end) _ _ _ _ Hr).
  - split; [|constructor]. by apply Forall_fmap.
  - intros y z _ Hs IH. inversion Hs as [? ? ? ? ? ? Hi|? ? ? ? ? ? ? ? ? Hi|? ? ? ? ? ? ? Hi|? ? ? ? ? ? Hi|]; simplify_eq; [..|done];
      destruct IH as [Hl Hc]; pose proof (Forall_lookup_1 _ _ _ _ Hl Hi) as Ho; cbn [only makes_only] in Ho;
      (split; [apply Forall_insert; [done|]|]); try done; try apply Ho.
    * cbn [only]. apply Ho.
    * apply Forall_app. split; [done|]. apply Forall_singleton. apply Ho.
Qed.

(** Programs whose calls all tolerate one another. *)
Theorem C85_programs :
  forall ckn tk s v (P : call -> Prop) ps w,
    tracks ckn tk s v -> unblocked v -> (forall c c', P c -> P c' -> tolerates v c c') -> Forall (makes_only P) ps ->
    rtc wstep (Live (Idle <$> ps) s []) w ->
    match w with
    | Live l s' _ =>
        exists ps' v',
          rtc (turn ckn tk) (Turn ps v) (Turn ps' v') /\ Forall2 at_turn l ps' /\
          (at_rest s' \/ Forall idle l -> shows tk s' v')
    | Dead => rtc (turn ckn tk) (Turn ps v) Over
    end.
Proof.
  intros ckn tk s v P ps w Ht Hu HT HP Hr.
  assert (Hg : forall cs, Forall P cs -> gentle v cs).
  { intros cs Hcs. apply C83_calm. intros i j c c' _ Hi Hj. apply HT; by eapply Forall_lookup_1. }
  destruct w as [l s' cs|].
  - destruct (only_calls _ _ _ _ HP Hr) as [_ Hcs]. eapply C85_clients; eauto.
  - apply rtc_inv_r in Hr as [E|(w & Hr & Hs)]; [done|]. destruct w as [l s' cs|]; [|inversion Hs].
    destruct (only_calls _ _ _ _ HP Hr) as [_ Hcs]. eapply C85_death; eauto.
Qed.
Print Assumptions C85_programs.

(** ** Runs of clients from runs of a pool *)

Section pool.
  Context (c : nat -> call) (k : nat -> answer -> client).
  Local Definition busy (ts : list thr) : list cstate := imap (fun i t => Busy (c i) t (k i)) ts.

  Lemma busy_insert ts i t : i < length ts -> busy (<[i := t]> ts) = <[i := Busy (c i) t (k i)]> (busy ts).
  Proof.
    intros Hi. apply list_eq. intros j. unfold busy. rewrite list_lookup_imap.
    destruct (decide (i = j)) as [->|Hne].
    - rewrite !list_lookup_insert; [done|by rewrite imap_length|done].
    - by rewrite !list_lookup_insert_ne, list_lookup_imap by done.
  Qed.

  Lemma busy_run ts s p cs :
    rtc pstep (Pool ts s) p ->
    rtc wstep (Live (busy ts) s cs) (match p with Pool ts' s' => Live (busy ts') s' cs | PCrashed => Dead end).
  Proof.
    intros Hr. refine (rtc_ind_r (R := pstep) (fun p => rtc wstep (Live (busy ts) s cs)
      (match p with Pool ts' s' => Live (busy ts') s' cs | PCrashed => Dead end)) _ _ _ _ Hr); [apply rtc_refl|].
    intros y z _ Hs IH. inversion Hs as [? ? i ? ? ? Hi|? ? i ? Hi]; simplify_eq; (eapply rtc_r; [exact IH|]).
    - rewrite busy_insert by (by eapply lookup_lt_Some). eapply W_run; [|done]. unfold busy. by rewrite list_lookup_imap, Hi.
    - eapply (W_die _ _ _ i); [|done]. unfold busy. by rewrite list_lookup_imap, Hi.
  Qed.
End pool.

(** Two clients that make one call each, and then get its answer. *)
Lemma two_clients (c0 c1 : call) (k0 k1 : answer -> client) s s' r0 r1 :
  rtc pstep (Pool (start [c0; c1]) s) (Pool [TRun (Ret r0); TRun (Ret r1)] s') ->
  rtc wstep (Live (Idle <$> [Ask c0 k0; Ask c1 k1]) s [])
    (Live [Idle (k0 (Returned (see s' r0))); Idle (k1 (Returned (see s' r1)))] s' [c0; c1]).
Proof.
  intros Hr.
  eapply rtc_l; [apply (W_ask _ _ _ 0 c0 k0); done|]. eapply rtc_l; [apply (W_ask _ _ _ 1 c1 k1); done|].
  eapply rtc_transitive.
  { apply (busy_run (fun i => match i with O => c0 | S _ => c1 end) (fun i => match i with O => k0 | S _ => k1 end) _ _ _ [c0; c1] Hr). }
  eapply rtc_l; [apply (W_return _ _ _ 0 c0 r0 k0); done|].
  eapply rtc_l; [apply (W_return _ _ _ 1 c1 r1 k1); done|]. apply rtc_refl.
Qed.

Lemma two_clients_dead (c0 c1 : call) (k0 k1 : answer -> client) s :
  rtc pstep (Pool (start [c0; c1]) s) PCrashed -> rtc wstep (Live (Idle <$> [Ask c0 k0; Ask c1 k1]) s []) Dead.
Proof.
  intros Hr.
  eapply rtc_l; [apply (W_ask _ _ _ 0 c0 k0); done|]. eapply rtc_l; [apply (W_ask _ _ _ 1 c1 k1); done|].
  apply (busy_run (fun i => match i with O => c0 | S _ => c1 end) (fun i => match i with O => k0 | S _ => k1 end) _ _ _ [c0; c1] Hr).
Qed.

(** ** Examples *)

(** A client puts a document through "al", and says so in "a"; another one looks
    into "a" and, if there is a second document, searches "q". *)
Definition writer : client := Ask (CPut "al" dC) (fun _ => Ask (CPut "a" dB) (fun _ => Stop)).
Definition reader : client :=
  Ask (CSearch "a" "b" LinearSearch) (fun a =>
    match a with Returned (OResults (_ :: _)) => Ask (CSearch "q" "c" LinearSearch) (fun _ => Stop) | _ => Stop end).
Definition gentle_calls (c : call) : Prop :=
  match c with CPut n _ => n = "al" \/ n = "a" | CSearch _ _ _ => True | _ => False end.
Example C85_example :
  tracks true letters duo_repo duo_view /\ unblocked duo_view /\
  (forall c c', gentle_calls c -> gentle_calls c' -> tolerates duo_view c c') /\
  Forall (makes_only gentle_calls) [writer; reader].
Proof.
  split_and!; [apply duo_tracks|done| |].
  - intros c c' Hc Hc'. destruct c; try done. destruct Hc as [-> | ->]; destruct c'; try done.
    destruct Hc' as [-> | ->]; (vm_compute; eauto).
  - apply Forall_cons. split; [simpl; tauto|]. apply Forall_singleton. split; [done|].
    intros [[| | | |[|]| |]|]; simpl; tauto.
Qed.

(** Clients that kill the process: the one with "al" may come first. *)
Example C85_example_death :
  exists ps, tracks true letters gone_repo gone_view /\ unblocked gone_view /\
    rtc wstep (Live (Idle <$> ps) gone_repo []) Dead /\
    exists cs, gentle gone_view cs /\ ps = (fun c => Ask c (fun _ => Stop)) <$> cs.
Proof.
  destruct C83_example_death as (G1 & G2 & G3 & G4 & _).
  exists [Ask (CPut "al" dB) (fun _ => Stop); Ask (CPut "a" dC) (fun _ => Stop)].
  split_and!; [done|done|by apply two_clients_dead|]. by exists [CPut "al" dB; CPut "a" dC].
Qed.

(** Clients that use Drop to agree on one of them: if they take turns, one of them
    is told that it dropped the index; at once, both may be (cf. C68). *)
Definition winner : client := Ask CList (fun _ => Stop).
Definition rival : client :=
  Ask (CDrop "a") (fun a => match a with Returned (OBool true) => winner | _ => Stop end).
Theorem C85_election_refuted :
  exists s,
    tracks true letters s one_view /\ unblocked one_view /\
    (exists s' cs, rtc wstep (Live (Idle <$> [rival; rival]) s []) (Live [Idle winner; Idle winner] s' cs)) /\
    forall v, ~ rtc (turn true letters) (Turn [rival; rival] one_view) (Turn [winner; winner] v).
Proof.
  exists one_repo. split_and!; [apply one_tracks|done|..].
  - set (cs := [CDrop "a"; CDrop "a"]). set (l := steps 0 3 ++ steps 1 3 ++ steps 0 20 ++ steps 1 20).
    exists (run l (start cs) one_repo).2, cs.
    assert (E : (run l (start cs) one_repo).1 = [TRun (Ret (RBool true)); TRun (Ret (RBool true))]) by calc.
    refine (two_clients (CDrop "a") (CDrop "a") _ _ _ _ (RBool true) (RBool true) _). rewrite <- E. apply run_sound.
  - intros v Hr.
    set (inv := fun w => match w with
      | Over => True
      | Turn l v => unblocked v /\ (l = [rival; rival] \/
          (v_idx v !! "a" = None /\ Forall (fun p => p = rival \/ p = winner \/ p = Stop) l /\ exists i p, l !! i = Some p /\ p <> winner))
      end).
    assert (H : inv (Turn [winner; winner] v)).
    { refine (rtc_ind_r (R := turn true letters) inv (Turn [rival; rival] one_view) _ _ _ Hr); [by split; [|left]|].
      intros y z _ Hs IH. inversion Hs as [l0 v0 i c k a v1 Hi Hx|]; simplify_eq; [|done].
      destruct IH as [Hu IH]. pose proof Hu as [U1 U2].
      assert (Hdrop : c = CDrop "a" -> unblocked v1 /\ v_idx v1 !! "a" = None /\ (v_idx v0 !! "a" = None -> a = Returned (OBool false))).
      { intros ->. destruct a as [o|]; destruct Hx as (v2 & Hs2 & ->); cbn [spec] in Hs2;
          (destruct (v_idx v0 !! "a") as [x|] eqn:Ea;
            [rewrite decide_False in Hs2 by done; rewrite decide_False, U2 in Hs2 by lia|rewrite decide_True in Hs2 by done]; simplify_eq);
          unfold forget; (split_and!; [done| |done]); simpl; try done. apply lookup_delete. }
      destruct IH as [->|(Hn & Hall & j & p & Hj & Hp)].
      - assert (Er : Ask c k = rival) by (do 2 (try destruct i as [|i]); simplify_eq/=; done). injection Er as -> ->.
        destruct (Hdrop eq_refl) as (Hu1 & Hn1 & _). split; [done|right]. split_and!; [done| |].
        + apply Forall_insert; [|destruct a as [[|[]| | | | |]|]; tauto]. repeat constructor; by left.
        + exists (match i with O => 1 | S _ => 0 end), rival. split; [|done]. by do 2 (try destruct i as [|i]); simplify_eq/=.
      - pose proof (Forall_lookup_1 _ _ _ _ Hall Hi) as [Er|[Er|Er]]; [| |done]; injection Er as -> ->.
        + destruct (Hdrop eq_refl) as (Hu1 & Hn1 & Ha). rewrite (Ha Hn). split; [done|right]. split_and!; [done| |].
          * apply Forall_insert; [done|tauto].
          * exists i, Stop. split; [|done]. apply list_lookup_insert. by eapply lookup_lt_Some.
        + assert (Hv : unblocked v1 /\ v_idx v1 = v_idx v0).
          { destruct a as [o|]; destruct Hx as (v2 & Hs2 & ->); cbn [spec] in Hs2;
            destruct Hs2 as (l & _ & E); simplify_eq; by split. }
          destruct Hv as [? Ev]. split; [done|right]. split_and!; [by rewrite Ev| |].
          * apply Forall_insert; [done|tauto].
          * exists i, Stop. split; [|done]. apply list_lookup_insert. by eapply lookup_lt_Some. }
    destruct H as [_ [H|(_ & _ & i & p & Hi & Hp)]]; [done|]. apply Hp.
    by do 2 (try destruct i as [|i]); simplify_eq/=.
Qed.
Print Assumptions C85_election_refuted.

(** ** Whatever programs can see taking turns they can see at once *)

(** String is left out (the machine allows it any text), and UnAlias is only used to
    remove whole aliases (it cannot leave a lock behind then). *)
Definition plain (c : call) : Prop :=
  match c with CString _ => False | CUnAlias _ i => i = "" | _ => True end.

Lemma plain_spec ckn tk c v o v' :
  plain c -> unblocked v -> spec ckn tk c v (ODone o v') \/ spec ckn tk c v (OPanic v') -> unblocked v' /\ forget v' = v'.
Proof.
  intros Hc [U1 U2] Hs.
  assert (unblocked v') as [V1 V2].
  { destruct c; cbn [spec plain] in Hc, Hs; try done; rewrite ?U1, ?U2 in Hs.
    all: unfold search_many in *; repeat (first [case_decide|case_match]; try done).
    all: repeat match goal with H : _ /\ _ |- _ => destruct H | H : exists _, _ |- _ => destruct H | H : _ \/ _ |- _ => destruct H end.
    all: simplify_eq; try done; by split. }
  split; [done|]. unfold forget. destruct v'; simpl in *. by subst.
Qed.

Lemma client_call l s cs i c k t s' :
  l !! i = Some (Idle (Ask c k)) -> rtc sstep (TRun (prog_of c), s) (t, s') ->
  rtc wstep (Live l s cs) (Live (<[i := Busy c t k]> l) s' (cs ++ [c])).
Proof.
  intros Hi Hr. eapply rtc_l; [by apply W_ask|]. pose proof (lookup_lt_Some _ _ _ Hi) as Hlt. clear Hi.
  generalize (cs ++ [c]). intros cs'. remember (TRun (prog_of c), s) as a eqn:Ea. remember (t, s') as z eqn:Ez.
  assert (Hg : forall t0 s0, a = (t0, s0) -> rtc wstep (Live (<[i := Busy c t0 k]> l) s0 cs') (Live (<[i := Busy c t k]> l) s' cs')).
  { clear Ea. induction Hr as [a|a b z Hs Hr IH]; intros t0 s0 ->; [by simplify_eq|].
    inversion Hs as [? ? t1 s1 Ht]; subst. eapply rtc_l; [eapply W_run; [by apply list_lookup_insert|done]|].
    rewrite list_insert_insert. by apply IH. }
  by apply Hg.
Qed.

Theorem C85_turns_happen :
  forall ckn tk s v ps x,
    tracks ckn tk s v -> unblocked v -> Forall (makes_only plain) ps -> rtc (turn ckn tk) (Turn ps v) x ->
    match x with
    | Turn ps' v' => exists s' cs, rtc wstep (Live (Idle <$> ps) s []) (Live (Idle <$> ps') s' cs) /\ tracks ckn tk s' v'
    | Over => rtc wstep (Live (Idle <$> ps) s []) Dead
    end.
Proof.
  intros ckn tk s v ps x Ht Hu Hps Hr.
  set (inv := fun x => match x with
    | Turn ps' v' => unblocked v' /\ Forall (makes_only plain) ps' /\
        exists s' cs, rtc wstep (Live (Idle <$> ps) s []) (Live (Idle <$> ps') s' cs) /\ tracks ckn tk s' v'
    | Over => rtc wstep (Live (Idle <$> ps) s []) Dead
    end).
  assert (H : inv x).
  { refine (rtc_ind_r (R := turn ckn tk) inv (Turn ps v) _ _ x Hr).
    - split_and!; [done|done|]. by exists s, [].
    - intros y z _ Hs IH. inversion Hs as [l v0 i c k a v1 Hi Hx|l v0 i c k Hi Hx]; subst; destruct IH as (Hu0 & Hall & s0 & cs & Hw & Ht0).
      + pose proof (Forall_lookup_1 _ _ _ _ Hall Hi) as [Hc Hk].
        assert (Hi' : (Idle <$> l) !! i = Some (Idle (Ask c k))) by (by rewrite list_lookup_fmap, Hi).
        assert (Hns : forall show, c <> CString show) by (intros show ->; done).
        assert (Hfin : forall t s1 a', rtc sstep (TRun (prog_of c), s0) (t, s1) ->
          wstep (Live (<[i := Busy c t k]> (Idle <$> l)) s1 (cs ++ [c])) (Live (<[i := Idle (k a')]> (<[i := Busy c t k]> (Idle <$> l))) s1 (cs ++ [c])) ->
          rtc wstep (Live (Idle <$> ps) s []) (Live (Idle <$> <[i := k a']> l) s1 (cs ++ [c]))).
        { intros t s1 a' Hrun Hlast. etrans; [exact Hw|]. eapply rtc_r; [by eapply client_call|].
          rewrite list_fmap_insert. by rewrite list_insert_insert in Hlast. }
        assert (Hlt : i < length (Idle <$> l)) by (by eapply lookup_lt_Some).
        destruct a as [o|]; destruct Hx as (v2 & Hsp & ->).
        * destruct (plain_spec ckn tk c v0 o v2 Hc Hu0 ltac:(by left)) as [Hu2 ->].
          destruct (spec_exact ckn tk c s0 v0 _ Hns (reach_shape _ _ _ _ _ Ht0) Hsp) as (r & s1 & Hres & <- & _).
          split_and!; [done|by apply Forall_insert|]. exists s1, (cs ++ [c]). split; [|by eapply R_done].
          inversion Hres as [r' s2 Hrun| | |]; subst. eapply Hfin; [done|]. eapply W_return. by apply list_lookup_insert.
        * destruct (plain_spec ckn tk c v0 OUnit v2 Hc Hu0 ltac:(by right)) as [Hu2 ->].
          destruct (spec_exact ckn tk c s0 v0 _ Hns (reach_shape _ _ _ _ _ Ht0) Hsp) as (s1 & Hres & _).
          split_and!; [done|by apply Forall_insert|]. exists s1, (cs ++ [c]). split; [|by eapply R_panic].
          inversion Hres as [|s2 Hrun| |]; subst. eapply Hfin; [done|]. eapply W_throw. by apply list_lookup_insert.
      + pose proof (Forall_lookup_1 _ _ _ _ Hall Hi) as [Hc Hk].
        assert (Hi' : (Idle <$> l) !! i = Some (Idle (Ask c k))) by (by rewrite list_lookup_fmap, Hi).
        assert (Hns : forall show, c <> CString show) by (intros show ->; done).
        pose proof (spec_exact ckn tk c s0 v0 _ Hns (reach_shape _ _ _ _ _ Ht0) Hx) as Hres. simpl in Hres.
        inversion Hres as [| |t s1 Hrun Hcr|]; subst. simpl.
        etrans; [exact Hw|]. eapply rtc_r; [by eapply client_call|]. eapply W_die; [|exact Hcr].
        apply list_lookup_insert. by eapply lookup_lt_Some. }
  destruct x as [ps' v'|]; [|done]. by destruct H as (_ & _ & H).
Qed.
Print Assumptions C85_turns_happen.

(** So programs whose calls tolerate one another can come exactly as far at once as
    they can taking turns. *)
Theorem C85_exactly :
  forall ckn tk s v (P : call -> Prop) ps ps',
    tracks ckn tk s v -> unblocked v ->
    (forall c c', P c -> P c' -> tolerates v c c') -> (forall c, P c -> plain c) -> Forall (makes_only P) ps ->
    ((exists s' cs, rtc wstep (Live (Idle <$> ps) s []) (Live (Idle <$> ps') s' cs)) <->
      (exists v', rtc (turn ckn tk) (Turn ps v) (Turn ps' v'))) /\
    (rtc wstep (Live (Idle <$> ps) s []) Dead <-> rtc (turn ckn tk) (Turn ps v) Over).
Proof.
  intros ckn tk s v P ps ps' Ht Hu HT HP Hps.
  assert (Hpl : Forall (makes_only plain) ps).
  { eapply Forall_impl; [exact Hps|]. intros p. induction p as [|c k IH]; [done|]. intros [Hc Hk]. split; [by apply HP|]. auto. }
  split; split.
  - intros (s' & cs & Hr). pose proof (C85_programs ckn tk s v P ps _ Ht Hu HT Hps Hr) as (ps2 & v' & Hr' & Hat & _).
    assert (ps2 = ps') as ->; [|by exists v'].
    clear -Hat. revert ps2 Hat. induction ps' as [|p ps' IH]; intros ps2 Hat; inversion Hat as [|? ? ? ? E Hat']; subst; [done|].
    simpl in E. subst. f_equal. by apply IH.
  - intros (v' & Hr). destruct (C85_turns_happen ckn tk s v ps _ Ht Hu Hpl Hr) as (s' & cs & Hw & _). by exists s', cs.
  - intros Hr. exact (C85_programs ckn tk s v P ps _ Ht Hu HT Hps Hr).
  - intros Hr. exact (C85_turns_happen ckn tk s v ps _ Ht Hu Hpl Hr).
Qed.
Print Assumptions C85_exactly.

(** The programs of [C85_example] make such calls only, so this applies to them. *)
Example C85_exactly_example : forall c, gentle_calls c -> plain c.
Proof. by intros []. Qed.
