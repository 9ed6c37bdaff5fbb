(** * Conflicting accesses are ordered by synchronisation. *)
From Coq Require Import Lia.
From stdpp Require Import list gmap.
From Verif Require Import Entities Search SpecSearch Repo Sem RepoWp SpecRepo ProofRepo ProofTotal Locks Race ProofRace SpecHb.
Open Scope nat_scope.

(** ** What the calls hold along a run *)
Definition held_after (t : thr) (h : held) : held :=
  match t with
  | TRun (RLock m _) => set_h m HR h
  | TRun (Lock m _) => set_h m HP h
  | TPend m _ => set_h m HW h
  | TRun (RUnlock m _) | TRun (Unlock m _) => set_h m HN h
  | _ => h
  end.

Lemma step_held md L h t s t' s' :
  tdisc md L true h t -> tstep s t (TNext t' s') ->
  tdisc md L true (held_after t h) t' /\ lstep h s (held_after t h) s'.
Proof.
  intros Hd Hs. inversion Hs; simplify_eq; cbn [tdisc disc held_after] in *; destruct_and?;
    (split; [try (by split_and?; eauto); try (by eapply disc_grow; eauto)|try (by constructor)]).
  all: try (apply LS_mu; match goal with H : get_h _ _ = _ |- _ => rewrite H end; by econstructor).
  - split_and!; try done.
    + rewrite get_h_set_h. by rewrite decide_True.
    + intros ->. cbn in *. done.
    + replace (set_h m HW (set_h m HP h)) with (set_h m HW h) by (by destruct m). done.
Qed.

(** [m] was held as [al] by call [i] before position [a] and then given back at [c]. *)
Definition gives_back (m : mutex) (al : hold) (e : event) : Prop :=
  match al with HW => is_unlock m e | HR => is_runlock m e | _ => False end.
Definition takes (m : mutex) (be : hold) (e : event) : Prop :=
  match be with HW => is_lock m e | HR => is_rlock m e | _ => False end.

Definition passed_on (tr : list event) (hs : list held) (a i : nat) (m : mutex) (al : hold) : Prop :=
  exists c ec, tr !! c = Some ec /\ a < c /\ ev_call ec = i /\ ev_g ec = 0 /\ gives_back m al ec /\
    forall j h, j <> i -> hs !! j = Some h -> rd (get_h m h) -> al = HW \/ get_h m h = HW ->
      exists d ed, tr !! d = Some ed /\ c < d /\ ev_call ed = j /\ ev_g ed = 0 /\ takes m (get_h m h) ed.

Record run_inv (md : mode) (L : nat -> ret -> Prop) (tr : list event) (ts : list thr) (s : repo)
    (hs past : list held) : Prop := {
  ri_pool : pool_inv md L (pair true <$> hs) ts s;
  ri_len : length past = length tr;
  ri_past : forall a e h, tr !! a = Some e -> past !! a = Some h ->
    tdisc md (L (ev_call e)) true h (ev_at e) /\
    (held_after (ev_at e) h = h -> forall m, rd (get_h m h) ->
       (exists h', hs !! ev_call e = Some h' /\ get_h m h' = get_h m h) \/
       passed_on tr hs a (ev_call e) m (get_h m h));
  (* goroutines of a call run between the go statement and the return of Wait *)
  ri_wait : forall a e, tr !! a = Some e -> ev_g e <> 0 ->
    (match ts !! ev_call e with Some (TPut _ _ _) | Some (TSearch _ _ _ _ _) => True | _ => False end /\
     forall c ec, tr !! c = Some ec -> a < c -> ev_call ec = ev_call e -> ev_g ec <> 0) \/
    exists w ew, tr !! w = Some ew /\ a < w /\ ev_call ew = ev_call e /\ is_wait ew /\
      forall c ec, tr !! c = Some ec -> a < c -> c < w -> ev_call ec = ev_call e -> ev_g ec <> 0;
  ri_go : forall i t, ts !! i = Some t -> match t with TPut _ _ _ | TSearch _ _ _ _ _ => True | _ => False end ->
    exists f ef, tr !! f = Some ef /\ ev_call ef = i /\ ev_g ef = 0 /\ is_go ef /\
      forall c ec, tr !! c = Some ec -> ev_call ec = i -> ev_g ec = 0 -> c <= f }.

Lemma snoc_lookup {A} (l : list A) x a y :
  (l ++ [x]) !! a = Some y -> l !! a = Some y /\ a < length l \/ a = length l /\ y = x.
Proof.
  intros H. apply lookup_app_Some in H as [H|[Hl H]].
  - left. split; [done|]. by eapply lookup_lt_Some.
  - right. apply list_lookup_singleton_Some in H as [H <-]. split; [lia|done].
Qed.
Lemma snoc_old {A} (l : list A) x a y : l !! a = Some y -> (l ++ [x]) !! a = Some y.
Proof. intros H. rewrite lookup_app_l; [done|]. by eapply lookup_lt_Some. Qed.
Lemma snoc_new {A} (l : list A) x : (l ++ [x]) !! length l = Some x.
Proof. rewrite lookup_app_r by lia. by rewrite Nat.sub_diag. Qed.

Lemma fmap_true_lookup (hs : list held) i g h : (pair true <$> hs) !! i = Some (g, h) -> hs !! i = Some h.
Proof. rewrite list_lookup_fmap. destruct (hs !! i) as [h'|]; [|done]. cbn. congruence. Qed.

(** Which mutex a step changes, and how. *)
Lemma held_after_cases t h m md L :
  tdisc md L true h t ->
  get_h m (held_after t h) = get_h m h \/
  (get_h m h = HN /\ get_h m (held_after t h) = HR /\ match t with TRun (RLock m' _) => m' = m | _ => False end) \/
  (get_h m h = HN /\ get_h m (held_after t h) = HP) \/
  (get_h m h = HP /\ get_h m (held_after t h) = HW /\ match t with TPend m' _ => m' = m | _ => False end) \/
  (get_h m h = HR /\ get_h m (held_after t h) = HN /\ match t with TRun (RUnlock m' _) => m' = m | _ => False end) \/
  (get_h m h = HW /\ get_h m (held_after t h) = HN /\ match t with TRun (Unlock m' _) => m' = m | _ => False end).
Proof.
  intros Hd. destruct t as [p|m' k|cs d k|cs q e r k]; [|..]; try (by left).
  - destruct p; try (by left); cbn [held_after]; rewrite get_h_set_h; (destruct (decide (m = m0)) as [->|Hne]; [|by left]); cbn [tdisc disc] in Hd; destruct_and?.
    + right; left. done.
    + do 4 right; left. done.
    + right; right; left. done.
    + do 5 right. done.
  - cbn [held_after]. rewrite get_h_set_h. destruct (decide (m = m')) as [->|Hne]; [|by left]. cbn [tdisc] in Hd. destruct_and?.
    do 3 right; left. done.
Qed.

Lemma mover_zero t t' : match t with TRun _ | TPend _ _ => True | _ => False end -> forall g, mover t t' g -> g = 0.
Proof. by destruct t. Qed.

Lemma run_inv_step md L tr ts s hs past i t t' s' g :
  run_inv md L tr ts s hs past -> ts !! i = Some t -> tstep s t (TNext t' s') -> mover t t' g ->
  exists hs' past', run_inv md L (tr ++ [MkEv i g t]) (<[i := t']> ts) s' hs' past'.
Proof.
  intros [Hp Hlen Hpast Hwait Hgo] Hi Hs Hmv.
  assert (Hil : i < length ts) by (by eapply lookup_lt_Some).
  pose proof (pi_len _ _ _ _ _ Hp) as Hl. rewrite fmap_length in Hl.
  destruct (lookup_lt_is_Some_2 hs i) as [h Hh]; [by rewrite Hl|].
  assert (Hgh : (pair true <$> hs) !! i = Some (true, h)) by (by rewrite list_lookup_fmap, Hh).
  destruct (pi_thr _ _ _ _ _ Hp _ _ _ _ Hi Hgh) as [Hd _].
  destruct (step_held _ _ _ _ _ _ _ Hd Hs) as [Hd' Hls].
  exists (<[i := held_after t h]> hs), (past ++ [h]). split.
  - pose proof (pool_step _ _ _ _ _ _ _ _ _ _ _ true _ Hp Hi Hgh Hd' Hls) as Hx.
    replace (restart true (held_after t h)) with true in Hx by (unfold restart; by destruct (decide _)).
    by rewrite list_fmap_insert.
  - by rewrite !app_length, Hlen.
  - intros a e ha Ha Hpa.
    apply snoc_lookup in Ha as [[Ha Hal]|[-> ->]].
    + apply snoc_lookup in Hpa as [[Hpa _]|[Hpa _]]; [|lia].
      destruct (Hpast a e ha Ha Hpa) as [Hda Hkey]. split; [done|]. intros Hsame m Hrd.
      destruct (Hkey Hsame m Hrd) as [(h' & Hh' & Em)|(c & ec & Hc & Hac & Eci & Eg & Hgb & Hrest)].
      * destruct (decide (i = ev_call e)) as [->|Hne].
        -- rewrite Hh in Hh'. apply Some_inj in Hh'. subst h'.
           destruct (decide (get_h m (held_after t h) = get_h m h)) as [E|E].
           ++ left. exists (held_after t h). split; [apply list_lookup_insert; lia|congruence].
           ++ right. exists (length tr), (MkEv (ev_call e) g t). split; [apply snoc_new|]. split; [done|]. split; [done|].
              destruct (held_after_cases t h m _ _ Hd) as [C|[(C1 & C2 & C3)|[(C1 & C2)|[(C1 & C2 & C3)|[(C1 & C2 & C3)|(C1 & C2 & C3)]]]]];
                try (rewrite <- Em, C1 in Hrd; done); [done|..].
              ** split; [cbn; eapply mover_zero; [|exact Hmv]; by destruct t|]. split; [rewrite <- Em, C1; cbn; unfold is_runlock; cbn; by destruct t as [[]| | |]|].
                 intros j hj Hj Hhj Hrdj Hw. exfalso. rewrite list_lookup_insert_ne in Hhj by done.
                 destruct (pool_inv_compat _ _ _ _ _ (ev_call e) j true h true hj Hp Hgh) as [P1 P2]; [by rewrite list_lookup_fmap, Hhj|done|].
                 rewrite <- Em, C1 in Hw. destruct Hw as [Hw|Hw]; [done|]. destruct m; cbn in *; [destruct P1 as [_ P]|destruct P2 as [_ P]]; rewrite Hw, C1 in P; by specialize (P I).
              ** split; [cbn; eapply mover_zero; [|exact Hmv]; by destruct t|]. split; [rewrite <- Em, C1; cbn; unfold is_unlock; cbn; by destruct t as [[]| | |]|].
                 intros j hj Hj Hhj Hrdj Hw. exfalso. rewrite list_lookup_insert_ne in Hhj by done.
                 destruct (pool_inv_compat _ _ _ _ _ (ev_call e) j true h true hj Hp Hgh) as [P1 P2]; [by rewrite list_lookup_fmap, Hhj|done|].
                 destruct m; cbn in *; [destruct P1 as [P _]|destruct P2 as [P _]]; rewrite C1 in P; rewrite (P I) in Hrdj; done.
        -- left. exists h'. split; [|done]. by rewrite list_lookup_insert_ne.
      * right. exists c, ec. split; [by apply snoc_old|]. split_and!; [done..|]. intros j hj Hj Hhj Hrdj Hw.
        destruct (decide (i = j)) as [->|Hne].
        -- rewrite list_lookup_insert in Hhj by lia. apply Some_inj in Hhj. subst hj.
           destruct (held_after_cases t h m _ _ Hd) as [C|[(C1 & C2 & C3)|[(C1 & C2)|[(C1 & C2 & C3)|[(C1 & C2 & C3)|(C1 & C2 & C3)]]]]];
             try (rewrite C2 in Hrdj; done).
           ++ rewrite C in Hrdj, Hw |- *. destruct (Hrest j h Hj Hh Hrdj Hw) as (d & ed & Hd1 & Hd2). exists d, ed. split; [by apply snoc_old|done].
           ++ exists (length tr), (MkEv j g t). split; [apply snoc_new|]. split; [by eapply lookup_lt_Some|]. split; [done|].
              split; [cbn; eapply mover_zero; [|exact Hmv]; by destruct t|]. rewrite C2. cbn. unfold is_rlock. cbn. by destruct t as [[]| | |].
           ++ exists (length tr), (MkEv j g t). split; [apply snoc_new|]. split; [by eapply lookup_lt_Some|]. split; [done|].
              split; [cbn; eapply mover_zero; [|exact Hmv]; by destruct t|]. rewrite C2. cbn. unfold is_lock. cbn. by destruct t as [[]| | |].
        -- rewrite list_lookup_insert_ne in Hhj by done. destruct (Hrest j hj Hj Hhj Hrdj Hw) as (d & ed & Hd1 & Hd2).
           exists d, ed. split; [by apply snoc_old|done].
    + apply snoc_lookup in Hpa as [[_ Hpa]|[_ ->]]; [lia|]. cbn [ev_call ev_at]. split; [done|]. intros Hsame m Hrd. left.
      exists (held_after t h). split; [apply list_lookup_insert; lia|by rewrite Hsame].
  - intros a e Ha Hg.
    apply snoc_lookup in Ha as [[Ha Hal]|[-> ->]].
    + destruct (Hwait a e Ha Hg) as [[Hin Hno]|(w & ew & Hw & Haw & Ec & Hww & Hno)].
      * destruct (decide (i = ev_call e)) as [->|Hne].
        -- rewrite Hi in Hin. destruct (decide (g = 0)) as [->|Hg0].
           ++ right. exists (length tr), (MkEv (ev_call e) 0 t). split; [apply snoc_new|]. split; [done|]. split; [done|]. split; [by split; [|destruct t]|].
              intros c ec Hc Hac Hcl Ecc. apply snoc_lookup in Hc as [[Hc _]|[-> _]]; [by apply (Hno c ec)|lia].
           ++ left. split.
              ** rewrite list_lookup_insert by lia. destruct t, t'; try done; by destruct Hg0.
              ** intros c ec Hc Hac Ecc. apply snoc_lookup in Hc as [[Hc _]|[-> ->]]; [by apply (Hno c ec)|done].
        -- left. split; [by rewrite list_lookup_insert_ne|].
           intros c ec Hc Hac Ecc. apply snoc_lookup in Hc as [[Hc _]|[-> ->]]; [by apply (Hno c ec)|done].
      * right. exists w, ew. split; [by apply snoc_old|]. split_and!; [done..|]. intros c ec Hc Hac Hcw Ecc.
        apply lookup_lt_Some in Hw as Hwl. apply snoc_lookup in Hc as [[Hc _]|[-> _]]; [by apply (Hno c ec)|lia].
    + left. cbn [ev_call ev_g] in *. split.
      * rewrite list_lookup_insert by lia. destruct t, t'; try done; by destruct Hg.
      * intros c ec Hc Hac. apply lookup_lt_Some in Hc. rewrite app_length in Hc. cbn in Hc. lia.
  - intros j t1 Hj Ht1.
    destruct (decide (i = j)) as [->|Hne].
    + rewrite list_lookup_insert in Hj by lia. apply Some_inj in Hj. subst t1.
      destruct (decide (g = 0)) as [->|Hg0].
      * exists (length tr), (MkEv j 0 t). split; [apply snoc_new|]. split; [done|]. split; [done|]. split.
        -- inversion Hs; subst; try done. all: cbn in Hmv; by destruct Hmv as (? & ? & _).
        -- intros c ec Hc _ _. apply lookup_lt_Some in Hc. rewrite app_length in Hc. cbn in Hc. lia.
      * assert (Hold : match t with TPut _ _ _ | TSearch _ _ _ _ _ => True | _ => False end) by (destruct t, t'; try done; by destruct Hg0).
        destruct (Hgo j t Hi Hold) as (f & ef & Hf & Ef & Eg & Hfg & Hall). exists f, ef. split; [by apply snoc_old|].
        split_and!; [done..|]. intros c ec Hc Ec Egc. apply snoc_lookup in Hc as [[Hc _]|[-> ->]]; [by eapply Hall|done].
    + rewrite list_lookup_insert_ne in Hj by done. destruct (Hgo j t1 Hj Ht1) as (f & ef & Hf & Ef & Eg & Hfg & Hall).
      exists f, ef. split; [by apply snoc_old|]. split_and!; [done..|].
      intros c ec Hc Ec Egc. apply snoc_lookup in Hc as [[Hc _]|[-> ->]]; [by eapply Hall|done].
Qed.

Lemma run_inv_start md cs s :
  r_imu s = rw_free -> r_amu s = rw_free -> Forall (allowed md) cs ->
  run_inv md (leaks_of cs) [] (start cs) s (replicate (length cs) none_held) [].
Proof.
  intros E1 E2 Hc. split; try done.
  - rewrite fmap_replicate. by apply pool_start.
  - intros i t Hi Ht. unfold start in Hi. by apply list_lookup_fmap_inv in Hi as (c & -> & _).
Qed.

Lemma run_inv_run md cs s tr ts s' :
  r_imu s = rw_free -> r_amu s = rw_free -> Forall (allowed md) cs ->
  run (start cs) s tr ts s' -> exists hs past, run_inv md (leaks_of cs) tr ts s' hs past.
Proof.
  intros E1 E2 Hc. induction 1 as [|tr ts1 s1 i t t' s2 g Hr (hs & past & IH) Hi Hs Hm].
  - eexists _, _. by apply run_inv_start.
  - by eapply run_inv_step.
Qed.

(** ** The order *)
Lemma hb_lt tr a b : hb tr a b -> a < b.
Proof. induction 1; try done. lia. Qed.
Lemma hb_mono tr x a b : hb tr a b -> hb (tr ++ x) a b.
Proof.
  assert (Hl : forall a e, tr !! a = Some e -> (tr ++ x) !! a = Some e) by (intros ? ? H; rewrite lookup_app_l; [done|by eapply lookup_lt_Some]).
  induction 1.
  - eapply HB_order; eauto.
  - eapply HB_unlock; eauto.
  - eapply HB_runlock; eauto.
  - eapply HB_go; eauto.
  - eapply HB_wait; eauto.
  - eapply HB_rl; eauto.
  - by eapply HB_trans.
Qed.

Lemma access_keeps t g l w h : access t g l w -> held_after t h = h.
Proof. by destruct 1. Qed.
Lemma access_child t g l w : access t g l w -> g <> 0 ->
  match t with TPut _ _ _ | TSearch _ _ _ _ _ => True | _ => False end.
Proof. by destruct 1. Qed.

(** Holdings that allow conflicting accesses exclude each other on some mutex. *)
Lemma not_compat md x h h' :
  md <> Any \/ x = PI -> canR md x h -> canR md x h' -> canW md x h \/ canW md x h' ->
  exists m, rd (get_h m h) /\ rd (get_h m h') /\ (get_h m h = HW \/ get_h m h' = HW).
Proof.
  intros Hm Hr Hr' Hw.
  destruct h as [a b], h' as [c d].
  destruct (decide ((a = HW /\ rd c) \/ (c = HW /\ rd a))) as [D|D]; [exists MI; cbn; destruct D as [[-> ?]|[-> ?]]; auto|].
  destruct (decide ((b = HW /\ rd d) \/ (d = HW /\ rd b))) as [E|E]; [exists MA; cbn; destruct E as [[-> ?]|[-> ?]]; auto|].
  exfalso. destruct md, x; (destruct Hm as [Hm|Hm]; try done); destruct a, b, c, d; cbn in *; try done; destruct Hw; try done;
    first [apply D; left; by split|apply D; right; by split|apply E; left; by split|apply E; right; by split].
Qed.

(** A call's own event followed by an event of its caller that comes later. *)
Lemma hb_to_caller md L tr ts s hs past a e c ec x :
  run_inv md L tr ts s hs past -> tr !! a = Some e -> tr !! c = Some ec -> a < c ->
  ev_call ec = ev_call e -> ev_g ec = 0 -> (is_wait ec -> False) -> hb (tr ++ [x]) a c.
Proof.
  intros Hi Ha Hc Hac Ec Eg Hnw. destruct (decide (ev_g e = 0)) as [E0|E0].
  - eapply HB_order; [by apply snoc_old|by apply snoc_old|done|done|congruence].
  - destruct (ri_wait _ _ _ _ _ _ _ Hi a e Ha E0) as [[_ Hno]|(w & ew & Hw & Haw & Ew & Hww & Hno)]; [by destruct (Hno c ec Hc Hac Ec)|].
    assert (Hwc : w < c).
    { destruct (decide (w < c)) as [|Hge]; [done|]. exfalso. destruct (decide (w = c)) as [->|Hne].
      - rewrite Hc in Hw. apply Some_inj in Hw. by subst.
      - apply (Hno c ec Hc Hac ltac:(lia) Ec Eg). }
    apply (HB_trans _ _ w).
    + eapply HB_wait; [by apply snoc_old|by apply snoc_old|done|congruence|done|done].
    + eapply HB_order; [by apply snoc_old|by apply snoc_old|done|congruence|]. destruct Hww as [-> _]. done.
Qed.

(** An event of the caller followed by what the call is about to do. *)
Lemma hb_from_caller md L tr ts s hs past d ed j t g :
  run_inv md L tr ts s hs past -> tr !! d = Some ed -> ev_call ed = j -> ev_g ed = 0 -> (is_go ed -> False) ->
  ts !! j = Some t -> (g <> 0 -> match t with TPut _ _ _ | TSearch _ _ _ _ _ => True | _ => False end) ->
  hb (tr ++ [MkEv j g t]) d (length tr).
Proof.
  intros Hi Hd Ed Eg Hng Hj Hg. apply lookup_lt_Some in Hd as Hdl. destruct (decide (g = 0)) as [->|E0].
  - eapply HB_order; [by apply snoc_old|apply snoc_new|done|done|done].
  - destruct (ri_go _ _ _ _ _ _ _ Hi j t Hj (Hg E0)) as (f & ef & Hf & Ef & Egf & Hfg & Hall).
    assert (Hdf : d < f).
    { pose proof (Hall d ed Hd Ed Eg). destruct (decide (d = f)) as [->|]; [|lia]. rewrite Hd in Hf. apply Some_inj in Hf. by subst. }
    apply (HB_trans _ _ f).
    + eapply HB_order; [by apply snoc_old|by apply snoc_old|done|congruence|congruence].
    + eapply HB_go; [by apply snoc_old|apply snoc_new|by eapply lookup_lt_Some|by rewrite Ef|done|done].
Qed.

Lemma ordered_between md L tr ts s hs past a e j t g l w w' :
  run_inv md L tr ts s hs past -> md <> Any \/ part_of l = PI ->
  tr !! a = Some e -> does e l w -> ts !! j = Some t -> access t g l w' -> ev_call e <> j -> l <> LResult ->
  w = true \/ w' = true -> hb (tr ++ [MkEv j g t]) a (length tr).
Proof.
  intros Hi Hm Ha He Hj Ht Hne Hl Hw.
  destruct (lookup_lt_is_Some_2 past a) as [h Hh]; [rewrite (ri_len _ _ _ _ _ _ _ Hi); by eapply lookup_lt_Some|].
  destruct (ri_past _ _ _ _ _ _ _ Hi a e h Ha Hh) as [Hd Hkey].
  pose proof (ri_pool _ _ _ _ _ _ _ Hi) as Hp. pose proof (pi_len _ _ _ _ _ Hp) as Hlen. rewrite fmap_length in Hlen.
  destruct (lookup_lt_is_Some_2 hs j) as [h' Hh']; [rewrite Hlen; by eapply lookup_lt_Some|].
  destruct (pi_thr _ _ _ _ _ Hp j t true h' Hj) as [Hd' _]; [by rewrite list_lookup_fmap, Hh'|].
  destruct (access_perm _ _ _ _ _ _ _ _ Hd He Hl) as [Hr1 Hw1]. destruct (access_perm _ _ _ _ _ _ _ _ Hd' Ht Hl) as [Hr2 Hw2].
  destruct (not_compat md (part_of l) h h' Hm Hr1 Hr2) as (m & M1 & M2 & M3); [destruct Hw as [->| ->]; auto|].
  destruct (Hkey (access_keeps _ _ _ _ h He) m M1) as [(h1 & Hh1 & Em)|(c & ec & Hc & Hac & Ec & Egc & Hgb & Hrest)].
  - exfalso. destruct (pool_inv_compat _ _ _ _ _ (ev_call e) j true h1 true h' Hp) as [P1 P2];
      [by rewrite list_lookup_fmap, Hh1|by rewrite list_lookup_fmap, Hh'|done|].
    assert (P : compat1 (get_h m h) (get_h m h')) by (rewrite <- Em; by destruct m). destruct P as [P3 P4].
    destruct M3 as [M3|M3]; rewrite M3 in *; [rewrite (P3 I) in M2|rewrite (P4 I) in M1]; done.
  - destruct (Hrest j h' (not_eq_sym Hne) Hh' M2 M3) as (d & ed & Hd1 & Hcd & Ed & Egd & Htk).
    assert (H1 : hb (tr ++ [MkEv j g t]) a c).
    { eapply hb_to_caller; try done. intros [_ Hx]. destruct (get_h m h); cbn in Hgb; unfold is_unlock, is_runlock in Hgb; by destruct (ev_at ec). }
    assert (H2 : hb (tr ++ [MkEv j g t]) c d).
    { destruct (get_h m h) eqn:Eh; try done; cbn in Hgb.
      - destruct M3 as [M3|M3]; [done|]. rewrite M3 in Htk. eapply HB_runlock; [by apply snoc_old|by apply snoc_old|done|exact Hgb|exact Htk].
      - eapply HB_unlock; [by apply snoc_old|by apply snoc_old|done|exact Hgb|]. destruct (get_h m h'); try done; [by right|by left]. }
    assert (H3 : hb (tr ++ [MkEv j g t]) d (length tr)).
    { eapply hb_from_caller; try done.
      - intros Hx. unfold is_go in Hx. destruct (get_h m h'); cbn in Htk; try done; unfold is_lock, is_rlock in Htk; destruct (ev_at ed) as [[]| | |]; done.
      - intros Hg. by eapply access_child. }
    eapply HB_trans; [exact H1|]. by eapply HB_trans.
Qed.

(** ** The variable [result] of a Search *)
Lemma run_rtc ts s tr ts' s' : run ts s tr ts' s' -> rtc pstep (Pool ts s) (Pool ts' s').
Proof. induction 1; [apply rtc_refl|]. eapply rtc_r; [done|]. by econstructor. Qed.

Definition rl_key (tr : list event) (ts : list thr) : Prop :=
  forall a e j w, tr !! a = Some e -> ev_g e = S j -> does e LResult w ->
    (exists x ex, tr !! x = Some ex /\ a < x /\ ev_call ex = ev_call e /\ is_wait ex) \/
    exists cs q en r k, ts !! ev_call e = Some (TSearch cs q en r k) /\
      ((exists st, cs !! j = Some st /\ holds_rl st = true) \/
       exists c ec, tr !! c = Some ec /\ a < c /\ ev_call ec = ev_call e /\ ev_g ec = S j /\ is_rl true ec /\
         forall j' st, j' <> j -> cs !! j' = Some st -> holds_rl st = true ->
           exists d ed, tr !! d = Some ed /\ c < d /\ ev_call ed = ev_call e /\ ev_g ed = S j' /\ is_rl false ed).

Lemma rl_key_step tr ts s i t t' s' g :
  rl_key tr ts -> Forall search_inv ts -> ts !! i = Some t -> tstep s t (TNext t' s') -> mover t t' g ->
  rl_key (tr ++ [MkEv i g t]) (<[i := t']> ts).
Proof.
  intros Hk Hinv Hi Hs Hmv a e j w Ha Hg Hw.
  assert (Hil : i < length ts) by (by eapply lookup_lt_Some).
  pose proof (Forall_lookup_1 _ _ _ _ Hinv Hi) as Hti.
  apply snoc_lookup in Ha as [[Ha Hal]|[-> ->]].
  - destruct (Hk a e j w Ha Hg Hw) as [(x & ex & Hx & Hax & Ex & Hwx)|(cs & q & en & r & k & Hts & Hcase)].
    { left. exists x, ex. split; [by apply snoc_old|done]. }
    destruct (decide (i = ev_call e)) as [->|Hne].
    2: { right. exists cs, q, en, r, k. split; [by rewrite list_lookup_insert_ne|].
         destruct Hcase as [Hc|(c & ec & Hc & Hac & Ec & Egc & Hrl & Hrest)]; [by left|]. right. exists c, ec. split; [by apply snoc_old|].
         split_and!; [done..|]. intros j' st Hj' Hst Hh. destruct (Hrest j' st Hj' Hst Hh) as (d & ed & Hd & ?). exists d, ed. split; [by apply snoc_old|done]. }
    rewrite Hi in Hts. apply Some_inj in Hts. subst t.
    destruct t' as [p|m k'|cs' d' k'|cs' q' en' r' k']; try (by inversion Hs).
    { left. exists (length tr), (MkEv (ev_call e) g (TSearch cs q en r k)). split; [apply snoc_new|]. split; [done|]. split; [done|]. by split. }
    destruct Hmv as (j0 & -> & Hj0). right. exists cs', q', en', r', k'. split; [apply list_lookup_insert; lia|].
    destruct Hti as [Hone _].
    assert (Hother : forall j1, j1 <> j0 -> cs' !! j1 = cs !! j1).
    { intros j1 Hj1. inversion Hs; subst; destruct (decide (i = j1)) as [->|]; try (by rewrite list_lookup_insert_ne);
      exfalso; apply Hj0; rewrite list_lookup_insert_ne by done; done. }
    assert (Hself : (exists st sr, cs !! j0 = Some (SStart st) /\ cs' !! j0 = Some (SGot sr)) \/
      (exists sr, cs !! j0 = Some (SGot sr) /\ cs' !! j0 = Some (SHold sr)) \/
      (exists st st', cs !! j0 = Some st /\ holds_rl st = true /\ cs' !! j0 = Some st' /\ holds_rl st' = true) \/
      (cs !! j0 = Some SRel /\ cs' !! j0 = Some SDone)).
    { inversion Hs; subst; (destruct (decide (i = j0)) as [->|Hi0]; [|exfalso; apply Hj0; rewrite list_lookup_insert_ne by done; done]);
        rewrite list_lookup_insert by (by eapply lookup_lt_Some).
      - left. eauto.
      - right; left. eauto.
      - right; right; left. eexists _, _. split_and!; [done|done|done|done].
      - right; right; left. eexists _, _. split_and!; [done|done|done|done].
      - right; right; right. done. }
    destruct Hcase as [(st & Hst & Hh)|(c & ec & Hc & Hac & Ec & Egc & Hrl & Hrest)].
    + destruct (decide (j0 = j)) as [->|Hjj].
      * destruct Hself as [(x & sr & E & _)|[(sr & E & _)|[(st1 & st2 & _ & _ & E & Hh2)|[E E']]]];
          try (rewrite E in Hst; apply Some_inj in Hst; subst st; done).
        -- left. eauto.
        -- right. exists (length tr), (MkEv (ev_call e) (S j) (TSearch cs q en r k)). split; [apply snoc_new|]. split_and!; [done..| |].
           ++ by exists j.
           ++ intros j' st' Hj' Hst' Hh'. exfalso. rewrite Hother in Hst' by done. apply Hj'. apply (Hone j' j st' SRel); [done|done|by rewrite Hh'|done].
      * left. exists st. by rewrite Hother.
    + right. exists c, ec. split; [by apply snoc_old|]. split_and!; [done..|]. intros j' st' Hj' Hst' Hh'.
      destruct (decide (j0 = j')) as [->|Hjj].
      * destruct Hself as [(x & sr & _ & E)|[(sr & E1 & E2)|[(st1 & st2 & E & Hh2 & _)|[_ E]]]];
          try (rewrite E in Hst'; apply Some_inj in Hst'; subst st'; done).
        -- exists (length tr), (MkEv (ev_call e) (S j') (TSearch cs q en r k)). split; [apply snoc_new|]. split; [by eapply lookup_lt_Some|].
           split_and!; [done..|]. exists j'. split; [done|]. by exists sr.
        -- destruct (Hrest j' st1 Hj' E Hh2) as (d & ed & Hd & ?). exists d, ed. split; [by apply snoc_old|done].
      * rewrite Hother in Hst' by done. destruct (Hrest j' st' Hj' Hst' Hh') as (d & ed & Hd & ?). exists d, ed. split; [by apply snoc_old|done].
  - cbn [ev_g ev_call] in *. subst g. unfold does in Hw. cbn [ev_at ev_g] in Hw. right.
    destruct t as [p|m k|cs d k|cs q en r k]; [inversion Hw|inversion Hw|inversion Hw|].
    destruct t' as [p|m k'|cs' d' k'|cs' q' en' r' k']; try (by inversion Hs).
    destruct Hmv as (j0 & E & Hj0). injection E as <-.
    exists cs', q', en', r', k'. split; [apply list_lookup_insert; lia|]. left.
    assert (Hst : exists st, cs !! j = Some st /\ holds_rl st = true /\ st <> SRel) by (inversion Hw; subst; eexists; split_and!; done).
    destruct Hst as (st & Hst & Hh & Hnr).
    inversion Hs; subst; (destruct (decide (i0 = j)) as [->|Hi0]; [|exfalso; apply Hj0; rewrite list_lookup_insert_ne by done; done]);
      rewrite list_lookup_insert by (by eapply lookup_lt_Some); try (eexists; split; [reflexivity|done]); simplify_eq.
Qed.

Lemma rl_key_run cs s tr ts s' : run (start cs) s tr ts s' -> rl_key tr ts.
Proof.
  induction 1 as [|tr ts1 s1 i t t' s2 g Hr IH Hi Hs Hm]; [by intros a e j w Ha|].
  eapply rl_key_step; try done. exact (search_inv_reach cs s _ (run_rtc _ _ _ _ _ Hr)).
Qed.

Lemma ordered_result cs s tr ts s' hs past a e t g w w' :
  run (start cs) s tr ts s' -> run_inv Any (leaks_of cs) tr ts s' hs past ->
  tr !! a = Some e -> does e LResult w -> ts !! ev_call e = Some t -> access t g LResult w' ->
  hb (tr ++ [MkEv (ev_call e) g t]) a (length tr).
Proof.
  intros Hr Hi Ha He Ht Hacc. apply lookup_lt_Some in Ha as Hal.
  destruct (decide (ev_g e = g)) as [E|Hne].
  { eapply HB_order; [by apply snoc_old|apply snoc_new|done|done|done]. }
  destruct (ev_g e) as [|j] eqn:Eg.
  { eapply hb_from_caller; try done.
    - unfold does in He. intros Hx. unfold is_go in Hx. inversion He as [| | | | | | | | | | | | | | | | | | |? ? ? ? ? ? E1]; subst; try congruence. by rewrite <- E1 in Hx.
    - intros Hg. by eapply access_child. }
  destruct g as [|j'].
  { eapply HB_wait; [by apply snoc_old|apply snoc_new|done|done|by rewrite Eg|]. split; [done|]. cbn [ev_at]. by inversion Hacc. }
  assert (Hjj : j' <> j) by congruence.
  destruct (rl_key_run _ _ _ _ _ Hr a e j w Ha Eg He) as [(x & ex & Hx & Hax & Ex & Hwx)|(cs1 & q & en & r & k & Hts & Hcase)].
  - apply (HB_trans _ _ x).
    + eapply HB_wait; [by apply snoc_old|by apply snoc_old|done|congruence|by rewrite Eg|done].
    + eapply hb_from_caller; try done; [by destruct Hwx| |].
      * intros Hg. destruct Hwx as [_ Hwx]. unfold is_go in Hg. by destruct (ev_at ex).
      * intros Hg. by eapply access_child.
  - rewrite Ht in Hts. apply Some_inj in Hts. subst t.
    assert (Hst : exists st, cs1 !! j' = Some st /\ holds_rl st = true) by (inversion Hacc; subst; eexists; split; done).
    destruct Hst as (st & Hst & Hh).
    destruct Hcase as [(st1 & Hst1 & Hh1)|(c & ec & Hc & Hac & Ec & Egc & Hrl & Hrest)].
    + exfalso. apply Hjj. pose proof (search_inv_reach cs s _ (run_rtc _ _ _ _ _ Hr)) as Hf.
      destruct (Forall_lookup_1 _ _ _ _ Hf Ht) as [Hone _]. apply (Hone j' j st st1); [done|done|by rewrite Hh|by rewrite Hh1].
    + destruct (Hrest j' st Hjj Hst Hh) as (d & ed & Hd & Hcd & Ed & Egd & Hrl').
      apply (HB_trans _ _ c); [|apply (HB_trans _ _ d)].
      * eapply HB_order; [by apply snoc_old|by apply snoc_old|done|congruence|congruence].
      * eapply HB_rl; [by apply snoc_old|by apply snoc_old|done|congruence|done|done].
      * eapply HB_order; [by apply snoc_old|apply snoc_new|by eapply lookup_lt_Some|done|done].
Qed.

(** Positions of a run are ends of shorter runs. *)
Lemma run_prefix ts s tr ts' s' b e :
  run ts s tr ts' s' -> tr !! b = Some e ->
  exists ts1 s1, run ts s (take b tr) ts1 s1 /\ ts1 !! ev_call e = Some (ev_at e).
Proof.
  induction 1 as [|tr ts1 s1 i t t' s2 g Hr IH Hi Hs Hm]; [done|]. intros Hb.
  apply snoc_lookup in Hb as [[Hb Hbl]|[-> ->]].
  - destruct (IH Hb) as (ts3 & s3 & Hr3 & Ht3). exists ts3, s3. split; [|done]. rewrite take_app_le by lia. done.
  - exists ts1, s1. by rewrite take_app.
Qed.

(** ** The goroutines of one call and its caller *)
Definition put_key (tr : list event) (ts : list thr) : Prop :=
  forall a e cs d k, tr !! a = Some e -> ev_g e <> 0 -> ev_at e = TPut cs d k ->
    (exists x ex, tr !! x = Some ex /\ a < x /\ ev_call ex = ev_call e /\ is_wait ex) \/
    exists cs', ts !! ev_call e = Some (TPut cs' d k) /\ forall j x, cs' !! j = Some (Some x) -> cs !! j = Some (Some x).

Lemma put_key_step tr ts s i t t' s' g :
  put_key tr ts -> ts !! i = Some t -> tstep s t (TNext t' s') -> mover t t' g ->
  put_key (tr ++ [MkEv i g t]) (<[i := t']> ts).
Proof.
  intros Hk Hi Hs Hmv a e cs d k Ha Hg Hat.
  assert (Hil : i < length ts) by (by eapply lookup_lt_Some).
  assert (Hstep : forall cs d k, t = TPut cs d k -> (t' = TRun k /\ g = 0) \/
    exists cs', t' = TPut cs' d k /\ forall j x, cs' !! j = Some (Some x) -> cs !! j = Some (Some x)).
  { intros cs1 d1 k1 ->. inversion Hs; subst; [right|by left]. eexists. split; [reflexivity|]. intros j x Hx.
    apply list_lookup_insert_Some in Hx as [(_ & ? & _)|[_ ?]]; done. }
  apply snoc_lookup in Ha as [[Ha Hal]|[-> ->]].
  - destruct (Hk a e cs d k Ha Hg Hat) as [(x & ex & Hx & Hax & Ex & Hwx)|(cs' & Hts & Hsub)].
    { left. exists x, ex. split; [by apply snoc_old|done]. }
    destruct (decide (i = ev_call e)) as [->|Hne].
    2: { right. exists cs'. by rewrite list_lookup_insert_ne. }
    rewrite Hi in Hts. apply Some_inj in Hts. subst t.
    destruct (Hstep cs' d k eq_refl) as [[-> ->]|(cs2 & -> & Hsub2)].
    + left. exists (length tr), (MkEv (ev_call e) 0 (TPut cs' d k)). split; [apply snoc_new|]. split; [done|]. split; [done|]. by split.
    + right. exists cs2. split; [apply list_lookup_insert; lia|]. auto.
  - cbn [ev_g ev_call ev_at] in *. right. destruct (Hstep cs d k Hat) as [[-> ->]|(cs2 & -> & Hsub2)]; [done|].
    exists cs2. split; [apply list_lookup_insert; lia|]. auto.
Qed.
Lemma put_key_run cs s tr ts s' : run (start cs) s tr ts s' -> put_key tr ts.
Proof. induction 1; [by intros a e cs' d k Ha|]. by eapply put_key_step. Qed.

Definition search_key (tr : list event) (ts : list thr) : Prop :=
  forall a e, tr !! a = Some e -> ev_g e <> 0 -> match ev_at e with TSearch _ _ _ _ _ => True | _ => False end ->
    (exists x ex, tr !! x = Some ex /\ a < x /\ ev_call ex = ev_call e /\ is_wait ex) \/
    match ts !! ev_call e with Some (TSearch _ _ _ _ _) => True | _ => False end.
Lemma search_key_step tr ts s i t t' s' g :
  search_key tr ts -> ts !! i = Some t -> tstep s t (TNext t' s') -> mover t t' g ->
  search_key (tr ++ [MkEv i g t]) (<[i := t']> ts).
Proof.
  intros Hk Hi Hs Hmv a e Ha Hg Hat.
  assert (Hil : i < length ts) by (by eapply lookup_lt_Some).
  assert (Hstep : match t with TSearch _ _ _ _ _ => True | _ => False end -> g = 0 \/ match t' with TSearch _ _ _ _ _ => True | _ => False end).
  { intros Ht. destruct t; try done. inversion Hs; subst; try (by right). by left. }
  apply snoc_lookup in Ha as [[Ha Hal]|[-> ->]].
  - destruct (Hk a e Ha Hg Hat) as [(x & ex & Hx & Hax & Ex & Hwx)|Hts].
    { left. exists x, ex. split; [by apply snoc_old|done]. }
    destruct (decide (i = ev_call e)) as [->|Hne].
    2: { right. by rewrite list_lookup_insert_ne. }
    rewrite Hi in Hts. destruct (Hstep Hts) as [->|Ht'].
    + left. exists (length tr), (MkEv (ev_call e) 0 t). split; [apply snoc_new|]. split; [done|]. split; [done|]. split; [done|]. by destruct t.
    + right. by rewrite list_lookup_insert by lia.
  - cbn [ev_g ev_call ev_at] in *. right. rewrite list_lookup_insert by lia. by destruct (Hstep Hat).
Qed.
Lemma search_key_run cs s tr ts s' : run (start cs) s tr ts s' -> search_key tr ts.
Proof. induction 1; [by intros a e Ha|]. by eapply search_key_step. Qed.

Lemma ordered_within cs s tr ts s' hs past a e t g l w w' :
  run (start cs) s tr ts s' -> run_inv Any (leaks_of cs) tr ts s' hs past ->
  tr !! a = Some e -> does e l w -> ts !! ev_call e = Some t -> access t g l w' -> l <> LResult ->
  w = true \/ w' = true -> hb (tr ++ [MkEv (ev_call e) g t]) a (length tr) \/ race_within (ev_at e).
Proof.
  intros Hr Hi Ha He Ht Hacc Hl Hw. apply lookup_lt_Some in Ha as Hal.
  destruct (decide (ev_g e = g)) as [E|Hne].
  { left. eapply HB_order; [by apply snoc_old|apply snoc_new|done|done|done]. }
  destruct (decide (ev_g e = 0)) as [E0|E0].
  { left. eapply hb_from_caller; try done.
    - unfold does in He. intros Hx. unfold is_go in Hx. inversion He; subst; try congruence;
        match goal with H : _ = ev_at e |- _ => by rewrite <- H in Hx end.
    - intros Hg. by eapply access_child. }
  assert (Hwait : (exists x ex, tr !! x = Some ex /\ a < x /\ ev_call ex = ev_call e /\ is_wait ex) -> hb (tr ++ [MkEv (ev_call e) g t]) a (length tr)).
  { intros (x & ex & Hx & Hax & Ex & Hwx). apply (HB_trans _ _ x).
    + eapply HB_wait; [by apply snoc_old|by apply snoc_old|done|congruence|done|done].
    + eapply hb_from_caller; try done; [by destruct Hwx| |].
      * intros Hg. destruct Hwx as [_ Hwx]. unfold is_go in Hg. by destruct (ev_at ex).
      * intros Hg. by eapply access_child. }
  destruct (ri_wait _ _ _ _ _ _ _ Hi a e Ha E0) as [[Hin Hno]|(x & ex & Hx & Hax & Ex & Hwx & _)]; [|left; apply Hwait; eauto 10].
  rewrite Ht in Hin.
  unfold does in He. pose proof (access_child _ _ _ _ He E0) as Hch.
  destruct (ev_at e) as [p|m k|pcs d k|scs q en r k] eqn:Eat; try done.
  - (* a goroutine of Put *)
    destruct (put_key_run _ _ _ _ _ Hr a e pcs d k Ha E0 Eat) as [Hx|(cs' & Ht' & Hsub)]; [left; by apply Hwait|].
    rewrite Ht in Ht'. apply Some_inj in Ht'. subst t. right.
    inversion He; subst; inversion Hacc; subst.
    exists (ev_g e), (S j0), (LObj p), true, true. split; [done|]. split; [done|]. split; [|by left]. constructor. by apply Hsub.
  - (* a goroutine of Search: reads the index; nobody writes *)
    left. destruct (search_key_run _ _ _ _ _ Hr a e Ha E0) as [Hx|Hx]; [by rewrite Eat|by apply Hwait|].
    exfalso. rewrite Ht in Hx. inversion He; subst; inversion Hacc; subst; by destruct Hw.
Qed.

(** ** Runs and pools *)
Lemma mover_ex s t t' s' : tstep s t (TNext t' s') -> exists g, mover t t' g.
Proof.
  intros Hs. destruct t as [p|m k|cs d k|cs q e r k]; [by exists 0|by exists 0|..].
  - inversion Hs; subst; [|by exists 0]. exists (S i), i. split; [done|].
    rewrite list_lookup_insert by (by eapply lookup_lt_Some). congruence.
  - inversion Hs; subst; try (by exists 0); exists (S i), i; (split; [done|]);
      rewrite list_lookup_insert by (by eapply lookup_lt_Some); congruence.
Qed.
Lemma rtc_run ts s ts' s' : rtc pstep (Pool ts s) (Pool ts' s') -> exists tr, run ts s tr ts' s'.
Proof.
  intros Hr.
  refine (rtc_ind_r (R := pstep) (fun p => match p with Pool ts' s' => exists tr, run ts s tr ts' s' | PCrashed => True end) _ _ _ _ Hr).
  - exists []. constructor.
  - intros y z _ Hs IH. inversion Hs; subst; [|done]. destruct IH as [tr IH].
    rename select (tstep _ _ _) into Ht. destruct (mover_ex _ _ _ _ Ht) as [g Hg]. eexists. by econstructor.
Qed.

(** Accesses to the aliases are made by the caller, and can always be made. *)
Lemma alias_step t g l w s :
  access t g l w -> part_of l <> PI -> g = 0 /\ exists t' s', tstep s t (TNext t' s') /\ mover t t' 0.
Proof.
  intros Ha Hl. inversion Ha; subst; try done; (split; [done|]).
  all: try (eexists _, _; split; [by constructor|done]).
  all: eexists _, _; (split; [|done]).
  all: try (by constructor; reflexivity).
  all: eapply (S_Append s _ _ _ (S (sl_len s0))); lia.
Qed.
