(** * Reduction: concurrent calls behave as if each critical section were atomic.
    [wpx] verifies one section of a call executed alone: its effect must be an
    allowed atomic step ([CM]) at the moment the first lock is released, and what
    is left when all locks are released must match ([FIN]).  Elements of alias lists
    are only written before that moment, and only where [WR] allows it. *)
From Coq Require Import Lia.
From stdpp Require Import list gmap.
From Verif Require Import Entities Search SpecSearch Repo Sem RepoWp SpecRepo ProofRepo ProofTotal SpecConc Locks Race ProofRace.
Open Scope nat_scope.

Section wpx.
  Context {B : Type} (CM : B -> data -> Prop) (FIN : B -> prog -> data -> Prop)
    (CR : option B -> Prop) (strict : bool) (WR : nat -> nat -> Prop).

  Definition ends (lin : option B) (p : prog) (s : repo) : Prop :=
    match lin with
    | None => exists b, CM b (dat s) /\ FIN b p (dat s)
    | Some b => FIN b p (dat s)
    end.
  Definition commits (lin : option B) (s : repo) (K : B -> Prop) : Prop :=
    match lin with
    | None => exists b, CM b (dat s) /\ K b
    | Some b => K b
    end.

  Fixpoint wpx (p : prog) (lin : option B) (s : repo) : Prop :=
    match p with
    | Ret _ | Throw => ends lin p s
    | RLock m k =>
        let w := get_mu m s in
        match lin with
        | Some b => FIN b p (dat s)
        | None => rw_pending w = false -> rw_writer w = false ->
                  wpx k None (set_mu m (MkRW (S (rw_readers w)) false false) s)
        end
    | Lock m k =>
        let w := get_mu m s in
        match lin with
        | Some b => FIN b p (dat s)
        | None => rw_pending w = false -> rw_writer w = false -> rw_readers w = 0 ->
                  wpx k None (set_mu m (MkRW 0 false true) s)
        end
    | RUnlock m k =>
        let w := get_mu m s in
        commits lin s (fun b => forall n, rw_readers w = S n ->
          wpx k (Some b) (set_mu m (MkRW n (rw_pending w) (rw_writer w)) s))
    | Unlock m k =>
        let w := get_mu m s in
        commits lin s (fun b => rw_writer w = true ->
          wpx k (Some b) (set_mu m (MkRW (rw_readers w) (rw_pending w) false) s))
    | GetIndex n k => wpx (k (i_map (r_I s) !! n)) lin s
    | SetIndex n p k => wpx k lin (set_I (i_set n p (r_I s)) s)
    | DelIndex n k => wpx k lin (set_I (i_del n (r_I s)) s)
    | RangeIndices k => forall names, names ≡ₚ (map_to_list (i_map (r_I s))).*1 -> wpx (k names) lin s
    | GetAlias a k => wpx (k (a_map (r_A s) !! a)) lin s
    | SetAlias a sl k => wpx k lin (set_A (a_set a sl (r_A s)) s)
    | DelAlias a k => wpx k lin (set_A (a_del a (r_A s)) s)
    | RangeAliases k => forall names, names ≡ₚ (map_to_list (a_map (r_A s))).*1 -> wpx (k names) lin s
    | LoadElem sl i k => wpx (k (a_load sl i (r_A s))) lin s
    | StoreElem sl i v k =>
        (lin = None /\ WR (sl_arr sl) i) /\ wpx k lin (set_A (a_store sl i v (r_A s)) s)
    | Append sl v k => (sl_len sl < sl_cap sl -> lin = None /\ WR (sl_arr sl) (sl_len sl)) /\
        forall cap, sl_len sl < cap ->
        wpx (k (a_append sl v cap (r_A s)).2) lin (set_A (a_append sl v cap (r_A s)).1 s)
    | MakeSlice l k =>
        wpx (k (a_alloc l (length l) (r_A s)).2) lin (set_A (a_alloc l (length l) (r_A s)).1 s)
    | NewIndex n k => wpx (k (i_next (r_I s))) lin (set_I (i_new n (r_I s)) s)
    | IdxPut p d k => wpx k lin (set_I (i_put p d (r_I s)) s)
    | IdxSearch p q e k kp =>
        match i_search p q e (r_I s) with Ok sr => wpx (k sr) lin s | Panic => wpx kp lin s end
    | IdxRead p k => wpx (k (p ≫= fun p => i_heap (r_I s) !! p)) lin s
    | GoPut ps d k =>
        (None ∈ ps -> CR lin) /\ (strict = true -> NoDup ps) /\
        (forall ps' i', ps' ≡ₚ ps -> puts ps' d (r_I s) = Some i' -> wpx k lin (set_I i' s))
    | GoSearch ps q e k =>
        (Panic ∈ search_all ps q e (r_I s) -> CR lin) /\
        (forall bl bl', search_all ps q e (r_I s) = Ok <$> bl -> bl' ≡ₚ bl -> wpx (k (concat bl')) lin s)
    end.

  Definition wpT (t : thr) (lin : option B) (s : repo) : Prop :=
    match t with
    | TRun p => wpx p lin s
    | TPend m k => lin = None /\ (rw_readers (get_mu m s) = 0 -> wpx k None (set_mu m (MkRW 0 false true) s))
    | TPut cs d k =>
        (None ∈ omap id cs -> CR lin) /\ (strict = true -> NoDup (omap id cs)) /\
        (forall ps' i', ps' ≡ₚ omap id cs -> puts ps' d (r_I s) = Some i' -> wpx k lin (set_I i' s))
    | TSearch cs q e r k =>
        rl_inv cs r /\
        (Panic ∈ omap (spend q e (r_I s)) cs -> CR lin) /\
        (forall bl bl', omap (spend q e (r_I s)) cs ≡ₚ Ok <$> bl -> bl' ≡ₚ bl ->
           wpx (k (r ++ concat bl')) lin s)
    end.

  (** At a boundary between two sections. *)
  Definition boundary (lin : option B) (t : thr) : Prop :=
    match lin, t with Some _, TRun (RLock _ _) | Some _, TRun (Lock _ _) => True | _, _ => False end.

  Lemma wpT_step t lin s t' s' :
    wpT t lin s -> tstep s t (TNext t' s') -> ~ boundary lin t ->
    (releasing t -> commits lin s (fun b => wpT t' (Some b) s')) /\
    (~ releasing t -> wpT t' lin s').
  Proof.
    intros Hw Hs Hb. split; intros Hr.
    - destruct t as [p| | |]; try done. destruct p; try done; simpl in Hw; inversion Hs; simplify_eq; simpl.
      + destruct lin as [b|]; simpl in *; [by apply Hw|]. destruct Hw as (b & Hc & Hw). exists b. split; [done|by apply Hw].
      + destruct lin as [b|]; simpl in *; [by apply Hw|]. destruct Hw as (b & Hc & Hw). exists b. split; [done|by apply Hw].
    - destruct t as [p|m k|cs d k|cs q e r k].
      + destruct p; simpl in Hw; inversion Hs; simplify_eq; cbn [wpT]; try (by destruct Hr); try done; try (by apply Hw).
        * destruct lin; [by destruct Hb|]. by apply Hw.
        * destruct lin; [by destruct Hb|]. split; [done|]. rewrite get_mu_set_mu, decide_True by done.
          intros E. simpl in E. replace (set_mu m _ (set_mu m _ s)) with (set_mu m (MkRW 0 false true) s) by (by destruct m).
          by apply Hw.
        * rename select (i_search _ _ _ _ = _) into E. by rewrite E in Hw.
        * rename select (i_search _ _ _ _ = _) into E. by rewrite E in Hw.
        * rewrite omap_id_Some. done.
        * rewrite spend_start. destruct Hw as [H1 H2]. split_and!; [apply rl_inv_start|done|].
          intros bl bl' E1 E2. simpl.
          destruct (outcomes_split (search_all ps q e (r_I s'))) as [[bl0 E0]|Hp].
          { apply (H2 bl0); [done|]. rewrite E0 in E1. rewrite E2. clear -E1.
            apply (fmap_Permutation (fun o => match o with Ok x => x | Panic => [] end)) in E1.
            rewrite <- !list_fmap_compose in E1. symmetry.
            change (id <$> bl0 ≡ₚ id <$> bl) in E1. by rewrite !list_fmap_id in E1. }
          exfalso. rewrite E1 in Hp. apply elem_of_list_fmap in Hp as (? & ? & _). done.
      + simpl in Hw. inversion Hs; simplify_eq. destruct Hw as [-> Hw]. by apply Hw.
      + destruct Hw as (H1 & H2 & H3). inversion Hs; simplify_eq.
        * rename select (_ !! _ = _) into Hi. apply omap_id_insert in Hi. split_and!.
          -- intros Hn. apply H1. rewrite Hi. by right.
          -- intros Hx. specialize (H2 Hx). rewrite Hi in H2. by apply NoDup_cons in H2 as [_ ?].
          -- intros ps' i' E1 E2. rewrite set_I_set_I. simpl in E2. apply (H3 (Some p :: ps')); [|done].
             rewrite Hi. by constructor.
        * assert (omap id cs = []) as E.
          { rename select (Forall _ cs) into H. clear -H. induction H; [done|]. by subst. }
          specialize (H3 [] (r_I s')). rewrite set_I_id in H3. apply H3; [by rewrite E|done].
      + destruct Hw as (H1 & H2 & H3). inversion Hs; simplify_eq; try rename select (_ !! _ = _) into Hi.
        all: try (cbn [wpT]; split_and!;
          [eapply rl_inv_insert; [done|done|try by auto|try by (intros; simplify_eq)|try by auto]|..]).
        * rewrite (spend_insert_some q e _ cs i _ _ _ Hi eq_refl) by (simpl; by f_equal). done.
        * rewrite (spend_insert_some q e _ cs i _ _ _ Hi eq_refl) by (simpl; by f_equal). done.
        * by rewrite (spend_insert_some q e _ cs i _ _ _ Hi eq_refl).
        * by rewrite (spend_insert_some q e _ cs i _ _ _ Hi eq_refl).
        * by rewrite (spend_insert_some q e _ cs i _ _ _ Hi eq_refl).
        * by rewrite (spend_insert_some q e _ cs i _ _ _ Hi eq_refl).
        * pose proof (spend_insert_del q e (r_I s') cs i _ SRel _ Hi eq_refl eq_refl) as Hd.
          intros Hp. apply H2. rewrite Hd. by right.
        * pose proof (spend_insert_del q e (r_I s') cs i _ SRel _ Hi eq_refl eq_refl) as Hd.
          intros bl bl' E1 E2. assert (old = r) as -> by (by eapply H1).
          specialize (H3 (sr :: bl) (sr :: bl')). simpl in H3. rewrite <- app_assoc. apply H3; [|by constructor].
          rewrite Hd, E1. done.
        * by rewrite (spend_insert_none q e _ cs i _ _ Hi eq_refl).
        * by rewrite (spend_insert_none q e _ cs i _ _ Hi eq_refl).
        * assert (omap (spend q e (r_I s')) cs = []) as E.
          { rename select (Forall _ _) into H. clear -H. induction H; [done|]. by subst. }
          specialize (H3 [] []). simpl in H3. rewrite app_nil_r in H3. apply H3; [by rewrite E|done].
  Qed.

  Lemma wpT_crash t lin s :
    wpT t lin s -> tstep s t TCrash -> ~ releasing t -> CR lin.
  Proof.
    intros Hw Hs Hr. inversion Hs; simplify_eq; try (by destruct Hr); simpl in Hw.
    - apply Hw. rename select (_ !! _ = _) into Hi. apply omap_id_insert in Hi. rewrite Hi. left.
    - apply Hw. apply elem_of_list_omap. eexists. split; [by eapply elem_of_list_lookup_2|]. simpl. by f_equal.
  Qed.
End wpx.

(** What is known of every commit may be weakened. *)
Lemma wpx_weaken {B} (CM CM' : B -> data -> Prop) (FIN : B -> prog -> data -> Prop) (CR : option B -> Prop) strict WR p lin s :
  (forall b D, CM b D -> CM' b D) ->
  wpx CM FIN CR strict WR p lin s -> wpx CM' FIN CR strict WR p lin s.
Proof.
  intros Hc. revert lin s. induction p; intros lin st; cbn [wpx commits ends]; try done; try (by auto);
    try (destruct lin; by auto || naive_solver).
  destruct (i_search p q e (r_I st)); auto.
Qed.

(** After the commit only [FIN] and the crash condition of [b] matter. *)
Lemma wpx_post {B} CM CM' (FIN : B -> prog -> data -> Prop) (CR CR' : option B -> Prop) strict WR WR' b p s :
  (CR (Some b) -> CR' (Some b)) ->
  wpx CM FIN CR strict WR p (Some b) s -> wpx CM' FIN CR' strict WR' p (Some b) s.
Proof.
  intros Hc. revert s. induction p; intros st; cbn [wpx commits ends]; try done; try (by auto).
  - by intros [[? _] _].
  - intros [H1 H2]. split; [intros Hlt; by destruct (H1 Hlt)|]. auto.
  - destruct (i_search p q e (r_I st)); auto.
  - intros (H1 & H2 & H3). split_and!; eauto.
  - intros (H1 & H2). split_and!; eauto.
Qed.
Lemma wpT_post {B} CM CM' (FIN : B -> prog -> data -> Prop) (CR CR' : option B -> Prop) strict WR WR' b t s :
  (CR (Some b) -> CR' (Some b)) ->
  wpT CM FIN CR strict WR t (Some b) s -> wpT CM' FIN CR' strict WR' t (Some b) s.
Proof.
  intros Hc. destruct t; simpl.
  - by apply wpx_post.
  - by intros [? _].
  - intros (H1 & H2 & H3). split_and!; [auto|done|]. intros. eapply wpx_post; eauto.
  - intros (H1 & H2 & H3). split_and!; [done|auto|]. intros. eapply wpx_post; eauto.
Qed.

Definition single (x y : part) : bool := match x, y with PI, PI | PM, PM | PR, PR => true | _, _ => false end.
Lemma agree_single (f : part -> bool) D D' : (forall x, f x -> agree (single x) D D') -> agree f D D'.
Proof.
  intros H. split_and!; intros Hf; destruct (H _ Hf) as (? & ? & ?); auto.
Qed.
Lemma agree_get (f : part -> bool) D D' x : agree f D D' -> f x -> agree (single x) D D'.
Proof. intros H Hx. eapply agree_weaken; [|exact H]. intros y Hy. by destruct x, y. Qed.

Lemma merge_ext (f : part -> bool) D0 D D' : agree f D D' -> merge f D0 D = merge f D0 D'.
Proof.
  intros (H1 & H2 & H3). unfold merge. destruct (f PI), (f PM), (f PR);
    try (rewrite H1 by done); try (rewrite H2 by done); try (destruct (H3 I) as [-> ->]); done.
Qed.
Lemma merge_merge (f : part -> bool) D0 D D' : merge f (merge f D0 D) D' = merge f D0 D'.
Proof. unfold merge. simpl. by destruct (f PI), (f PM), (f PR). Qed.
Lemma merge_next (f : part -> bool) D0 D :
  a_next (d_A (merge f D0 D)) = a_next (d_A D0) \/ a_next (d_A (merge f D0 D)) = a_next (d_A D).
Proof. unfold merge. simpl. destruct (f PR); auto. Qed.
Lemma merge_sub (f f' : part -> bool) D0 D :
  (forall x, f x -> f' x) -> (forall x, f' x -> f x = false -> agree (single x) D0 D) ->
  merge f D0 D = merge f' D0 D.
Proof.
  intros H1 H2. unfold merge. f_equal; [|f_equal].
  - specialize (H1 PI). specialize (H2 PI). destruct (f PI), (f' PI); try done; [by destruct H1|].
    by destruct (H2 I eq_refl) as (-> & _).
  - specialize (H1 PM). specialize (H2 PM). destruct (f PM), (f' PM); try done; [by destruct H1|].
    by destruct (H2 I eq_refl) as (_ & -> & _).
  - specialize (H1 PR). specialize (H2 PR). destruct (f PR), (f' PR); try done; [by destruct H1|].
    destruct (H2 I eq_refl) as (_ & _ & H). by destruct H as [-> _].
  - specialize (H1 PR). specialize (H2 PR). destruct (f PR), (f' PR); try done; [by destruct H1|].
    destruct (H2 I eq_refl) as (_ & _ & H). by destruct H as [_ ->].
Qed.

Section simulation.
  Context {X B W : Type} (eff : X -> W -> B -> W -> Prop) (fin : B -> X -> Prop)
    (crashX : X -> W -> Prop) (crashB : B -> Prop).
  Context (md : mode) (Hmd : md <> Any) (L : nat -> ret -> Prop) (strict : bool).
  Context (sh : data -> W -> Prop) (G : data -> data -> Prop) (link : X -> prog -> data -> Prop)
    (wrt : data -> nat -> nat -> Prop).
  Context (G_refl : forall D, G D D) (G_trans : forall D D' D'', G D D' -> G D' D'' -> G D D'').
  Context (link_G : forall x p D D', link x p D -> G D D' -> link x p D').
  Context (link_any : forall x p D D', ~ finished (TRun p) -> link x p D -> link x p D').

  Definition CMx (x : X) (D : data) (w : W) (b : B) (D' : data) : Prop :=
    exists w', sh D' w' /\ eff x w b w' /\ G D D'.
  Definition FINx (b : B) (p : prog) (D : data) : Prop := exists x, fin b x /\ link x p D.
  Definition CRx (x : X) (w : W) (lin : option B) : Prop :=
    match lin with None => crashX x w | Some b => crashB b end.

  Context (sections : forall x p D w, link x p D -> sh D w -> ~ finished (TRun p) ->
    wpx (CMx x D w) FINx (CRx x w) strict (wrt D) p None (alone D none_held)).

  Notation cR h := (fun x => canR md x h).
  Notation cW h := (fun x => canW md x h).

  (** What is known about one call. *)
  Definition trel (a : athr X B) (t : thr) (g : bool) (h : held) (s : repo) (Da : data) : Prop :=
    match a with
    | Between x =>
        (exists p, t = TRun p /\ finished t /\ link x p Da) \/
        (~ finished t /\ g = true /\ forall D0 w0, sh D0 w0 -> agree (cR h) D0 Da ->
           wpT (CMx x D0 w0) FINx (CRx x w0) strict (wrt D0) t None (alone (merge (cW h) D0 (dat s)) h))
    | Inside b =>
        ~ finished t /\ g = false /\ h <> none_held /\
        exists Ds, G Ds Da /\ agree (cR h) Ds Da /\
          wpT (fun _ _ => False) FINx (fun lin => lin = Some b /\ crashB b) strict (fun _ _ => False) t (Some b) (alone Ds h)
    end.

  (** No unfinished call that has not committed may write [x]. *)
  Definition quiet (gh : list (bool * held)) (ts : list thr) (x : part) : Prop :=
    forall i t h, ts !! i = Some t -> gh !! i = Some (true, h) -> ~ finished t -> canW md x h = false.

  Record rinv (gh : list (bool * held)) (ts : list thr) (s : repo) (l : list (athr X B)) (w : W) (Da : data) : Prop := {
    ri_pool : pool_inv md L gh ts s;
    ri_len : length l = length ts;
    ri_sh : sh Da w;
    ri_thr : forall i a t g h, l !! i = Some a -> ts !! i = Some t -> gh !! i = Some (g, h) ->
      trel a t g h s Da;
    ri_quiet : forall x, quiet gh ts x -> agree (single x) (dat s) Da }.

  (** A call reads up-to-date data. *)
  Lemma rinv_read gh ts s l w Da i t g h :
    rinv gh ts s l w Da -> ts !! i = Some t -> gh !! i = Some (g, h) ->
    forall x, canR md x h -> (g = true -> finished t \/ canW md x h = false) -> agree (single x) (dat s) Da.
  Proof.
    intros HR Ht Hg x Hx Hw. apply (ri_quiet _ _ _ _ _ _ HR). intros j t' h' Ht' Hg' Hf.
    destruct (decide (i = j)) as [<-|Hne]; [simplify_eq; destruct Hw; done|].
    destruct (canW md x h') eqn:E; [|done].
    rewrite (can_excl md x h' h Hmd) in Hx; [done| |by rewrite E].
    eapply (pool_inv_compat _ _ _ _ _ j i); [apply HR|done|done|done].
  Qed.

  Lemma boundary_prog L' g p :
    disc md L' g none_held p -> finished (TRun p) \/ (exists m k, p = RLock m k \/ p = Lock m k).
  Proof.
    intros Hd. assert (E : forall x, canR md x none_held = false) by (intros x; by destruct md, x).
    assert (E' : forall x, canW md x none_held = false) by (intros x; by destruct md, x).
    destruct p; simpl in Hd; try (by left); try (right; by eauto); try (destruct m; by destruct Hd);
      rewrite ?E, ?E' in Hd; by destruct_and?.
  Qed.

  Lemma ends_now CM CR WR L' g p b D :
    disc md L' g none_held p -> wpx CM FINx CR strict WR p (Some b) (alone D none_held) -> FINx b p D.
  Proof.
    intros Hd Hw. destruct (boundary_prog _ _ _ Hd) as [Hf|(m & k & [-> | ->])]; [|by destruct D..].
    destruct p; try done; by destruct D.
  Qed.
  Lemma ends_fin CM CR WR p b D h :
    finished (TRun p) -> wpx CM FINx CR strict WR p (Some b) (alone D h) -> FINx b p D.
  Proof. intros Hf Hw. destruct p; try done; by destruct D. Qed.

  Lemma trel_frame a t g h s Da s' Da' :
    trel a t g h s Da -> agree (cW h) (dat s') (dat s) -> agree (cR h) Da' Da -> G Da Da' ->
    trel a t g h s' Da'.
  Proof.
    intros Ht Hs HD HG. destruct a as [x|b].
    - destruct Ht as [(p & -> & Hf & Hl)|(Hf & Hg & Hw)].
      + left. exists p. split_and!; [done..|]. by eapply link_G.
      + right. split_and!; [done..|]. intros D0 w0 H0 Ha.
        rewrite (merge_ext _ _ _ _ Hs). apply Hw; [done|]. by eapply agree_trans.
    - destruct Ht as (Hf & Hg & Hh & Ds & H1 & H2 & H3). split_and!; [done..|]. exists Ds. split_and!; [|..|done].
      + by eapply G_trans.
      + eapply agree_trans; [done|]. by apply agree_sym.
  Qed.

  Lemma rinv_update gh ts s l w Da i t g h t' g' h' s' a' w' Da' :
    rinv gh ts s l w Da -> ts !! i = Some t -> gh !! i = Some (g, h) ->
    pool_inv md L (<[i := (g', h')]> gh) (<[i := t']> ts) s' ->
    sh Da' w' -> trel a' t' g' h' s' Da' ->
    agree (fun x => negb (canW md x h)) (dat s') (dat s) ->
    agree (fun x => negb (canW md x h)) Da' Da -> G Da Da' ->
    (forall x, quiet (<[i := (g', h')]> gh) (<[i := t']> ts) x ->
       (canW md x h /\ agree (single x) (dat s') Da') \/
       (canW md x h = false /\ forall j t'' h'', j <> i -> ts !! j = Some t'' -> gh !! j = Some (true, h'') ->
          ~ finished t'' -> canW md x h'' = false)) ->
    rinv (<[i := (g', h')]> gh) (<[i := t']> ts) s' (<[i := a']> l) w' Da'.
  Proof.
    intros HR Ht Hg Hp Hsh Htr Hs HD HG Hq. split; [done| |done| |].
    - rewrite !insert_length. apply HR.
    - intros j a1 t1 g1 h1 Ha Ht1 Hg1. destruct (decide (i = j)) as [<-|Hne].
      + apply list_lookup_insert_Some in Ha as [(_ & <- & _)|[? _]]; [|done].
        apply list_lookup_insert_Some in Ht1 as [(_ & <- & _)|[? _]]; [|done].
        apply list_lookup_insert_Some in Hg1 as [(_ & E & _)|[? _]]; [|done]. by simplify_eq.
      + rewrite list_lookup_insert_ne in Ha by done. rewrite list_lookup_insert_ne in Ht1 by done.
        rewrite list_lookup_insert_ne in Hg1 by done.
        assert (Hx : forall x, canR md x h1 -> negb (canW md x h)).
        { intros x Hx. destruct (canW md x h) eqn:E; [|done].
          rewrite (can_excl md x h h1 Hmd) in Hx; [done| |by rewrite E].
          eapply (pool_inv_compat _ _ _ _ _ i j); [apply HR|done|done|done]. }
        eapply trel_frame; [by eapply (ri_thr _ _ _ _ _ _ HR)| | |done].
        * eapply agree_weaken; [|exact Hs]. intros x Hw. by apply Hx, canW_canR.
        * eapply agree_weaken; [|exact HD]. intros x Hw. by apply Hx.
    - intros x Hqx. destruct (Hq x Hqx) as [[_ ?]|[Hw Ho]]; [done|].
      eapply agree_trans; [eapply agree_get; [exact Hs|cbn beta; by rewrite Hw]|].
      eapply agree_trans; [|apply agree_sym; eapply agree_get; [exact HD|cbn beta; by rewrite Hw]].
      apply (ri_quiet _ _ _ _ _ _ HR). intros j t1 h1 Ht1 Hg1 Hf1.
      destruct (decide (j = i)) as [->|Hne]; [simplify_eq; done|]. by eapply Ho.
  Qed.

  Lemma quiet_others gh ts i t' gh' x :
    quiet (<[i := gh']> gh) (<[i := t']> ts) x ->
    forall j t'' h'', j <> i -> ts !! j = Some t'' -> gh !! j = Some (true, h'') -> ~ finished t'' -> canW md x h'' = false.
  Proof.
    intros Hq j t1 h1 Hne Ht Hg Hf. apply (Hq j t1 h1); [by rewrite list_lookup_insert_ne..|done].
  Qed.

  Definition rel (ts : list thr) (s : repo) (p : apool X B W) : Prop :=
    match p with APool l w => exists gh Da, rinv gh ts s l w Da | ACrashed => False end.

  Theorem sim_step gh ts s l w Da i t t' s' :
    rinv gh ts s l w Da -> ts !! i = Some t -> tstep s t (TNext t' s') ->
    exists gh' l' w' Da', rinv gh' (<[i := t']> ts) s' l' w' Da' /\
      rtc (astep eff fin crashX crashB) (APool l w) (APool l' w') /\ (forall j, j <> i -> l' !! j = l !! j) /\
      (a_next (d_A Da') = a_next (d_A Da) \/ a_next (d_A Da') = a_next (r_A s')) /\ G Da Da' /\
      (finished t' -> forall g h x, gh !! i = Some (g, h) -> canR md x h -> agree (single x) (dat s') Da').
  Proof.
    intros HR Ht Hst.
    assert (Hnf : ~ finished t) by (intros Hf; destruct t as [[]| | |]; try done; by inversion Hst).
    pose proof HR as [Hpool Hlen Hsh Hthr Hquiet].
    destruct (lookup_lt_is_Some_2 gh i) as [[g h] Hg].
    { rewrite (pi_len _ _ _ _ _ Hpool). by eapply lookup_lt_Some. }
    destruct (lookup_lt_is_Some_2 l i) as [a Ha]; [rewrite Hlen; by eapply lookup_lt_Some|].
    destruct (pi_thr _ _ _ _ _ Hpool _ _ _ _ Ht Hg) as [Hd Hgr].
    destruct (step_disc _ _ _ _ _ _ _ _ Hd Hst Hgr)
      as (g' & h' & Hd' & Hls & Hrel & Hnrel & Hgf & Hag & Hloc).
    pose proof (pool_step _ _ _ _ _ _ _ _ _ _ _ _ _ Hpool Ht Hg Hd' Hls) as Hpool'.
    pose proof (Hthr _ _ _ _ _ Ha Ht Hg) as Htr.
    pose proof (rinv_read _ _ _ _ _ _ _ _ _ _ HR Ht Hg) as Hread.
    assert (Hdec : finished t' \/ ~ finished t').
    { destruct t' as [[]| | |]; simpl; auto. }
    (* what it could read before it returned *)
    assert (Hlook : forall D, agree (fun x => negb (canW md x h)) D Da -> (forall x, canW md x h -> agree (single x) (dat s') D) ->
      finished t' -> forall g0 h0 x, gh !! i = Some (g0, h0) -> canR md x h0 -> agree (single x) (dat s') D).
    { intros D HD1 HD2 _ g0 h0 x E Hx. rewrite Hg in E. injection E as <- <-. destruct (canW md x h) eqn:Ew; [apply HD2; by rewrite Ew|].
      eapply agree_trans; [eapply (agree_get _ _ _ x Hag); cbn beta; by rewrite Ew|].
      eapply agree_trans; [apply Hread; [done|]|apply agree_sym; eapply agree_get; [exact HD1|cbn beta; by rewrite Ew]].
      by right. }
    assert (Hlookm : finished t' -> forall g0 h0 x, gh !! i = Some (g0, h0) -> canR md x h0 ->
      agree (single x) (dat s') (merge (cW h) Da (dat s'))).
    { apply Hlook; [apply merge_agree_not|]. intros x Hx. apply agree_sym. by eapply agree_get; [apply merge_agree|]. }
    (* every new section *)
    assert (Hnew : forall x p D, link x p D -> forall s1, trel (Between x) (TRun p) true none_held s1 D).
    { intros x p D Hl s1. assert (finished (TRun p) \/ ~ finished (TRun p)) as [Hf|Hf] by (destruct p; simpl; auto).
      - left. by exists p.
      - right. split_and!; [done..|]. intros D0 w0 H0 _.
        rewrite merge_id by (split_and!; intros Hx; exfalso; destruct md; done).
        apply sections; [by eapply link_any|done|done]. }
    (* after the commit: either the section is over, or it is in flight *)
    assert (Hafter : forall b Ds Da', G Ds Da' -> agree (cR h') Ds Da' ->
      wpT (fun _ _ => False) FINx (fun lin => lin = Some b /\ crashB b) strict (fun _ _ => False) t' (Some b) (alone Ds h') ->
      g' = false -> 
      (exists x', fin b x' /\ trel (Between x') t' (restart g' h') h' s' Da') \/ trel (Inside b) t' (restart g' h') h' s' Da').
    { intros b Ds Da' HG HA Hw ->. destruct (decide (h' = none_held)) as [->|Hh].
      - left. destruct t' as [p| | |]; simpl in Hd'.
        + destruct (ends_now _ _ _ _ _ _ _ _ Hd' Hw) as (x' & Hf & Hl). exists x'. split; [done|].
          apply Hnew. by eapply link_G.
        + exfalso. destruct Hd' as (_ & E & _). by destruct m.
        + exfalso. destruct Hd' as (_ & E & _). by destruct md.
        + exfalso. destruct Hd' as (E & _). by destruct md.
      - destruct Hdec as [Hf|Hf].
        + left. destruct t' as [p| | |]; try done.
          destruct (ends_fin _ _ _ _ _ _ _ Hf Hw) as (x' & Hfx & Hl). exists x'. split; [done|].
          left. exists p. split_and!; [done..|]. by eapply link_G.
        + right. unfold restart. rewrite decide_False by done. split_and!; [done..|]. by exists Ds. }
    destruct a as [x|b].
    - (* not committed yet *)
      destruct Htr as [(p & -> & Hf & _)|(_ & -> & Hw)]; [done|].
      assert (Hstep : forall D0 w0, sh D0 w0 -> agree (cR h) D0 Da ->
        (releasing t -> exists b, CMx x D0 w0 b (merge (cW h) D0 (dat s)) /\
           wpT (CMx x D0 w0) FINx (CRx x w0) strict (wrt D0) t' (Some b) (alone (merge (cW h) D0 (dat s')) h')) /\
        (~ releasing t -> wpT (CMx x D0 w0) FINx (CRx x w0) strict (wrt D0) t' None (alone (merge (cW h) D0 (dat s')) h'))).
      { intros D0 w0 H0 HA. pose proof (Hw D0 w0 H0 HA) as Hw0.
        assert (HL : agree (cR h) (merge (cW h) D0 (dat s)) (dat s)).
        { apply agree_single. intros y Hy. destruct (canW md y h) eqn:Ey.
          - eapply agree_get; [apply merge_agree|]. cbn beta; by rewrite Ey.
          - eapply agree_trans; [eapply (agree_get _ _ _ y (merge_agree_not _ _ _)); cbn beta; by rewrite Ey|].
            eapply agree_trans; [eapply agree_get; [exact HA|done]|]. apply agree_sym, Hread; [done|]. by right. }
        specialize (Hloc _ HL). rewrite merge_merge in Hloc.
        destruct (wpT_step _ _ _ _ _ _ _ _ _ _ Hw0 Hloc) as [H1 H2]; [by intros []|].
        split; [|done]. intros Hr. destruct (H1 Hr) as (b & Hc & Hb). exists b. split; [|done]. by destruct (merge (cW h) D0 (dat s)). }
      destruct (Hstep Da w Hsh (agree_refl _ _)) as [Hcommit Hcont].
      assert (Hoff : agree (fun x => negb (canW md x h)) (merge (cW h) Da (dat s')) Da) by apply merge_agree_not.
      assert (Hqc : forall x, quiet (<[i := (restart g' h', h')]> gh) (<[i := t']> ts) x ->
        (canW md x h /\ agree (single x) (dat s') (merge (cW h) Da (dat s'))) \/
        (canW md x h = false /\ forall j t'' h'', j <> i -> ts !! j = Some t'' -> gh !! j = Some (true, h'') ->
          ~ finished t'' -> canW md x h'' = false)).
      { intros y Hy. destruct (canW md y h) eqn:Ey.
        - left. split; [done|]. apply agree_sym. eapply agree_get; [apply merge_agree|cbn beta; by rewrite Ey].
        - right. split; [done|]. by eapply quiet_others. }
      assert (Hrdec : releasing t \/ ~ releasing t) by (destruct t as [[]| | |]; simpl; auto).
      destruct Hrdec as [Hr|Hr].
      + (* commit at the first release *)
        destruct (Hrel Hr) as (-> & Hds & Hrl). destruct (Hcommit Hr) as (b & (w' & Hsh' & He & HG) & Hb).
        rewrite Hds in Hb.
        assert (Hb' : wpT (fun _ _ => False) FINx (fun lin => lin = Some b /\ crashB b) strict (fun _ _ => False) t' (Some b)
                  (alone (merge (cW h) Da (dat s)) h')).
        { eapply wpT_post; [|exact Hb]. simpl. auto. }
        rewrite Hds in Hoff, Hqc.
        assert (Hnx : a_next (d_A (merge (cW h) Da (dat s))) = a_next (d_A Da) \/
          a_next (d_A (merge (cW h) Da (dat s))) = a_next (d_A (dat s'))) by (rewrite Hds; apply merge_next).
        destruct (Hafter b _ (merge (cW h) Da (dat s)) (G_refl _) (agree_refl _ _) Hb' eq_refl) as [(x' & Hf & Htr')|Htr'].
        * eexists _, (<[i := Between x']> l), w', (merge (cW h) Da (dat s)). split; [|split; [|split; [intros j0 Hj0; by rewrite ?list_lookup_insert_ne|split; [by auto|split; [done|by rewrite <- Hds]]]]].
          { eapply (rinv_update gh ts s l w Da i t true h); try done. by rewrite Hds. }
          eapply rtc_l; [by eapply as_commit|]. eapply rtc_l.
          { eapply (as_return _ _ _ _ _ _ i b x'); [|done]. apply list_lookup_insert. by eapply lookup_lt_Some. }
          rewrite list_insert_insert. apply rtc_refl.
        * eexists _, (<[i := Inside b]> l), w', (merge (cW h) Da (dat s)). split; [|split; [|split; [intros j0 Hj0; by rewrite ?list_lookup_insert_ne|split; [by auto|split; [done|by rewrite <- Hds]]]]].
          { eapply (rinv_update gh ts s l w Da i t true h); try done. by rewrite Hds. }
          eapply rtc_l; [by eapply as_commit|]. apply rtc_refl.
      + destruct (Hnrel Hr) as (-> & Hh').
        assert (Hre : restart true h' = true) by (unfold restart; by destruct (decide _)).
        destruct Hdec as [Hf|Hf].
        * (* it returns without releasing *)
          destruct t' as [p| | |]; try done.
          assert (exists b, CMx x Da w b (merge (cW h) Da (dat s')) /\ FINx b p (merge (cW h) Da (dat s')))
            as (b & (w' & Hsh' & He & HG) & x' & Hfx & Hl).
          { specialize (Hcont Hr). destruct p; try done. }
          eexists _, (<[i := Between x']> l), w', (merge (cW h) Da (dat s')). split; [|split; [|split; [intros j0 Hj0; by rewrite ?list_lookup_insert_ne|split; [apply (merge_next _ _ (dat s'))|split; [done|exact Hlookm]]]]].
          { eapply (rinv_update gh ts s l w Da i t true h); try done.
            left. by exists p. }
          eapply rtc_l; [by eapply as_commit|]. eapply rtc_l.
          { eapply (as_return _ _ _ _ _ _ i b x'); [|done]. apply list_lookup_insert. by eapply lookup_lt_Some. }
          rewrite list_insert_insert. apply rtc_refl.
        * (* the section goes on *)
          assert (Hmono : forall y, (canR md y h -> canR md y h') /\ (canW md y h -> canW md y h')).
          { intros y. destruct Hh' as [->|[_ Hacq]]; [done|]. by apply acquired_mono. }
          eexists _, (<[i := Between x]> l), w, Da. split; [|split; [|split; [intros j0 Hj0; by rewrite ?list_lookup_insert_ne|split; [by auto|split; [apply G_refl|done]]]]].
          { eapply (rinv_update gh ts s l w Da i t true h); try done.
            - rewrite Hre. right. split_and!; [done..|]. intros D0 w0 H0 HA.
              destruct (Hstep D0 w0 H0) as [_ Hc].
              { eapply agree_weaken; [|exact HA]. intros y. apply Hmono. }
              rewrite <- (merge_sub (cW h) (cW h')); [by apply Hc|intros y; apply Hmono|].
              intros y Hy1 Hy2. eapply agree_trans; [eapply agree_get; [exact HA|by apply canW_canR]|].
              eapply agree_trans; [|apply agree_sym; eapply agree_get; [exact Hag|cbn beta; by rewrite Hy2]].
              apply agree_sym. apply Hquiet. intros j t1 h1 Ht1 Hg1 Hf1.
              destruct (decide (j = i)) as [->|Hne]; [simplify_eq; done|].
              destruct (canW md y h1) eqn:E1; [|done].
              apply canW_canR in Hy1. rewrite (can_excl md y h1 h' Hmd) in Hy1; [done| |by rewrite E1].
              eapply (pool_inv_compat _ _ _ _ _ j i); [exact Hpool'| | |done].
              + by rewrite list_lookup_insert_ne.
              + apply list_lookup_insert. by eapply lookup_lt_Some.
            - intros y Hy. right. split; [|by eapply quiet_others].
              specialize (Hy i t' h'). rewrite Hre in Hy.
              assert (canW md y h' = false) as E.
              { apply Hy; [apply list_lookup_insert; by eapply lookup_lt_Some|apply list_lookup_insert; by eapply lookup_lt_Some|done]. }
              destruct (canW md y h) eqn:E1; [|done]. destruct (Hmono y) as [_ Hm]. rewrite E1, E in Hm. by destruct Hm. }
          rewrite list_insert_id by done. apply rtc_refl.
    - (* committed *)
      destruct Htr as (_ & -> & Hh & Ds & HG & HA & Hw).
      assert (HL : agree (cR h) Ds (dat s)).
      { apply agree_single. intros y Hy. eapply agree_trans; [eapply agree_get; [exact HA|done]|].
        apply agree_sym, Hread; [done|]. done. }
      specialize (Hloc _ HL). specialize (Hgf eq_refl).
      rewrite Hgf, merge_id in Hloc by (eapply agree_weaken; [|exact HL]; intros y; apply canW_canR).
      assert (Hnb : ~ boundary (Some b) t).
      { intros Hb. destruct t as [p| | |]; try done. destruct p; try done; destruct Hd as ([E|E] & _); done. }
      destruct (wpT_step _ _ _ _ _ _ _ _ _ _ Hw Hloc Hnb) as [H1 H2].
      assert (Hrdec : releasing t \/ ~ releasing t) by (destruct t as [[]| | |]; simpl; auto).
      assert (g' = false /\ (forall y, canR md y h' -> canR md y h) /\
        wpT (fun _ _ => False) FINx (fun lin => lin = Some b /\ crashB b) strict (fun _ _ => False) t' (Some b) (alone Ds h')) as (-> & Hm & Hw').
      { destruct Hrdec as [Hr|Hr].
        - destruct (Hrel Hr) as (-> & _ & Hrl). split_and!; [done| |by apply H1].
          intros y. by apply (released_mono md y).
        - destruct (Hnrel Hr) as (-> & [->|[? _]]); [|done]. split_and!; [done..|by apply H2]. }
      assert (HA' : agree (cR h') Ds Da) by (by eapply agree_weaken; [|exact HA]).
      assert (Hqc : forall x, quiet (<[i := (restart false h', h')]> gh) (<[i := t']> ts) x ->
        agree (single x) (dat s') Da).
      { intros y Hy. rewrite Hgf. apply Hquiet. intros j t1 h1 Ht1 Hg1 Hf1.
        destruct (decide (j = i)) as [->|Hne]; [by simplify_eq|]. by eapply quiet_others. }
      assert (Hfinal : forall a', trel a' t' (restart false h') h' s' Da ->
        rinv (<[i := (restart false h', h')]> gh) (<[i := t']> ts) s' (<[i := a']> l) w Da).
      { intros a' Ha'. split; [done|by rewrite !insert_length|done| |done].
        intros j a1 t1 g1 h1 Ha1 Ht1 Hg1. destruct (decide (i = j)) as [<-|Hne].
        + apply list_lookup_insert_Some in Ha1 as [(_ & <- & _)|[? _]]; [|done].
          apply list_lookup_insert_Some in Ht1 as [(_ & <- & _)|[? _]]; [|done].
          apply list_lookup_insert_Some in Hg1 as [(_ & E & _)|[? _]]; [|done]. by simplify_eq.
        + rewrite list_lookup_insert_ne in Ha1 by done. rewrite list_lookup_insert_ne in Ht1 by done.
          rewrite list_lookup_insert_ne in Hg1 by done.
          eapply trel_frame; [by eapply Hthr|rewrite Hgf; apply agree_refl|apply agree_refl|done]. }
      assert (HlookD : finished t' -> forall g0 h0 x, gh !! i = Some (g0, h0) -> canR md x h0 -> agree (single x) (dat s') Da).
      { apply Hlook; [apply agree_refl|]. intros y Hy. rewrite Hgf. apply Hread; [by apply canW_canR|done]. }
      destruct (Hafter b Ds Da HG HA' Hw' eq_refl) as [(x' & Hf & Htr')|Htr'].
      + eexists _, (<[i := Between x']> l), w, Da. split; [by apply Hfinal|split; [|split; [intros j0 Hj0; by rewrite ?list_lookup_insert_ne|split; [by auto|split; [apply G_refl|exact HlookD]]]]].
        eapply rtc_l; [by eapply as_return|]. apply rtc_refl.
      + eexists _, (<[i := Inside b]> l), w, Da. split; [by apply Hfinal|split; [|split; [intros j0 Hj0; by rewrite ?list_lookup_insert_ne|split; [by auto|split; [apply G_refl|exact HlookD]]]]].
        rewrite list_insert_id by done. apply rtc_refl.
  Qed.

  Lemma pool_inv_held gh ts s i t g h :
    pool_inv md L gh ts s -> ts !! i = Some t -> gh !! i = Some (g, h) ->
    (forall m, rd (get_h m h) -> wr (get_h m h) = false -> rw_readers (get_mu m s) <> 0) /\
    (forall m, wr (get_h m h) -> rw_writer (get_mu m s) = true).
  Proof.
    intros [H1 H2 H3] Hi Hg.
    assert (Hc : forall m, 0 < cnt (get_h m h) ((fun x => get_h m x.2) <$> gh)).
    { intros m. unfold cnt. assert (get_h m h ∈ filter (eq (get_h m h)) ((fun x : bool * held => get_h m x.2) <$> gh)) as Hin.
      { apply elem_of_list_filter. split; [done|]. apply elem_of_list_fmap. exists (g, h). split; [done|].
        by eapply elem_of_list_lookup_2. }
      destruct (filter _ _); [by apply elem_of_nil in Hin|simpl; lia]. }
    split; intros m; pose proof (H3 m) as [E1 E2 E3 E4 E5]; specialize (Hc m);
      destruct (get_h m h); try done; intros.
    - rewrite E1. lia.
    - destruct (rw_writer (get_mu m s)); [done|]. simpl in E3. lia.
  Qed.

  Theorem sim_crash gh ts s l w Da i t :
    rinv gh ts s l w Da -> ts !! i = Some t -> tstep s t TCrash ->
    exists a, l !! i = Some a /\ match a with Between x => crashX x w | Inside b => crashB b end.
  Proof.
    intros HR Ht Hst. pose proof HR as [Hpool Hlen Hsh Hthr Hquiet].
    destruct (lookup_lt_is_Some_2 gh i) as [[g h] Hg].
    { rewrite (pi_len _ _ _ _ _ Hpool). by eapply lookup_lt_Some. }
    destruct (lookup_lt_is_Some_2 l i) as [a Ha]; [rewrite Hlen; by eapply lookup_lt_Some|].
    destruct (pi_thr _ _ _ _ _ Hpool _ _ _ _ Ht Hg) as [Hd Hgr].
    destruct (pool_inv_held _ _ _ _ _ _ _ Hpool Ht Hg) as [K1 K2].
    pose proof (crash_disc _ _ _ _ _ _ Hd Hst K1 K2) as Hloc.
    pose proof (Hthr _ _ _ _ _ Ha Ht Hg) as Htr.
    pose proof (rinv_read _ _ _ _ _ _ _ _ _ _ HR Ht Hg) as Hread.
    assert (Hr : ~ releasing t).
    { intros Hr. destruct t as [[]| | |]; try done; cbn [tdisc disc] in Hd; destruct Hd as [Em _]; inversion Hst; simplify_eq.
      - destruct (K1 m); by rewrite ?Em.
      - specialize (K2 m). rewrite Em in K2. rewrite K2 in *; done. }
    destruct a as [x|b].
    - destruct Htr as [(p & -> & Hf & _)|(Hf & -> & Hw)].
      { exfalso. destruct p; try done; inversion Hst. }
      specialize (Hw Da w Hsh (agree_refl _ _)).
      assert (HL : agree (cR h) (merge (cW h) Da (dat s)) (dat s)).
      { apply agree_single. intros y Hy. destruct (canW md y h) eqn:Ey.
        - eapply agree_get; [apply merge_agree|]. cbn beta; by rewrite Ey.
        - eapply agree_trans; [eapply (agree_get _ _ _ y (merge_agree_not _ _ _)); cbn beta; by rewrite Ey|].
          apply agree_sym, Hread; [done|]. by right. }
      specialize (Hloc _ HL). exists (Between x). split; [done|]. apply (wpT_crash _ _ _ _ _ _ _ _ Hw Hloc Hr).
    - destruct Htr as (_ & -> & Hh & Ds & HG & HA & Hw).
      assert (HL : agree (cR h) Ds (dat s)).
      { apply agree_single. intros y Hy. eapply agree_trans; [eapply agree_get; [exact HA|done]|].
        apply agree_sym, Hread; [done|]. done. }
      specialize (Hloc _ HL). exists (Inside b). split; [done|]. by apply (wpT_crash _ _ _ _ _ _ _ _ Hw Hloc Hr).
  Qed.

  (** No two goroutines of one Put work on the same index. *)
  Theorem sim_put gh ts s l w Da i cs d k :
    strict = true -> rinv gh ts s l w Da -> ts !! i = Some (TPut cs d k) -> NoDup (omap id cs).
  Proof.
    intros Hs HR Ht. pose proof HR as [Hpool Hlen Hsh Hthr Hquiet].
    destruct (lookup_lt_is_Some_2 gh i) as [[g h] Hg].
    { rewrite (pi_len _ _ _ _ _ Hpool). by eapply lookup_lt_Some. }
    destruct (lookup_lt_is_Some_2 l i) as [a Ha]; [rewrite Hlen; by eapply lookup_lt_Some|].
    pose proof (Hthr _ _ _ _ _ Ha Ht Hg) as Htr. destruct a as [x|b].
    - destruct Htr as [(p & E & _)|(Hf & -> & Hw)]; [done|].
      destruct (Hw Da w Hsh (agree_refl _ _)) as (_ & H & _). auto.
    - destruct Htr as (_ & -> & Hh & Ds & HG & HA & (_ & H & _)). auto.
  Qed.

  (** A call that is about to write an element of an alias list has not committed. *)
  Theorem sim_write gh ts s l w Da i t g arr j :
    rinv gh ts s l w Da -> ts !! i = Some t -> access t g (LElem arr j) true -> wrt Da arr j.
  Proof.
    intros HR Ht Hacc. pose proof HR as [Hpool Hlen Hsh Hthr Hquiet].
    destruct (lookup_lt_is_Some_2 gh i) as [[g' h] Hg].
    { rewrite (pi_len _ _ _ _ _ Hpool). by eapply lookup_lt_Some. }
    destruct (lookup_lt_is_Some_2 l i) as [a Ha]; [rewrite Hlen; by eapply lookup_lt_Some|].
    pose proof (Hthr _ _ _ _ _ Ha Ht Hg) as Htr. destruct a as [x|b].
    - destruct Htr as [(p & -> & Hf & _)|(Hf & -> & Hw)]; [destruct p; try done; by inversion Hacc|].
      specialize (Hw Da w Hsh (agree_refl _ _)). inversion Hacc; simplify_eq; simpl in Hw; naive_solver.
    - destruct Htr as (_ & -> & Hh & Ds & HG & HA & Hw). inversion Hacc; simplify_eq; simpl in Hw; naive_solver.
  Qed.

  Lemma rinv_start cs s w (xs : list X) :
    r_imu s = rw_free -> r_amu s = rw_free -> Forall (allowed md) cs ->
    (forall i r, leaks_of cs i r -> L i r) ->
    sh (dat s) w -> Forall2 (fun c x => link x (prog_of c) (dat s)) cs xs ->
    rinv (replicate (length cs) (true, none_held)) (start cs) s (Between <$> xs) w (dat s).
  Proof.
    intros E1 E2 Hc HL Hs Hx. split.
    - destruct (pool_start md cs s E1 E2 Hc) as [P1 P2 P3]. split; [done| |done].
      intros i t g h Ht Hg. destruct (P2 _ _ _ _ Ht Hg) as [Hd ?]. split; [|done].
      destruct t; simpl in *; [|unfold start in Ht; apply list_lookup_fmap_inv in Ht as (? & ? & _); done..].
      eapply disc_leak; [|exact Hd]. intros r. apply HL.
    - unfold start. rewrite !fmap_length. symmetry. by eapply Forall2_length.
    - done.
    - intros i a t g h Ha Ht Hg. apply lookup_replicate in Hg as [? _]. simplify_eq.
      apply list_lookup_fmap_inv in Ha as (x & -> & Ha). unfold start in Ht. apply list_lookup_fmap_inv in Ht as (c & -> & Ht).
      pose proof (Forall2_lookup_lr _ _ _ _ _ _ Hx Ht Ha) as Hl. simpl in Hl.
      assert (finished (TRun (prog_of c)) \/ ~ finished (TRun (prog_of c))) as [Hf|Hf] by (destruct (prog_of c); simpl; auto).
      + left. by exists (prog_of c).
      + right. split_and!; [done..|]. intros D0 w0 H0 _.
        rewrite merge_id by (split_and!; intros Hb; exfalso; destruct md; done).
        apply sections; [by eapply link_any|done|done].
    - intros x _. apply agree_refl.
  Qed.

  (** When every call has returned the abstract state describes the memory. *)
  Lemma rinv_end gh ts s l w Da : rinv gh ts s l w Da -> Forall finished ts -> dat s = Da.
  Proof.
    intros HR Hf. apply agree_all. apply agree_single. intros x _. apply (ri_quiet _ _ _ _ _ _ HR).
    intros i t h Hi _ Hn. destruct Hn. by eapply Forall_lookup_1.
  Qed.

  Lemma rinv_done gh ts s l w Da i p :
    rinv gh ts s l w Da -> ts !! i = Some (TRun p) -> finished (TRun p) ->
    exists x, l !! i = Some (Between x) /\ link x p Da.
  Proof.
    intros HR Ht Hf. pose proof HR as [Hpool Hlen Hsh Hthr Hquiet].
    destruct (lookup_lt_is_Some_2 gh i) as [[g h] Hg].
    { rewrite (pi_len _ _ _ _ _ Hpool). by eapply lookup_lt_Some. }
    destruct (lookup_lt_is_Some_2 l i) as [a Ha]; [rewrite Hlen; by eapply lookup_lt_Some|].
    pose proof (Hthr _ _ _ _ _ Ha Ht Hg) as Htr. destruct a as [x|b].
    - exists x. split; [done|]. destruct Htr as [(p' & E & _ & ?)|(? & _)]; [|done]. by simplify_eq.
    - by destruct Htr.
  Qed.
End simulation.
