(** * Any Index behaves like a log: simulation of AnyIndex.v by Sem.v.
    An object of any implementation is simulated by a MemoryIndex without tokens that
    records every Put (document and name used) in its documents; searching is done by
    an engine that reads that record back and rebuilds the object. *)
From Coq Require Import Lia.
From stdpp Require Import gmap list countable.
From Verif Require Import Entities Search SpecSearch Repo Sem RepoWp SpecRepo ProofRepo ProofTotal Locks AnyIndex SpecAny.
Open Scope nat_scope.

(** ** Writing a record into a string *)
Fixpoint str_of_pos (p : positive) : string :=
  match p with
  | xH => ""
  | xO p => String "0"%char (str_of_pos p)
  | xI p => String "1"%char (str_of_pos p)
  end.
Fixpoint pos_of_str (s : string) : positive :=
  match s with
  | EmptyString => xH
  | String c s => if decide (c = "0"%char) then xO (pos_of_str s) else xI (pos_of_str s)
  end.
Lemma pos_of_str_of p : pos_of_str (str_of_pos p) = p.
Proof. induction p as [p IH|p IH|]; simpl; [by rewrite IH..|done]. Qed.

Notation entry := (string * DocRequest)%type.
Notation entry_data := (string * (string * (string * (string * N))))%type.
Definition pack (x : entry) : entry_data :=
  (x.1, (req_Name x.2, (req_Content x.2, (req_statement x.2, req_MimeType x.2)))).
Definition unpack (y : entry_data) : entry :=
  (y.1, MkDocRequest y.2.1 y.2.2.1 y.2.2.2.1 y.2.2.2.2).
Lemma unpack_pack x : unpack (pack x) = x.
Proof. by destruct x as [n []]. Qed.

Definition enc (x : entry) : DocRequest := MkDocRequest "" (str_of_pos (encode (pack x))) "" 0%N.
Definition dec (d : Doc) : entry :=
  match decode (pos_of_str (doc_Raw d)) with Some y => unpack y | None => (""%string, MkDocRequest "" "" "" 0%N) end.
Lemma dec_enc x : dec (doc_of (enc x)) = x.
Proof. unfold dec, doc_of, enc, doc_Raw. simpl. by rewrite pos_of_str_of, decode_encode, unpack_pack. Qed.

(** No tokens at all. *)
Definition tk0 : Tokenizer := fun _ => [].

(** Reading the documents of an index through the Indexer interface. *)
Definition docs_of (ix : Indexer) : list Doc :=
  map (fun i => match ix_Document ix (Z.of_nat i) with Ok d => d | Panic => NewDoc "" "" end)
      (seq 0 (Z.to_nat (ix_Len ix))).
Lemma map_seq_lookup {A} (x : A) (l l0 : list A) :
  map (fun i => default x ((l0 ++ l) !! i)) (seq (length l0) (length l)) = l.
Proof.
  revert l0. induction l as [|y l IH]; intros l0; simpl; [done|]. f_equal.
  - by rewrite list_lookup_middle.
  - specialize (IH (l0 ++ [y])). rewrite app_length, <- app_assoc in IH. simpl in IH.
    by rewrite Nat.add_1_r in IH.
Qed.
Lemma docs_of_index ckn mi : docs_of (indexer_of ckn mi) = mi_Docs mi.
Proof.
  unfold docs_of, indexer_of, Len, Document, slice_get. simpl. rewrite Nat2Z.id.
  etransitivity; [|apply (map_seq_lookup (NewDoc "" "") (mi_Docs mi) [])]. apply map_ext. intros i. simpl.
  destruct (Z.ltb_spec (Z.of_nat i) 0); [lia|]. rewrite Nat2Z.id. by destruct (_ !! i).
Qed.
Lemma docs_index_after nm tk reqs : mi_Docs (index_after nm tk reqs) = doc_of <$> reqs.
Proof.
  unfold index_after. assert (forall mi, mi_Docs (fold_left Put reqs mi) = mi_Docs mi ++ (doc_of <$> reqs)) as E.
  { induction reqs as [|d reqs IH]; intros mi; simpl; [by rewrite app_nil_r|]. rewrite IH. simpl. by rewrite <- app_assoc. }
  by rewrite E.
Qed.
Lemma name_index_after nm tk reqs : mi_name (index_after nm tk reqs) = nm.
Proof.
  unfold index_after. assert (forall mi, mi_name (fold_left Put reqs mi) = mi_name mi) as E.
  { induction reqs as [|d reqs IH]; intros mi; simpl; [done|]. by rewrite IH. }
  by rewrite E.
Qed.

Section Any.
Context (im : implementation).

Definition wrap (q : string) (e : Engine) : Engine := fun _ ix =>
  match dec <$> docs_of ix with
  | [] => Panic
  | x :: log => im_search im (object im (x.1, x.2 :: log.*2)) q e
  end.

(** ** Objects *)
Definition orel (x : im_state im) (mi : MemoryIndex) : Prop :=
  exists nm log, mi = index_after nm tk0 (enc <$> log) /\ x = object im (nm, log.*2) /\
    (forall y log', log = y :: log' -> y.1 = nm).

Lemma orel_search ckn x mi q e :
  orel x mi -> mi_Docs mi <> [] -> mi_Search ckn mi q (wrap q e) = im_search im x q e.
Proof.
  intros (nm & log & -> & -> & Hh) Hd. rewrite docs_index_after in Hd. unfold mi_Search, wrap.
  rewrite docs_of_index, docs_index_after. destruct log as [|y log]; [done|]. simpl. rewrite dec_enc.
  rewrite (Hh y log eq_refl). do 4 f_equal.
  rewrite <- !list_fmap_compose. apply list_fmap_ext. intros i z _. simpl. by rewrite dec_enc.
Qed.
Lemma object_snoc nm ds d : object im (nm, ds ++ [d]) = im_put im d (object im (nm, ds)).
Proof. unfold object. simpl. by rewrite fold_left_app. Qed.
Lemma orel_put x mi m d :
  orel x mi -> (mi_Docs mi <> [] \/ mi_name mi = m) -> orel (im_put im d x) (Put mi (enc (m, d))).
Proof.
  intros (nm & log & -> & -> & Hh) Hd. rewrite docs_index_after, name_index_after in Hd.
  exists nm, (log ++ [(m, d)]). rewrite !fmap_app, index_after_snoc. simpl.
  rewrite object_snoc. split_and!; [done..|]. intros y log' E. destruct log as [|z log]; simplify_eq/=.
  - by destruct Hd.
  - by eapply Hh.
Qed.
Lemma orel_new n : orel (im_new im n) (NewMemoryIndex n tk0).
Proof. by exists n, []. Qed.

Record rI (g : gIpart im) (i : Ipart) : Prop := {
  rI_map : gi_map im g = i_map i;
  rI_next : gi_next im g = i_next i;
  rI_builder : i_builder i = NewMemoryIndexBuilder tk0;
  rI_ckn : i_ckn i = true;
  rI_fresh : forall p, i_next i <= p -> i_heap i !! p = None;
  rI_heap : forall p, match gi_heap im g !! p, i_heap i !! p with
    | Some x, Some mi => orel x mi
    | None, None => True
    | _, _ => False
    end }.
Record rel (gs : grepo im) (s : repo) : Prop := {
  rel_I : rI (g_I im gs) (r_I s);
  rel_A : g_A im gs = r_A s;
  rel_imu : g_imu im gs = r_imu s;
  rel_amu : g_amu im gs = r_amu s }.

(** The object [p] has been put into; or it is named [m]. *)
Definition full (s : repo) (p : ptr) : Prop :=
  exists mi, i_heap (r_I s) !! p = Some mi /\ mi_Docs mi <> [].
Definition named (m : string) (s : repo) (p : ptr) : Prop :=
  exists mi, i_heap (r_I s) !! p = Some mi /\ (mi_Docs mi <> [] \/ mi_name mi = m).
Lemma full_named m s p : full s p -> named m s p.
Proof. intros (mi & ? & ?). exists mi. auto. Qed.

(** ** Programs *)
Definition likeR (r r' : ret) : Prop := r = r' \/ exists t t', r = RText t /\ r' = RText t'.

Inductive like (m : string) : prog -> prog -> Prop :=
| K_Ret r r' : likeR r r' -> like m (Ret r) (Ret r')
| K_Throw : like m Throw Throw
| K_RLock mu k k' : like m k k' -> like m (RLock mu k) (RLock mu k')
| K_RUnlock mu k k' : like m k k' -> like m (RUnlock mu k) (RUnlock mu k')
| K_Lock mu k k' : like m k k' -> like m (Lock mu k) (Lock mu k')
| K_Unlock mu k k' : like m k k' -> like m (Unlock mu k) (Unlock mu k')
| K_GetIndex n k k' : (forall o, like m (k o) (k' o)) -> like m (GetIndex n k) (GetIndex n k')
| K_SetIndex n p k k' : like m k k' -> like m (SetIndex n p k) (SetIndex n p k')
| K_DelIndex n k k' : like m k k' -> like m (DelIndex n k) (DelIndex n k')
| K_RangeIndices k k' : (forall o, like m (k o) (k' o)) -> like m (RangeIndices k) (RangeIndices k')
| K_GetAlias a k k' : (forall o, like m (k o) (k' o)) -> like m (GetAlias a k) (GetAlias a k')
| K_SetAlias a sl k k' : like m k k' -> like m (SetAlias a sl k) (SetAlias a sl k')
| K_DelAlias a k k' : like m k k' -> like m (DelAlias a k) (DelAlias a k')
| K_RangeAliases k k' : (forall o, like m (k o) (k' o)) -> like m (RangeAliases k) (RangeAliases k')
| K_LoadElem sl i k k' : (forall o, like m (k o) (k' o)) -> like m (LoadElem sl i k) (LoadElem sl i k')
| K_StoreElem sl i v k k' : like m k k' -> like m (StoreElem sl i v k) (StoreElem sl i v k')
| K_Append sl v k k' : (forall o, like m (k o) (k' o)) -> like m (Append sl v k) (Append sl v k')
| K_MakeSlice l k k' : (forall o, like m (k o) (k' o)) -> like m (MakeSlice l k) (MakeSlice l k')
| K_NewIndex n k k' : (forall o, like m (k o) (k' o)) -> like m (NewIndex n k) (NewIndex n k')
| K_IdxPut p d k k' : like m k k' -> like m (IdxPut p d k) (IdxPut p (enc (m, d)) k')
| K_IdxSearch p q e k k' kp kp' :
    (forall o, like m (k o) (k' o)) -> like m kp kp' -> like m (IdxSearch p q e k kp) (IdxSearch p q (wrap q e) k' kp')
| K_IdxRead p k k' : (forall o o', like m (k o) (k' o')) -> like m (IdxRead p k) (IdxRead p k')
| K_GoPut ps d k k' : like m k k' -> like m (GoPut ps d k) (GoPut ps (enc (m, d)) k')
| K_GoSearch ps q e k k' : (forall o, like m (k o) (k' o)) -> like m (GoSearch ps q e k) (GoSearch ps q (wrap q e) k').

Inductive likeT (m : string) : thr -> thr -> Prop :=
| KT_Run p p' : like m p p' -> likeT m (TRun p) (TRun p')
| KT_Pend mu k k' : like m k k' -> likeT m (TPend mu k) (TPend mu k')
| KT_Put cs d k k' : like m k k' -> likeT m (TPut cs d k) (TPut cs (enc (m, d)) k')
| KT_Search cs q e r k k' :
    (forall o, like m (k o) (k' o)) -> likeT m (TSearch cs q e r k) (TSearch cs q (wrap q e) r k').

(** What has to hold of the indices a call is about to use. *)
Definition ready (m : string) (s : repo) (t : thr) : Prop :=
  match t with
  | TRun (NewIndex n _) => n = m
  | TRun (IdxPut p _ _) => named m s p
  | TRun (IdxSearch (Some p) _ _ _ _) => full s p
  | TPut cs _ _ => forall j p, cs !! j = Some (Some (Some p)) -> full s p
  | TSearch cs _ _ _ _ => forall j p, cs !! j = Some (SStart (Some p)) -> full s p
  | _ => True
  end.

Lemma rel_get_mu gs s m : rel gs s -> g_get_mu im m gs = get_mu m s.
Proof. intros []. by destruct m. Qed.
Lemma rel_set_mu gs s m w : rel gs s -> rel (g_set_mu im m w gs) (set_mu m w s).
Proof. intros []. by destruct m. Qed.
Lemma rel_set_A gs s x : rel gs s -> rel (g_set_A im x gs) (set_A x s).
Proof. by intros []. Qed.
Lemma rel_set_I gs s g i : rel gs s -> rI g i -> rel (g_set_I im g gs) (set_I i s).
Proof. by intros []. Qed.
Lemma rI_set g i n p : rI g i -> rI (gi_set im n p g) (i_set n p i).
Proof. intros [E]. split; try done. simpl. by rewrite E. Qed.
Lemma rI_del g i n : rI g i -> rI (gi_del im n g) (i_del n i).
Proof. intros [E]. split; try done. simpl. by rewrite E. Qed.
Lemma rI_new g i n : rI g i -> rI (gi_new im n g) (i_new n i).
Proof.
  intros [E1 E2 E3 E4 E5 E6]. split; simpl; try done; [by f_equal| |].
  - intros p Hp. rewrite lookup_insert_ne by lia. apply E5. lia.
  - intros p. rewrite E2, E3. destruct (decide (p = i_next i)) as [->|Hne].
    + rewrite !lookup_insert. apply orel_new.
    + rewrite !lookup_insert_ne by done. apply E6.
Qed.
Lemma rI_put gs s m p d : rel gs s -> named m s p -> rI (gi_put im p d (g_I im gs)) (i_put p (enc (m, d)) (r_I s)).
Proof.
  intros [[E1 E2 E3 E4 E5 E6] _ _ _] (mi & Hp & Hm). split; simpl; try done.
  - intros p' Hp'. rewrite lookup_alter_None. by apply E5.
  - intros p'. destruct (decide (p = p')) as [<-|Hne].
    + rewrite !lookup_alter. specialize (E6 p). rewrite Hp in *. destruct (gi_heap im _ !! p) as [x|]; [|done].
      simpl. by apply orel_put.
    + rewrite !lookup_alter_ne by done. apply E6.
Qed.
Lemma rel_search gs s p q e :
  rel gs s -> (forall p', p = Some p' -> full s p') -> gi_search im p q e (g_I im gs) = i_search p q (wrap q e) (r_I s).
Proof.
  intros [[E1 E2 E3 E4 E5 E6] _ _ _] Hf. unfold gi_search, i_search. destruct p as [p|]; [|done]. simpl.
  destruct (Hf p eq_refl) as (mi & Hp & Hd). specialize (E6 p). rewrite Hp in *.
  destruct (gi_heap im _ !! p) as [x|]; [|done]. symmetry. by apply orel_search.
Qed.

Definition matched (m : string) (gx : gtres im) (x : tres) : Prop :=
  match gx, x with
  | GNext _ t gs, TNext t' s => rel gs s /\ likeT m t t'
  | GCrash _, TCrash => True
  | _, _ => False
  end.

Ltac solve_rel := simpl;
  first
    [ done
    | by apply rel_set_mu
    | by apply rel_set_A
    | apply rel_set_I; [done|];
      first [ by apply rI_set; eapply rel_I | by apply rI_del; eapply rel_I | by apply rI_new; eapply rel_I
            | apply rI_put; eauto using full_named ] ].

Lemma sim_fwd m gs s t t' gx :
  rel gs s -> likeT m t t' -> ready m s t' -> gstep im gs t gx -> exists x, tstep s t' x /\ matched m gx x.
Proof.
  intros HR Hl Hr Hs.
  assert (EM : forall mu, g_get_mu im mu gs = get_mu mu s) by (intros; by apply rel_get_mu).
  pose proof (rel_A _ _ HR) as EA. pose proof (rI_map _ _ (rel_I _ _ HR)) as EI.
  pose proof (rI_next _ _ (rel_I _ _ HR)) as EN.
  destruct Hs; inversion Hl as [? ? Hp| | |]; simplify_eq; try (inversion Hp; simplify_eq); simpl in Hr;
    rewrite ?EM, ?EA, ?EI, ?EN in *.
  all: try match goal with H : gi_search _ _ _ _ _ = _ |- _ =>
    rewrite (rel_search _ s) in H; [|done|by intros ? ->; eauto] end.
  all: first
    [ eexists (TNext _ _); split; [by econstructor|]
    | exists TCrash; split; [by econstructor|done] ]; try (split; [|by constructor; auto]).
  all: solve_rel.
Qed.

Lemma sim_bwd m gs s t t' x :
  rel gs s -> likeT m t t' -> ready m s t' -> tstep s t' x -> exists gx, gstep im gs t gx /\ matched m gx x.
Proof.
  intros HR Hl Hr Hs.
  assert (EM : forall mu, get_mu mu s = g_get_mu im mu gs) by (intros; symmetry; by apply rel_get_mu).
  pose proof (rel_A _ _ HR) as EA. symmetry in EA. pose proof (rI_map _ _ (rel_I _ _ HR)) as EI. symmetry in EI.
  pose proof (rI_next _ _ (rel_I _ _ HR)) as EN. symmetry in EN.
  destruct Hs; inversion Hl as [? ? Hp| | |]; simplify_eq; try (inversion Hp; simplify_eq); simpl in Hr;
    rewrite ?EM, ?EA, ?EI, ?EN in *.
  all: try match goal with H : i_search _ _ _ _ = _ |- _ =>
    rewrite <- (rel_search gs s) in H; [|done|by intros ? ->; eauto] end.
  all: first
    [ eexists (GNext _ _ _); split; [by apply (G_IdxRead _ _ _ _ None)|]
    | eexists (GNext _ _ _); split; [by econstructor|]
    | exists (GCrash _); split; [by econstructor|done] ]; try (split; [|by constructor; auto]).
  all: solve_rel.
Qed.

(** ** Calls *)
Definition encc (c : call) : call :=
  match c with
  | CPut n d => CPut n (enc (n, d))
  | CSearch n q e => CSearch n q (wrap q e)
  | _ => c
  end.
Definition nm (c : call) : string := match c with CPut n _ => n | _ => ""%string end.

Section loops.
  Context (m : string).
  Lemma like_scan sl n : forall i index k k', (forall b, like m (k b) (k' b)) ->
    like m (scan_loop sl i n index k) (scan_loop sl i n index k').
  Proof. induction n as [|n IH]; intros i index k k' Hk; simpl; [done|]. constructor. intros x. destruct (decide _); auto. Qed.
  Lemma like_filter sl n : forall i index acc k k', (forall b, like m (k b) (k' b)) ->
    like m (filter_loop sl i n index acc k) (filter_loop sl i n index acc k').
  Proof.
    induction n as [|n IH]; intros i index acc k k' Hk; simpl; [done|]. constructor. intros x.
    destruct (decide _); [auto|]. constructor. auto.
  Qed.
  Lemma like_elems sl n : forall i old new k k', like m k k' ->
    like m (rename_elems sl i n old new k) (rename_elems sl i n old new k').
  Proof.
    induction n as [|n IH]; intros i old new k k' Hk; simpl; [done|]. constructor. intros x.
    destruct (decide _); [constructor|]; auto.
  Qed.
  Lemma like_rename l : forall old new k k', like m k k' -> like m (rename_loop l old new k) (rename_loop l old new k').
  Proof.
    induction l as [|a l IH]; intros old new k k' Hk; simpl; [done|]. constructor. intros [sl|]; [|auto].
    by apply like_elems; auto.
  Qed.
  Lemma like_resolve sl n : forall i acc k k', (forall b, like m (k b) (k' b)) ->
    like m (resolve_loop sl i n acc k) (resolve_loop sl i n acc k').
  Proof. induction n as [|n IH]; intros i acc k k' Hk; simpl; [done|]. constructor. intros x. constructor. auto. Qed.
  Lemma like_drop l : forall n k k', like m k k' -> like m (drop_loop l n k) (drop_loop l n k').
  Proof.
    induction l as [|a l IH]; intros n k k' Hk; simpl; [done|]. constructor. intros [sl|]; [|auto].
    apply like_filter. intros b. repeat destruct (decide _); try constructor; auto.
  Qed.
  Lemma like_rows l : forall acc k k', (forall b, like m (k b) (k' b)) -> like m (rows_loop l acc k) (rows_loop l acc k').
  Proof. induction l as [|a l IH]; intros acc k k' Hk; simpl; [done|]. constructor. intros [sl|]; auto. Qed.
  Lemma like_string show l : forall acc acc' k k', (forall b b', like m (k b) (k' b')) ->
    like m (string_loop show l acc k) (string_loop show l acc' k').
  Proof.
    induction l as [|a l IH]; intros acc acc' k k' Hk; simpl; [done|]. constructor. intros oi. constructor.
    intros [mi|] [mi'|]; auto.
  Qed.
  Lemma like_tail ps q e : like m (search_tail ps q e) (search_tail ps q (wrap q e)).
  Proof. destruct ps as [|p [|p' ps]]; simpl; repeat first [intros ?|constructor|by left]. Qed.
End loops.

Lemma like_call c : like (nm c) (prog_of c) (prog_of (encc c)).
Proof.
  destruct c; simpl; try unfold UnAlias_prog.
  all: repeat first
    [ done | by left | right; by eauto
    | apply like_scan | apply like_filter | apply like_rename | apply like_resolve | apply like_drop
    | apply like_rows | apply like_string | apply like_tail
    | match goal with
      | |- like _ (match ?x with _ => _ end) _ => destruct x
      | |- forall _, _ => intros ?
      end
    | constructor ].
Qed.

(** ** Searches only meet indices with documents *)
Fixpoint sp (m : string) (F N : ptr -> Prop) (p : prog) : Prop :=
  match p with
  | Ret _ | Throw => True
  | RLock _ k | RUnlock _ k | Lock _ k | Unlock _ k => sp m F N k
  | GetIndex n k => forall F' N' : ptr -> Prop, (forall p, F p -> F' p) -> (forall p, N p -> N' p) ->
      forall o, (forall p, o = Some p -> F' p) -> sp m F' N' (k o)
  | SetIndex n p k => (F p \/ exists d k', k = IdxPut p d k') /\ sp m F N k
  | DelIndex _ k | SetAlias _ _ k | DelAlias _ k | StoreElem _ _ _ k => sp m F N k
  | RangeIndices k => forall o, sp m F N (k o)
  | GetAlias _ k => forall o, sp m F N (k o)
  | RangeAliases k => forall o, sp m F N (k o)
  | LoadElem _ _ k => forall o, sp m F N (k o)
  | Append _ _ k => forall o, sp m F N (k o)
  | MakeSlice _ k => forall o, sp m F N (k o)
  | NewIndex n k => n = m /\ forall p, sp m F (fun q => N q \/ q = p) (k p)
  | IdxPut p _ k => N p /\ sp m F N k
  | IdxSearch o _ _ k kp => (forall p, o = Some p -> F p) /\ (forall o, sp m F N (k o)) /\ sp m F N kp
  | IdxRead _ k => forall o, sp m F N (k o)
  | GoPut ps _ k => (forall p, Some p ∈ ps -> F p) /\ sp m F N k
  | GoSearch ps _ _ k => (forall p, Some p ∈ ps -> F p) /\ forall o, sp m F N (k o)
  end.

Lemma sp_mono m p : forall (F N F' N' : ptr -> Prop), (forall p, F p -> F' p) -> (forall p, N p -> N' p) ->
  sp m F N p -> sp m F' N' p.
Proof.
  induction p; intros F N F' N' HF HN; simpl; try (by naive_solver).
  intros [-> Hs]. split; [done|]. intros p. eapply H; [..|apply Hs]; naive_solver.
Qed.


Section sp_loops.
  Context (m : string).
  Implicit Types F N : ptr -> Prop.
  Definition always_sp (k : prog) : Prop := forall F N, (forall p, F p -> N p) -> sp m F N k.
  Lemma sp_scan sl n : forall i index k, (forall b, always_sp (k b)) -> always_sp (scan_loop sl i n index k).
  Proof. induction n as [|n IH]; intros i index k Hk F N HN; simpl; [by apply Hk|]. intros x. destruct (decide _); [by apply Hk|by apply IH]. Qed.
  Lemma sp_filter sl n : forall i index acc k, (forall b, always_sp (k b)) -> always_sp (filter_loop sl i n index acc k).
  Proof.
    induction n as [|n IH]; intros i index acc k Hk F N HN; simpl; [by apply Hk|]. intros x.
    destruct (decide _); simpl; [by apply IH|]. intros o. by apply IH.
  Qed.
  Lemma sp_elems sl n : forall i old new k, always_sp k -> always_sp (rename_elems sl i n old new k).
  Proof. induction n as [|n IH]; intros i old new k Hk F N HN; simpl; [by apply Hk|]. intros x. destruct (decide _); by apply IH. Qed.
  Lemma sp_rename l : forall old new k, always_sp k -> always_sp (rename_loop l old new k).
  Proof.
    induction l as [|a l IH]; intros old new k Hk F N HN; simpl; [by apply Hk|]. intros [sl|]; [|by apply IH].
    apply sp_elems; [|done]. by apply IH.
  Qed.
  Lemma sp_drop l : forall n k, always_sp k -> always_sp (drop_loop l n k).
  Proof.
    induction l as [|a l IH]; intros n k Hk F N HN; simpl; [by apply Hk|]. intros [sl|]; [|by apply IH].
    apply sp_filter; [|done]. intros b F' N' HN'. repeat destruct (decide _); by apply IH.
  Qed.
  Lemma sp_rows l : forall acc k, (forall b, always_sp (k b)) -> always_sp (rows_loop l acc k).
  Proof. induction l as [|a l IH]; intros acc k Hk F N HN; simpl; [by apply Hk|]. intros [sl|]; by apply IH. Qed.
  Lemma sp_string show l : forall acc k, (forall b, always_sp (k b)) -> always_sp (string_loop show l acc k).
  Proof.
    induction l as [|a l IH]; intros acc k Hk F N HN; simpl; [by apply Hk|].
    intros F' N' H1 H2 o Ho [mi|].
    all: eapply sp_mono; [apply H1|apply H2|]; by apply IH.
  Qed.
  Lemma sp_resolve sl n : forall i acc k F N,
    (forall p, Some p ∈ acc -> F p) ->
    (forall F' N' b, (forall p, F p -> F' p) -> (forall p, N p -> N' p) -> (forall p, Some p ∈ b -> F' p) -> sp m F' N' (k b)) ->
    sp m F N (resolve_loop sl i n acc k).
  Proof.
    induction n as [|n IH]; intros i acc k F N Ha Hk; simpl; [by apply Hk|]. intros x F' N' H1 H2 o Ho.
    apply IH.
    - intros p Hp. apply elem_of_app in Hp as [Hp|Hp]; [auto|]. apply elem_of_list_singleton in Hp. by apply Ho.
    - intros F2 N2 b H3 H4. apply Hk; auto.
  Qed.
  Lemma sp_tail ps q e F N : (forall p, Some p ∈ ps -> F p) -> sp m F N (search_tail ps q e).
  Proof.
    intros Hp. destruct ps as [|p [|p' ps]]; simpl; [done| |done]. split_and!; [|done..].
    intros p1 ->. apply Hp. left.
  Qed.
End sp_loops.

Lemma sp_call c : always_sp (nm c) (prog_of (encc c)).
Proof.
  intros F N HN. destruct c; simpl.
  - done.
  - intros o. by apply sp_rows.
  - done.
  - done.
  - intros F' N' H1 H2 [p|] Ho; simpl; [|done]. intros [sl|]; [|done].
    eapply sp_mono; [apply H1|apply H2|]. apply sp_scan; [|done]. intros [] ? ? ?; done.
  - unfold UnAlias_prog. destruct (decide _); simpl; [done|]. intros F' N' H1 H2 [p|] Ho; simpl; [|done].
    intros [sl|]; simpl; [|done]. eapply sp_mono; [apply H1|apply H2|]. apply sp_filter; [|done].
    intros b ? ? ?. by destruct (decide _).
  - intros F' N' H1 H2 [p|] Ho; simpl.
    + split; [|done]. intros p' Hp. apply elem_of_list_singleton in Hp. simplify_eq. by apply Ho.
    + intros [sl|]; simpl.
      * apply sp_resolve; [intros p Hp; by apply elem_of_nil in Hp|]. intros F2 N2 b H3 H4 Hb. simpl. done.
      * split; [done|]. intros p. split; [right; by eauto|]. split; [by right|done].
  - intros F' N' H1 H2 [p|] Ho.
    + split_and!; [by apply Ho|done..].
    + simpl. intros [sl|]; simpl; [|done].
      apply sp_resolve; [intros p Hp; by apply elem_of_nil in Hp|]. intros F2 N2 b H3 H4 Hb. simpl. by apply sp_tail.
  - intros F' N' H1 H2 [p|] Ho; simpl; [|done]. split; [by left; apply Ho|]. intros l.
    eapply sp_mono; [apply H1|apply H2|]. by apply sp_rename.
  - intros F' N' H1 H2 [p|] Ho; simpl; [|done]. intros l.
    eapply sp_mono; [apply H1|apply H2|]. by apply sp_drop.
  - intros l. by apply sp_string.
Qed.

(** ** Calls running at once *)
Definition spT (m : string) (s : repo) (t : thr) : Prop :=
  match t with
  | TRun p => sp m (full s) (named m s) p
  | TPend _ k => sp m (full s) (named m s) k
  | TPut cs _ k => (forall j p, cs !! j = Some (Some (Some p)) -> full s p) /\ sp m (full s) (named m s) k
  | TSearch cs _ _ _ k =>
      (forall j p, cs !! j = Some (SStart (Some p)) -> full s p) /\ forall r, sp m (full s) (named m s) (k r)
  end.

Lemma spT_ready m s t : spT m s t -> ready m s t.
Proof.
  destruct t as [p| |cs d k|cs q e r k]; simpl; [|done|by intros []|by intros []].
  destruct p; simpl; try done; [by intros []..|]. destruct p; naive_solver.
Qed.

Record grows (s s' : repo) : Prop := {
  gr_full : forall p, full s p -> full s' p;
  gr_named : forall m p, named m s p -> named m s' p }.
Lemma spT_grows m s s' t : grows s s' -> spT m s t -> spT m s' t.
Proof.
  intros [Hf Hn]. destruct t; simpl.
  1-2: by apply sp_mono; auto.
  - intros [H1 H2]. split; [eauto|]. eapply sp_mono; [..|apply H2]; auto.
  - intros [H1 H2]. split; [eauto|]. intros r. eapply sp_mono; [..|apply H2]; auto.
Qed.
Lemma grows_refl s : grows s s.
Proof. done. Qed.
Lemma grows_heap s s' : i_heap (r_I s') = i_heap (r_I s) -> grows s s'.
Proof. intros E. split; unfold full, named; rewrite E; done. Qed.
Lemma grows_put s p d : grows s (set_I (i_put p d (r_I s)) s).
Proof.
  assert (forall mi, mi_Docs (Put mi d) <> []) by (intros mi; simpl; by destruct (mi_Docs mi)).
  split; [intros p' (mi & Hp & Hd)|intros m p' (mi & Hp & Hd)].
  all: destruct (decide (p = p')) as [<-|Hne]; unfold full, named; simpl;
    [rewrite lookup_alter, Hp; eexists; by eauto|rewrite lookup_alter_ne by done; by eauto].
Qed.
Lemma full_put s p d m : named m s p -> full (set_I (i_put p d (r_I s)) s) p.
Proof.
  intros (mi & Hp & _). unfold full. simpl. rewrite lookup_alter, Hp. eexists. split; [done|].
  simpl. by destruct (mi_Docs mi).
Qed.
Lemma grows_new s n : i_heap (r_I s) !! i_next (r_I s) = None -> grows s (set_I (i_new n (r_I s)) s).
Proof.
  intros E. split; [intros p' (mi & Hp & Hd)|intros m p' (mi & Hp & Hd)]; unfold full, named; simpl;
    rewrite lookup_insert_ne by congruence; by eauto.
Qed.

Lemma step_sp m s t t' s' :
  i_builder (r_I s) = NewMemoryIndexBuilder tk0 -> i_heap (r_I s) !! i_next (r_I s) = None ->
  spT m s t -> (forall n k p, t = TRun (GetIndex n k) -> i_map (r_I s) !! n = Some p -> full s p) ->
  tstep s t (TNext t' s') -> grows s s' /\ spT m s' t'.
Proof.
  intros Hb Hf Ht Hg Hs.
  assert (grows s s') as Hgr.
  { inversion Hs; simplify_eq; first [by apply grows_heap; destruct m0|by apply grows_heap|apply grows_put|by apply grows_new]. }
  split; [done|]. apply (spT_grows m s s') in Ht; [|done].
  inversion Hs; simplify_eq; simpl in Ht |- *.

  all: try done.
  all: try (by naive_solver).
  - destruct Ht as [-> Ht]. eapply sp_mono; [..|apply Ht]; [done|]. intros p [Hp| ->]; [done|].
    exists (i_builder (r_I s) m). simpl. rewrite lookup_insert. split; [done|]. right. by rewrite Hb.
  - destruct Ht as [Hta Htb]. split; [|done]. intros j p Hj. rewrite list_lookup_fmap in Hj.
    destruct (ps !! j) as [o|] eqn:E; simplify_eq/=. apply Hta. by eapply elem_of_list_lookup_2.
  - destruct Ht as [Hta Htb]. split; [|done]. intros j p0 Hj.
    apply list_lookup_insert_Some in Hj as [(? & ? & ?)|[? Hj]]; [done|eauto].
  - destruct Ht as [Hta Htb]. split; [|done]. intros j p Hj. rewrite list_lookup_fmap in Hj.
    destruct (ps !! j) as [o|] eqn:E; simplify_eq/=. apply Hta. by eapply elem_of_list_lookup_2.
  - destruct Ht as [Hta Htb]. split; [|done]. intros j p0 Hj.
    apply list_lookup_insert_Some in Hj as [(? & ? & ?)|[? Hj]]; [done|eauto].
  - destruct Ht as [Hta Htb]. split; [|done]. intros j p0 Hj.
    apply list_lookup_insert_Some in Hj as [(? & ? & ?)|[? Hj]]; [done|eauto].
  - destruct Ht as [Hta Htb]. split; [|done]. intros j p0 Hj.
    apply list_lookup_insert_Some in Hj as [(? & ? & ?)|[? Hj]]; [done|eauto].
  - destruct Ht as [Hta Htb]. split; [|done]. intros j p0 Hj.
    apply list_lookup_insert_Some in Hj as [(? & ? & ?)|[? Hj]]; [done|eauto].
  - destruct Ht as [Hta Htb]. split; [|done]. intros j p0 Hj.
    apply list_lookup_insert_Some in Hj as [(? & ? & ?)|[? Hj]]; [done|eauto].
Qed.

(** Every index in the table has documents, except one that a Put is just making. *)
Definition tab (ts : list thr) (s : repo) : Prop :=
  forall n p, i_map (r_I s) !! n = Some p -> full s p \/ exists j d k, ts !! j = Some (TRun (IdxPut p d k)).
(** Nobody looks into the table while a Put is making an index. *)
Definition excl (ts : list thr) : Prop :=
  forall i j n k p d k', ts !! i = Some (TRun (GetIndex n k)) -> ts !! j = Some (TRun (IdxPut p d k')) -> False.

Lemma step_tab ts s i m t t' s' :
  tab ts s -> ts !! i = Some t -> grows s s' -> spT m s t -> tstep s t (TNext t' s') -> tab (<[i := t']> ts) s'.
Proof.
  intros Ht Hi Hg Hsp Hs n p Hp.
  assert (i < length ts) as Hlt by (by eapply lookup_lt_Some).
  assert (i_map (r_I s) !! n = Some p ->
    (forall d k, t <> TRun (IdxPut p d k)) \/ full s' p ->
    full s' p \/ exists j d k, <[i := t']> ts !! j = Some (TRun (IdxPut p d k))) as Hold.
  { intros Ho [Hne|Hf]; [|by left]. destruct (Ht n p Ho) as [Hf|(j & d & k & Hj)]; [left; by apply Hg|].
    right. exists j, d, k. rewrite list_lookup_insert_ne; [done|]. intros ->. rewrite Hi in Hj. simplify_eq. by eapply Hne. }
  inversion Hs; simplify_eq; try (by apply Hold; [|left]).
  - apply Hold; [by destruct m0|by left].
  - apply Hold; [by destruct m0|by left].
  - apply Hold; [by destruct m0|by left].
  - apply Hold; [by destruct m0|by left].
  - apply Hold; [by destruct m0|by left].
  - simpl in Hp. destruct (decide (n0 = n)) as [->|Hne].
    + rewrite lookup_insert in Hp. simplify_eq. destruct Hsp as [[Hf|(d & k' & ->)] _]; [left; by apply Hg|].
      right. exists i, d, k'. by rewrite list_lookup_insert.
    + rewrite lookup_insert_ne in Hp by done. apply Hold; [done|by left].
  - simpl in Hp. apply lookup_delete_Some in Hp as [_ Hp]. apply Hold; [done|by left].
  - destruct (decide (p0 = p)) as [->|Hne].
    + left. destruct Hsp as [Hn _]. by eapply full_put.
    + apply Hold; [done|left]. intros ? ? ?. simplify_eq.
Qed.

Record psim (cs : list call) (gts : list thr) (gs : grepo im) (ts : list thr) (s : repo) : Prop := {
  ps_rel : rel gs s;
  ps_tab : tab ts s;
  ps_len : length gts = length ts;
  ps_thr : forall i t t', gts !! i = Some t -> ts !! i = Some t' ->
    exists c, cs !! i = Some c /\ likeT (nm c) t t' /\ spT (nm c) s t' }.

Definition pmatch (cs : list call) (gp : gpool im) (p : pool) : Prop :=
  match gp, p with
  | GPool _ gts gs, Pool ts s => psim cs gts gs ts s
  | GCrashed _, PCrashed => True
  | _, _ => False
  end.

Lemma rel_fresh gs s : rel gs s -> i_heap (r_I s) !! i_next (r_I s) = None.
Proof. intros [[_ _ _ _ H _] _ _ _]. by apply H. Qed.

Lemma psim_next cs gts gs ts s i c t t' t1 gs1 t1' s1 :
  psim cs gts gs ts s -> excl ts -> gts !! i = Some t -> ts !! i = Some t' -> cs !! i = Some c ->
  spT (nm c) s t' -> rel gs1 s1 -> likeT (nm c) t1 t1' -> tstep s t' (TNext t1' s1) ->
  psim cs (<[i := t1]> gts) gs1 (<[i := t1']> ts) s1.
Proof.
  intros [HR HT HL HS] Hx Hi Hi' Hc Hsp HR1 Hl1 Hs.
  destruct (step_sp (nm c) s t' t1' s1) as [Hg Hsp1]; [apply HR|by eapply rel_fresh|done| |done|].
  { intros n k p -> Hp. destruct (HT n p Hp) as [?|(j & d & k' & Hj)]; [done|]. by destruct (Hx _ _ _ _ _ _ _ Hi' Hj). }
  split; [done|by eapply step_tab|by rewrite !insert_length|].
  intros j u u' Hj Hj'. apply list_lookup_insert_Some in Hj as [(-> & <- & _)|[Hne Hj]].
  - rewrite list_lookup_insert in Hj' by (by eapply lookup_lt_Some). simplify_eq. by exists c.
  - rewrite list_lookup_insert_ne in Hj' by done. destruct (HS _ _ _ Hj Hj') as (c' & ? & ? & ?).
    exists c'. split_and!; [done..|]. by eapply spT_grows.
Qed.

Lemma psim_fwd cs gts gs ts s gp :
  psim cs gts gs ts s -> excl ts -> gpstep im (GPool im gts gs) gp ->
  exists p, pstep (Pool ts s) p /\ pmatch cs gp p.
Proof.
  intros HP Hx Hs. pose proof HP as [HR HT HL HS]. inversion Hs as [? ? i t t1 gs1 Hi Ht|? ? i t Hi Ht]; simplify_eq.
  all: destruct (lookup_lt_is_Some_2 ts i) as [t' Hi']; [rewrite <- HL; by eapply lookup_lt_Some|].
  all: destruct (HS _ _ _ Hi Hi') as (c & Hc & Hl & Hsp).
  all: destruct (sim_fwd _ _ _ _ _ _ HR Hl (spT_ready _ _ _ Hsp) Ht) as (x & Hx1 & Hm).
  - destruct x as [t1' s1|]; [|done]. destruct Hm as [HR1 Hl1]. eexists. split; [by eapply P_step|].
    simpl. by eapply psim_next.
  - destruct x as [t1' s1|]; [done|]. eexists. split; [by eapply P_crash|done].
Qed.
Lemma psim_bwd cs gts gs ts s p :
  psim cs gts gs ts s -> excl ts -> pstep (Pool ts s) p ->
  exists gp, gpstep im (GPool im gts gs) gp /\ pmatch cs gp p.
Proof.
  intros HP Hx Hs. pose proof HP as [HR HT HL HS]. inversion Hs as [? ? i t' t1' s1 Hi' Ht|? ? i t' Hi' Ht]; simplify_eq.
  all: destruct (lookup_lt_is_Some_2 gts i) as [t Hi]; [rewrite HL; by eapply lookup_lt_Some|].
  all: destruct (HS _ _ _ Hi Hi') as (c & Hc & Hl & Hsp).
  all: destruct (sim_bwd _ _ _ _ _ _ HR Hl (spT_ready _ _ _ Hsp) Ht) as (x & Hx1 & Hm).
  - destruct x as [t1 gs1|]; [|done]. destruct Hm as [HR1 Hl1]. eexists. split; [by eapply GP_step|].
    simpl. by eapply psim_next.
  - destruct x as [t1 gs1|]; [done|]. eexists. split; [by eapply GP_crash|done].
Qed.

Lemma psim_rtc_fwd cs gts gs ts s gp :
  psim cs gts gs ts s -> (forall ts1 s1, rtc pstep (Pool ts s) (Pool ts1 s1) -> excl ts1) ->
  rtc (gpstep im) (GPool im gts gs) gp -> exists p, rtc pstep (Pool ts s) p /\ pmatch cs gp p.
Proof.
  intros HP Hx Hr.
  refine (rtc_ind_r (R := gpstep im) (fun gp => exists p, rtc pstep (Pool ts s) p /\ pmatch cs gp p) _ _ _ _ Hr).
  - eexists. by split; [apply rtc_refl|].
  - intros y z _ Hs ([ts1 s1|] & Hr1 & Hm); destruct y as [gts1 gs1|]; simpl in Hm; try done; [|by inversion Hs].
    destruct (psim_fwd _ _ _ _ _ _ Hm (Hx _ _ Hr1) Hs) as (p & Hp & Hm'). exists p. split; [|done]. by eapply rtc_r.
Qed.
Lemma psim_rtc_bwd cs gts gs ts s p :
  psim cs gts gs ts s -> (forall ts1 s1, rtc pstep (Pool ts s) (Pool ts1 s1) -> excl ts1) ->
  rtc pstep (Pool ts s) p -> exists gp, rtc (gpstep im) (GPool im gts gs) gp /\ pmatch cs gp p.
Proof.
  intros HP Hx Hr.
  refine (rtc_ind_r (R := pstep) (fun p => exists gp, rtc (gpstep im) (GPool im gts gs) gp /\ pmatch cs gp p) _ _ _ _ Hr).
  - eexists. by split; [apply rtc_refl|].
  - intros y z Hy Hs (gp & Hr1 & Hm). destruct gp as [gts1 gs1|], y as [ts1 s1|]; simpl in Hm; try done; [|by inversion Hs].
    destruct (psim_bwd _ _ _ _ _ _ Hm (Hx _ _ Hy) Hs) as (gp' & Hp & Hm'). exists gp'. split; [|done]. by eapply rtc_r.
Qed.

(** ** Starting *)
Lemma start_psim cs gs s : rel gs s -> tab [] s -> psim cs (start cs) gs (start (encc <$> cs)) s.
Proof.
  intros HR HT. split; [done| | |].
  - intros n p Hp. destruct (HT n p Hp) as [?|(j & ? & ? & Hj)]; [by left|done].
  - unfold start. by rewrite !fmap_length.
  - unfold start. intros i t t' Hi Hi'. rewrite !list_lookup_fmap in *. destruct (cs !! i) as [c|] eqn:Hc; simplify_eq/=.
    exists c. split_and!; [done|constructor; apply like_call|]. simpl. apply sp_call. intros p. apply full_named.
Qed.
Lemma excl_one (t : thr) : excl [t].
Proof. intros [|i] [|j] n k p d k' Hi Hj; simplify_eq/=. Qed.
Lemma pool_inv_excl md L gh ts s : pool_inv md L gh ts s -> excl ts.
Proof.
  intros HP i j n k p d k' Hi Hj. pose proof HP as [H1 H2 _].
  destruct (lookup_lt_is_Some_2 gh i) as [[gi hi] Hgi]; [rewrite H1; by eapply lookup_lt_Some|].
  destruct (lookup_lt_is_Some_2 gh j) as [[gj hj] Hgj]; [rewrite H1; by eapply lookup_lt_Some|].
  destruct (H2 _ _ _ _ Hi Hgi) as [[Hr _] _]. destruct (H2 _ _ _ _ Hj Hgj) as [(_ & Hw & _) _].
  assert (i <> j) as Hne by (intros ->; congruence).
  destruct (pool_inv_compat _ _ _ _ _ _ _ _ _ _ _ HP Hgi Hgj Hne) as [[_ Hc] _].
  destruct md; simpl in Hr, Hw; specialize (Hc Hw); by rewrite Hc in Hr.
Qed.
End Any.
