(** * Model: the repository with any implementation of the Index interface.
    index_index.go:9-14: the repo gets a Builder, a function from names to values of
    the interface type Index, and knows nothing else about its indices.  This file
    runs the programs of Repo.v on objects of any type.  Assumed of the
    implementation: its methods return (Search may also panic), Search does not
    change the object, what they do depends on the object and the arguments only, and
    the builder makes a new object each time.  No proofs in this file. *)
From Verif Require Export Entities Search Repo Sem.

(** index_index.go:9-14.  [im_put] is the effect of Put on the object; the Index it
    returns is not used by the repo (repos_repo.go:224 and 232). *)
Record implementation := MkImpl {
  im_state : Type;
  im_new : string -> im_state;
  im_put : DocRequest -> im_state -> im_state;
  im_search : im_state -> string -> Engine -> outcome (list SearchResult) }.

(** index_memory_index.go:11-79: MemoryIndex, with a tokenizer that may depend on the
    name given to the builder. *)
Definition memory (ckn : bool) (tk : string -> Tokenizer) : implementation :=
  MkImpl MemoryIndex (fun n => NewMemoryIndex n (tk n)) (fun d mi => Put mi d) (mi_Search ckn).

Section AnyIndex.
Context (im : implementation).

(** repos_repo.go:35-42.  The alias part is that of Repo.v. *)
Record gIpart := MkGI {
  gi_map : gmap string ptr;
  gi_heap : gmap ptr (im_state im);
  gi_next : ptr }.
Record grepo := MkGRepo { g_I : gIpart; g_A : Apart; g_imu : rwmutex; g_amu : rwmutex }.

(** repos_repo.go:318-326 *)
Definition gnew : grepo :=
  MkGRepo (MkGI ∅ ∅ 0) (MkA ∅ {[0%nat := []]} 1) rw_free rw_free.

Definition g_get_mu (m : mutex) (s : grepo) : rwmutex :=
  match m with MI => g_imu s | MA => g_amu s end.
Definition g_set_mu (m : mutex) (w : rwmutex) (s : grepo) : grepo :=
  match m with
  | MI => MkGRepo (g_I s) (g_A s) w (g_amu s)
  | MA => MkGRepo (g_I s) (g_A s) (g_imu s) w
  end.
Definition g_set_I (i : gIpart) (s : grepo) : grepo := MkGRepo i (g_A s) (g_imu s) (g_amu s).
Definition g_set_A (a : Apart) (s : grepo) : grepo := MkGRepo (g_I s) a (g_imu s) (g_amu s).

Definition gi_set (n : string) (p : ptr) (i : gIpart) : gIpart :=
  MkGI (<[n := p]> (gi_map i)) (gi_heap i) (gi_next i).
Definition gi_del (n : string) (i : gIpart) : gIpart :=
  MkGI (delete n (gi_map i)) (gi_heap i) (gi_next i).
(** h.indexBuilder(n): a new object *)
Definition gi_new (n : string) (i : gIpart) : gIpart :=
  MkGI (gi_map i) (<[gi_next i := im_new im n]> (gi_heap i)) (S (gi_next i)).
(** p.Put(d) *)
Definition gi_put (p : ptr) (d : DocRequest) (i : gIpart) : gIpart :=
  MkGI (gi_map i) (alter (im_put im d) p (gi_heap i)) (gi_next i).
(** p.Search(q, e) *)
Definition gi_search (p : option ptr) (q : string) (e : Engine) (i : gIpart) : outcome (list SearchResult) :=
  match p ≫= fun p => gi_heap i !! p with Some x => im_search im x q e | None => Panic end.

Inductive gtres := GNext (t : thr) (s : grepo) | GCrash.

(** One step of a call, as [tstep] in Sem.v. *)
Inductive gstep (s : grepo) : thr -> gtres -> Prop :=
(* locks *)
| G_RLock m k w :
    g_get_mu m s = w -> rw_pending w = false -> rw_writer w = false ->
    gstep s (TRun (RLock m k))
      (GNext (TRun k) (g_set_mu m (MkRW (S (rw_readers w)) false false) s))
| G_RUnlock m k w n :
    g_get_mu m s = w -> rw_readers w = S n ->
    gstep s (TRun (RUnlock m k)) (GNext (TRun k) (g_set_mu m (MkRW n (rw_pending w) (rw_writer w)) s))
| G_RUnlock_bad m k :
    rw_readers (g_get_mu m s) = 0%nat -> gstep s (TRun (RUnlock m k)) GCrash
| G_Announce m k w :
    g_get_mu m s = w -> rw_pending w = false -> rw_writer w = false ->
    gstep s (TRun (Lock m k)) (GNext (TPend m k) (g_set_mu m (MkRW (rw_readers w) true false) s))
| G_Acquire m k :
    rw_readers (g_get_mu m s) = 0%nat ->
    gstep s (TPend m k) (GNext (TRun k) (g_set_mu m (MkRW 0 false true) s))
| G_Unlock m k w :
    g_get_mu m s = w -> rw_writer w = true ->
    gstep s (TRun (Unlock m k)) (GNext (TRun k) (g_set_mu m (MkRW (rw_readers w) (rw_pending w) false) s))
| G_Unlock_bad m k :
    rw_writer (g_get_mu m s) = false -> gstep s (TRun (Unlock m k)) GCrash
(* indices *)
| G_GetIndex n k : gstep s (TRun (GetIndex n k)) (GNext (TRun (k (gi_map (g_I s) !! n))) s)
| G_SetIndex n p k : gstep s (TRun (SetIndex n p k)) (GNext (TRun k) (g_set_I (gi_set n p (g_I s)) s))
| G_DelIndex n k : gstep s (TRun (DelIndex n k)) (GNext (TRun k) (g_set_I (gi_del n (g_I s)) s))
| G_RangeIndices k names :
    names ≡ₚ (map_to_list (gi_map (g_I s))).*1 ->
    gstep s (TRun (RangeIndices k)) (GNext (TRun (k names)) s)
| G_NewIndex n k :
    gstep s (TRun (NewIndex n k)) (GNext (TRun (k (gi_next (g_I s)))) (g_set_I (gi_new n (g_I s)) s))
| G_IdxPut p d k : gstep s (TRun (IdxPut p d k)) (GNext (TRun k) (g_set_I (gi_put p d (g_I s)) s))
| G_IdxSearch p q e k kp sr :
    gi_search p q e (g_I s) = Ok sr ->
    gstep s (TRun (IdxSearch p q e k kp)) (GNext (TRun (k sr)) s)
| G_IdxSearch_panic p q e k kp :
    gi_search p q e (g_I s) = Panic ->
    gstep s (TRun (IdxSearch p q e k kp)) (GNext (TRun kp) s)
(* fmt.Sprintln(index) prints something *)
| G_IdxRead p k o : gstep s (TRun (IdxRead p k)) (GNext (TRun (k o)) s)
(* aliases *)
| G_GetAlias a k : gstep s (TRun (GetAlias a k)) (GNext (TRun (k (a_map (g_A s) !! a))) s)
| G_SetAlias a sl k : gstep s (TRun (SetAlias a sl k)) (GNext (TRun k) (g_set_A (a_set a sl (g_A s)) s))
| G_DelAlias a k : gstep s (TRun (DelAlias a k)) (GNext (TRun k) (g_set_A (a_del a (g_A s)) s))
| G_RangeAliases k names :
    names ≡ₚ (map_to_list (a_map (g_A s))).*1 ->
    gstep s (TRun (RangeAliases k)) (GNext (TRun (k names)) s)
| G_LoadElem sl i k : gstep s (TRun (LoadElem sl i k)) (GNext (TRun (k (a_load sl i (g_A s)))) s)
| G_StoreElem sl i v k :
    gstep s (TRun (StoreElem sl i v k)) (GNext (TRun k) (g_set_A (a_store sl i v (g_A s)) s))
| G_Append sl v k cap :
    (sl_len sl < cap)%nat ->
    gstep s (TRun (Append sl v k))
      (GNext (TRun (k (a_append sl v cap (g_A s)).2)) (g_set_A (a_append sl v cap (g_A s)).1 s))
| G_MakeSlice l k :
    gstep s (TRun (MakeSlice l k))
      (GNext (TRun (k (a_alloc l (length l) (g_A s)).2)) (g_set_A (a_alloc l (length l) (g_A s)).1 s))
(* goroutines of Put *)
| G_GoPut ps d k : gstep s (TRun (GoPut ps d k)) (GNext (TPut (map Some ps) d k) s)
| G_PutChild cs d k i p :
    cs !! i = Some (Some (Some p)) ->
    gstep s (TPut cs d k) (GNext (TPut (<[i := None]> cs) d k) (g_set_I (gi_put p d (g_I s)) s))
| G_PutChild_nil cs d k i :
    cs !! i = Some (Some None) -> gstep s (TPut cs d k) GCrash
| G_PutWait cs d k :
    Forall (fun c => c = None) cs -> gstep s (TPut cs d k) (GNext (TRun k) s)
(* goroutines of Search *)
| G_GoSearch ps q e k :
    gstep s (TRun (GoSearch ps q e k)) (GNext (TSearch (map SStart ps) q e [] k) s)
| G_Child_search cs q e r k i p sr :
    cs !! i = Some (SStart p) -> gi_search p q e (g_I s) = Ok sr ->
    gstep s (TSearch cs q e r k) (GNext (TSearch (<[i := SGot sr]> cs) q e r k) s)
| G_Child_panic cs q e r k i p :
    cs !! i = Some (SStart p) -> gi_search p q e (g_I s) = Panic ->
    gstep s (TSearch cs q e r k) GCrash
| G_Child_lock cs q e r k i sr :
    cs !! i = Some (SGot sr) -> Forall (fun c => holds_rl c = false) cs ->
    gstep s (TSearch cs q e r k) (GNext (TSearch (<[i := SHold sr]> cs) q e r k) s)
| G_Child_read cs q e r k i sr :
    cs !! i = Some (SHold sr) ->
    gstep s (TSearch cs q e r k) (GNext (TSearch (<[i := SRead sr r]> cs) q e r k) s)
| G_Child_write cs q e r k i sr old :
    cs !! i = Some (SRead sr old) ->
    gstep s (TSearch cs q e r k) (GNext (TSearch (<[i := SRel]> cs) q e (old ++ sr) k) s)
| G_Child_unlock cs q e r k i :
    cs !! i = Some SRel ->
    gstep s (TSearch cs q e r k) (GNext (TSearch (<[i := SDone]> cs) q e r k) s)
| G_SearchWait cs q e r k :
    Forall (fun c => c = SDone) cs -> gstep s (TSearch cs q e r k) (GNext (TRun (k r)) s).

(** Concurrent calls. *)
Inductive gpool := GPool (ts : list thr) (s : grepo) | GCrashed.

Inductive gpstep : gpool -> gpool -> Prop :=
| GP_step ts s i t t' s' :
    ts !! i = Some t -> gstep s t (GNext t' s') ->
    gpstep (GPool ts s) (GPool (<[i := t']> ts) s')
| GP_crash ts s i t :
    ts !! i = Some t -> gstep s t GCrash -> gpstep (GPool ts s) GCrashed.

(** How a call issued alone ends. *)
Inductive gresult :=
| GDone (r : ret) (s : grepo)
| GPanicked (s : grepo)
| GKilled
| GBlocked.

Inductive gcall_result (c : call) (s : grepo) : gresult -> Prop :=
| GC_done r s' : rtc gpstep (GPool [TRun (prog_of c)] s) (GPool [TRun (Ret r)] s') -> gcall_result c s (GDone r s')
| GC_panic s' : rtc gpstep (GPool [TRun (prog_of c)] s) (GPool [TRun Throw] s') -> gcall_result c s (GPanicked s')
| GC_crash : rtc gpstep (GPool [TRun (prog_of c)] s) GCrashed -> gcall_result c s GKilled
| GC_block t s' :
    rtc gpstep (GPool [TRun (prog_of c)] s) (GPool [t] s') -> ~ finished t ->
    (forall x, ~ gpstep (GPool [t] s') x) -> gcall_result c s GBlocked.
End AnyIndex.
