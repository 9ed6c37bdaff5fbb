(** * Semantics of repo programs: one goroutine per API call, interleaved at
    every shared-memory action, with sync.RWMutex, sync.Mutex and WaitGroup.
    No proofs in this file. *)
From Verif Require Export Entities Search Repo.

Definition get_mu (m : mutex) (s : repo) : rwmutex :=
  match m with MI => r_imu s | MA => r_amu s end.
Definition set_mu (m : mutex) (w : rwmutex) (s : repo) : repo :=
  match m with
  | MI => MkRepo (r_I s) (r_A s) w (r_amu s)
  | MA => MkRepo (r_I s) (r_A s) (r_imu s) w
  end.
Definition set_I (i : Ipart) (s : repo) : repo := MkRepo i (r_A s) (r_imu s) (r_amu s).
Definition set_A (a : Apart) (s : repo) : repo := MkRepo (r_I s) a (r_imu s) (r_amu s).

(** Operations on the parts. *)
Definition i_set (n : string) (p : ptr) (i : Ipart) : Ipart :=
  MkI (<[n := p]> (i_map i)) (i_heap i) (i_next i) (i_builder i) (i_ckn i).
Definition i_del (n : string) (i : Ipart) : Ipart :=
  MkI (delete n (i_map i)) (i_heap i) (i_next i) (i_builder i) (i_ckn i).
Definition i_new (n : string) (i : Ipart) : Ipart :=
  MkI (i_map i) (<[i_next i := i_builder i n]> (i_heap i)) (S (i_next i)) (i_builder i) (i_ckn i).
Definition i_put (p : ptr) (d : DocRequest) (i : Ipart) : Ipart :=
  MkI (i_map i) (alter (fun mi => Put mi d) p (i_heap i)) (i_next i) (i_builder i) (i_ckn i).
(** p.Search(q, e): a nil index or a panicking engine panics. *)
Definition i_search (p : option ptr) (q : string) (e : Engine) (i : Ipart)
  : outcome (list SearchResult) :=
  match p with
  | None => Panic
  | Some p => match i_heap i !! p with
              | Some mi => mi_Search (i_ckn i) mi q e
              | None => Panic
              end
  end.

Definition a_set (a : string) (s : slice) (x : Apart) : Apart :=
  MkA (<[a := s]> (a_map x)) (a_arr x) (a_next x).
Definition a_del (a : string) (x : Apart) : Apart :=
  MkA (delete a (a_map x)) (a_arr x) (a_next x).
Definition a_load (s : slice) (i : nat) (x : Apart) : string :=
  default ""%string (a_arr x !! sl_arr s ≫= (fun l => l !! i)).
Definition a_store (s : slice) (i : nat) (v : string) (x : Apart) : Apart :=
  MkA (a_map x) (alter (fun l => <[i := v]> l) (sl_arr s) (a_arr x)) (a_next x).
(** A new array holding [l] and room for [cap] elements. *)
Definition a_alloc (l : list string) (cap : nat) (x : Apart) : Apart * slice :=
  (MkA (a_map x) (<[a_next x := l ++ replicate (cap - length l) ""%string]> (a_arr x)) (S (a_next x)),
   MkSlice (a_next x) (length l) cap).
(** The elements of a slice. *)
Definition a_cont (x : Apart) (s : slice) : list string :=
  take (sl_len s) (default [] (a_arr x !! sl_arr s)).
(** append(s, v): in place when there is spare capacity, otherwise a new array
    whose capacity [cap] is up to the runtime. *)
Definition a_append (s : slice) (v : string) (cap : nat) (x : Apart) : Apart * slice :=
  if (sl_len s <? sl_cap s)%nat
  then (a_store s (sl_len s) v x, MkSlice (sl_arr s) (S (sl_len s)) (sl_cap s))
  else a_alloc (a_cont x s ++ [v]) cap x.

(** ** Threads *)

(** A goroutine of Search (repos_repo.go:204-210).  The append of
    AppendVector to [result] is a read followed by a write. *)
Inductive schild :=
| SStart (p : option ptr)
| SGot (sr : list SearchResult)              (* searched, before rl.Lock() *)
| SHold (sr : list SearchResult)             (* holds rl *)
| SRead (sr : list SearchResult) (old : list SearchResult)  (* holds rl, has read result *)
| SRel                                       (* result written, before rl.Unlock() *)
| SDone.

Definition holds_rl (c : schild) : bool :=
  match c with SHold _ | SRead _ _ | SRel => true | _ => false end.

(** The state of one call. *)
Inductive thr :=
| TRun (p : prog)
| TPend (m : mutex) (k : prog)               (* Lock: announced, waiting for readers *)
| TPut (cs : list (option (option ptr))) (d : DocRequest) (k : prog)
    (* goroutines of Put: [Some p] still to run, [None] done *)
| TSearch (cs : list schild) (q : string) (e : Engine) (result : list SearchResult)
    (k : list SearchResult -> prog).

Inductive tres := TNext (t : thr) (s : repo) | TCrash.

(** One step of a thread. *)
Inductive tstep (s : repo) : thr -> tres -> Prop :=
(* locks *)
| S_RLock m k w :
    get_mu m s = w -> rw_pending w = false -> rw_writer w = false ->
    tstep s (TRun (RLock m k))
      (TNext (TRun k) (set_mu m (MkRW (S (rw_readers w)) false false) s))
| S_RUnlock m k w n :
    get_mu m s = w -> rw_readers w = S n ->
    tstep s (TRun (RUnlock m k)) (TNext (TRun k) (set_mu m (MkRW n (rw_pending w) (rw_writer w)) s))
| S_RUnlock_bad m k :
    rw_readers (get_mu m s) = 0%nat -> tstep s (TRun (RUnlock m k)) TCrash
| S_Announce m k w :
    get_mu m s = w -> rw_pending w = false -> rw_writer w = false ->
    tstep s (TRun (Lock m k)) (TNext (TPend m k) (set_mu m (MkRW (rw_readers w) true false) s))
| S_Acquire m k :
    rw_readers (get_mu m s) = 0%nat ->
    tstep s (TPend m k) (TNext (TRun k) (set_mu m (MkRW 0 false true) s))
| S_Unlock m k w :
    get_mu m s = w -> rw_writer w = true ->
    tstep s (TRun (Unlock m k)) (TNext (TRun k) (set_mu m (MkRW (rw_readers w) (rw_pending w) false) s))
| S_Unlock_bad m k :
    rw_writer (get_mu m s) = false -> tstep s (TRun (Unlock m k)) TCrash
(* indices *)
| S_GetIndex n k : tstep s (TRun (GetIndex n k)) (TNext (TRun (k (i_map (r_I s) !! n))) s)
| S_SetIndex n p k : tstep s (TRun (SetIndex n p k)) (TNext (TRun k) (set_I (i_set n p (r_I s)) s))
| S_DelIndex n k : tstep s (TRun (DelIndex n k)) (TNext (TRun k) (set_I (i_del n (r_I s)) s))
| S_RangeIndices k names :
    names ≡ₚ (map_to_list (i_map (r_I s))).*1 ->
    tstep s (TRun (RangeIndices k)) (TNext (TRun (k names)) s)
| S_NewIndex n k :
    tstep s (TRun (NewIndex n k)) (TNext (TRun (k (i_next (r_I s)))) (set_I (i_new n (r_I s)) s))
| S_IdxPut p d k : tstep s (TRun (IdxPut p d k)) (TNext (TRun k) (set_I (i_put p d (r_I s)) s))
| S_IdxSearch p q e k kp sr :
    i_search p q e (r_I s) = Ok sr ->
    tstep s (TRun (IdxSearch p q e k kp)) (TNext (TRun (k sr)) s)
| S_IdxSearch_panic p q e k kp :
    i_search p q e (r_I s) = Panic ->
    tstep s (TRun (IdxSearch p q e k kp)) (TNext (TRun kp) s)
| S_IdxRead p k :
    tstep s (TRun (IdxRead p k))
      (TNext (TRun (k (p ≫= fun p => i_heap (r_I s) !! p))) s)
(* aliases *)
| S_GetAlias a k : tstep s (TRun (GetAlias a k)) (TNext (TRun (k (a_map (r_A s) !! a))) s)
| S_SetAlias a sl k : tstep s (TRun (SetAlias a sl k)) (TNext (TRun k) (set_A (a_set a sl (r_A s)) s))
| S_DelAlias a k : tstep s (TRun (DelAlias a k)) (TNext (TRun k) (set_A (a_del a (r_A s)) s))
| S_RangeAliases k names :
    names ≡ₚ (map_to_list (a_map (r_A s))).*1 ->
    tstep s (TRun (RangeAliases k)) (TNext (TRun (k names)) s)
| S_LoadElem sl i k : tstep s (TRun (LoadElem sl i k)) (TNext (TRun (k (a_load sl i (r_A s)))) s)
| S_StoreElem sl i v k :
    tstep s (TRun (StoreElem sl i v k)) (TNext (TRun k) (set_A (a_store sl i v (r_A s)) s))
| S_Append sl v k cap :
    (sl_len sl < cap)%nat ->
    tstep s (TRun (Append sl v k))
      (TNext (TRun (k (a_append sl v cap (r_A s)).2)) (set_A (a_append sl v cap (r_A s)).1 s))
| S_MakeSlice l k :
    tstep s (TRun (MakeSlice l k))
      (TNext (TRun (k (a_alloc l (length l) (r_A s)).2)) (set_A (a_alloc l (length l) (r_A s)).1 s))
(* goroutines of Put *)
| S_GoPut ps d k : tstep s (TRun (GoPut ps d k)) (TNext (TPut (map Some ps) d k) s)
| S_PutChild cs d k i p :
    cs !! i = Some (Some (Some p)) ->
    tstep s (TPut cs d k) (TNext (TPut (<[i := None]> cs) d k) (set_I (i_put p d (r_I s)) s))
| S_PutChild_nil cs d k i :
    cs !! i = Some (Some None) -> tstep s (TPut cs d k) TCrash
| S_PutWait cs d k :
    Forall (fun c => c = None) cs -> tstep s (TPut cs d k) (TNext (TRun k) s)
(* goroutines of Search *)
| S_GoSearch ps q e k :
    tstep s (TRun (GoSearch ps q e k)) (TNext (TSearch (map SStart ps) q e [] k) s)
| S_Child_search cs q e r k i p sr :
    cs !! i = Some (SStart p) -> i_search p q e (r_I s) = Ok sr ->
    tstep s (TSearch cs q e r k) (TNext (TSearch (<[i := SGot sr]> cs) q e r k) s)
| S_Child_panic cs q e r k i p :
    cs !! i = Some (SStart p) -> i_search p q e (r_I s) = Panic ->
    tstep s (TSearch cs q e r k) TCrash
| S_Child_lock cs q e r k i sr :
    cs !! i = Some (SGot sr) -> Forall (fun c => holds_rl c = false) cs ->
    tstep s (TSearch cs q e r k) (TNext (TSearch (<[i := SHold sr]> cs) q e r k) s)
| S_Child_read cs q e r k i sr :
    cs !! i = Some (SHold sr) ->
    tstep s (TSearch cs q e r k) (TNext (TSearch (<[i := SRead sr r]> cs) q e r k) s)
| S_Child_write cs q e r k i sr old :
    cs !! i = Some (SRead sr old) ->
    tstep s (TSearch cs q e r k) (TNext (TSearch (<[i := SRel]> cs) q e (old ++ sr) k) s)
| S_Child_unlock cs q e r k i :
    cs !! i = Some SRel ->
    tstep s (TSearch cs q e r k) (TNext (TSearch (<[i := SDone]> cs) q e r k) s)
| S_SearchWait cs q e r k :
    Forall (fun c => c = SDone) cs -> tstep s (TSearch cs q e r k) (TNext (TRun (k r)) s).

(** ** Pools of concurrent calls *)
Inductive pool := Pool (ts : list thr) (s : repo) | PCrashed.

Inductive pstep : pool -> pool -> Prop :=
| P_step ts s i t t' s' :
    ts !! i = Some t -> tstep s t (TNext t' s') ->
    pstep (Pool ts s) (Pool (<[i := t']> ts) s')
| P_crash ts s i t :
    ts !! i = Some t -> tstep s t TCrash -> pstep (Pool ts s) PCrashed.

(** ** One call at a time *)
Definition finished (t : thr) : Prop :=
  match t with TRun (Ret _) | TRun Throw => True | _ => False end.

Inductive result :=
| Done (r : ret) (s : repo)
| Panicked (s : repo)
| Crashed
| Blocked.

(** Executing a call alone on a repo. *)
Inductive sstep : thr * repo -> thr * repo -> Prop :=
| Sstep s t t' s' : tstep s t (TNext t' s') -> sstep (t, s) (t', s').

Inductive outcome_of (t : thr) (s : repo) : result -> Prop :=
| CR_done r s' : rtc sstep (t, s) (TRun (Ret r), s') -> outcome_of t s (Done r s')
| CR_panic s' : rtc sstep (t, s) (TRun Throw, s') -> outcome_of t s (Panicked s')
| CR_crash t' s' : rtc sstep (t, s) (t', s') -> tstep s' t' TCrash -> outcome_of t s Crashed
| CR_block t' s' :
    rtc sstep (t, s) (t', s') -> ~ finished t' -> (forall x, ~ tstep s' t' x) ->
    outcome_of t s Blocked.

Definition call_result (c : call) : repo -> result -> Prop := outcome_of (TRun (prog_of c)).

(** A sequential history: calls issued one after the other, each returning or
    panicking (with the panic recovered by the caller) before the next. *)
Inductive history : repo -> list (call * result) -> repo -> Prop :=
| H_nil s : history s [] s
| H_done s c r s1 l s2 :
    call_result c s (Done r s1) -> history s1 l s2 -> history s ((c, Done r s1) :: l) s2
| H_panic s c s1 l s2 :
    call_result c s (Panicked s1) -> history s1 l s2 -> history s ((c, Panicked s1) :: l) s2.
