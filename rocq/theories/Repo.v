(** * Model of repos_repo.go: state and code of the IndexRepo.
    Every method is a program over the shared memory of the repo: one node per
    lock operation, map access, slice element access, allocation or call into an
    index object.  No proofs in this file.  The meaning of the nodes, sequential
    and concurrent, is in Sem.v. *)
From Verif Require Export Entities Search.

(** ** Shared memory *)

(** Pointer to an index object.  An [Index] interface value is a pointer or nil
    ([option ptr]): reading a missing key of [h.indices] yields nil. *)
Notation ptr := nat.

(** A []string: backing array, length, capacity (the offset is always 0: the
    code never re-slices). *)
Record slice := MkSlice { sl_arr : nat; sl_len : nat; sl_cap : nat }.
Definition nil_slice : slice := MkSlice 0 0 0.

(** repos_repo.go:36,41: [indices] and [indexBuilder], and the index objects.
    [i_ckn] is the nil convention of slices.Copy in the dependency vago. *)
Record Ipart := MkI {
  i_map : gmap string ptr;
  i_heap : gmap ptr MemoryIndex;
  i_next : ptr;
  i_builder : Builder;
  i_ckn : bool }.

(** repos_repo.go:38: [aliases], and the backing arrays of its slices. *)
Record Apart := MkA {
  a_map : gmap string slice;
  a_arr : gmap nat (list string);
  a_next : nat }.

(** sync.RWMutex: active readers, a writer that has announced itself and waits
    for the readers to leave, a writer inside.  (Go keeps these in readerCount,
    readerWait and the writer mutex w.) *)
Record rwmutex := MkRW { rw_readers : nat; rw_pending : bool; rw_writer : bool }.
Definition rw_free : rwmutex := MkRW 0 false false.

(** repos_repo.go:35-42 *)
Record repo := MkRepo { r_I : Ipart; r_A : Apart; r_imu : rwmutex; r_amu : rwmutex }.

(** repos_repo.go:318-326 *)
Definition NewIndexRepo (ckn : bool) (builder : Builder) : repo :=
  {| r_I := {| i_map := ∅; i_heap := ∅; i_next := 0; i_builder := builder; i_ckn := ckn |};
     r_A := {| a_map := ∅; a_arr := {[0%nat := []]}; a_next := 1 |};
     r_imu := rw_free; r_amu := rw_free |}.

(** The two mutexes, [indicesMu] and [aliasesMu]. *)
Inductive mutex := MI | MA.

(** ** Programs *)

(** What a call returns.  [RRows] carries slices: repos_repo.go:25-32. *)
Inductive ret :=
| RUnit
| RBool (b : bool)
| RNames (l : list string)
| RRows (l : list (string * slice))
| RResults (l : list SearchResult)
| RError (msg : string)
| RText (s : string).

(** One constructor per shared-memory action; [k] is the rest of the program. *)
Inductive prog : Type :=
| Ret (r : ret)
| Throw                                   (* a panic reaching the caller *)
| RLock (m : mutex) (k : prog)
| RUnlock (m : mutex) (k : prog)
| Lock (m : mutex) (k : prog)
| Unlock (m : mutex) (k : prog)
| GetIndex (n : string) (k : option ptr -> prog)        (* h.indices[n] *)
| SetIndex (n : string) (p : ptr) (k : prog)            (* h.indices[n] = p *)
| DelIndex (n : string) (k : prog)                      (* delete(h.indices, n) *)
| RangeIndices (k : list string -> prog)                (* keys of range h.indices *)
| GetAlias (a : string) (k : option slice -> prog)      (* h.aliases[a] *)
| SetAlias (a : string) (s : slice) (k : prog)          (* h.aliases[a] = s *)
| DelAlias (a : string) (k : prog)                      (* delete(h.aliases, a) *)
| RangeAliases (k : list string -> prog)                (* keys of range h.aliases *)
| LoadElem (s : slice) (i : nat) (k : string -> prog)   (* s[i] *)
| StoreElem (s : slice) (i : nat) (v : string) (k : prog) (* s[i] = v *)
| Append (s : slice) (v : string) (k : slice -> prog)   (* append(s, v) *)
| MakeSlice (l : list string) (k : slice -> prog)       (* []string{...} *)
| NewIndex (n : string) (k : ptr -> prog)               (* h.indexBuilder(n) *)
| IdxPut (p : ptr) (d : DocRequest) (k : prog)          (* p.Put(d) *)
| IdxSearch (p : option ptr) (q : string) (e : Engine)  (* p.Search(q, e) *)
    (k : list SearchResult -> prog) (kpanic : prog)
| IdxRead (p : option ptr) (k : option MemoryIndex -> prog) (* p.String() *)
| GoPut (ps : list (option ptr)) (d : DocRequest) (k : prog)
    (* one goroutine per index running Put, then wg.Wait() *)
| GoSearch (ps : list (option ptr)) (q : string) (e : Engine) (k : list SearchResult -> prog).
    (* one goroutine per index running Search and appending under rl, then wg.Wait() *)

(** ** The methods *)

(** repos_repo.go:44-54.  The slice has one slot per key, filled in range order. *)
Definition List_prog : prog :=
  RLock MI (RangeIndices (fun names => RUnlock MI (Ret (RNames names)))).

(** repos_repo.go:56-61 *)
Definition Has_prog (name : string) : prog :=
  RLock MI (GetIndex name (fun oi => RUnlock MI (Ret (RBool (bool_decide (is_Some oi)))))).

(** repos_repo.go:63-68 *)
Definition HasAlias_prog (name : string) : prog :=
  RLock MA (GetAlias name (fun os => RUnlock MA (Ret (RBool (bool_decide (is_Some os)))))).

(** repos_repo.go:84-89: is [index] among the elements i, i+1, ... (n of them)? *)
Fixpoint scan_loop (s : slice) (i n : nat) (index : string) (k : bool -> prog) : prog :=
  match n with
  | O => k false
  | S n' => LoadElem s i (fun ri =>
              if decide (ri = index) then k true else scan_loop s (S i) n' index k)
  end.

(** repos_repo.go:70-102 *)
Definition Alias_prog (alias index : string) : prog :=
  RLock MI (GetIndex index (fun oi =>
  match oi with
  | None => RUnlock MI (Ret (RBool false))
  | Some _ =>
      Lock MA (GetAlias alias (fun os =>
      match os with
      | Some indices =>
          scan_loop indices 0 (sl_len indices) index (fun exists_ =>
          if exists_ then Unlock MA (RUnlock MI (Ret (RBool false)))
          else Append indices index (fun s' =>
               SetAlias alias s' (Unlock MA (RUnlock MI (Ret (RBool true))))))
      | None =>
          MakeSlice [index] (fun s' =>
          SetAlias alias s' (Unlock MA (RUnlock MI (Ret (RBool true)))))
      end))
  end)).

(** repos_repo.go:125-130 and 252-257: copy the elements different from
    [index] to [acc]. *)
Fixpoint filter_loop (s : slice) (i n : nat) (index : string) (acc : slice) (k : slice -> prog) : prog :=
  match n with
  | O => k acc
  | S n' => LoadElem s i (fun x =>
              if decide (x = index) then filter_loop s (S i) n' index acc k
              else Append acc x (fun acc' => filter_loop s (S i) n' index acc' k))
  end.

(** repos_repo.go:104-136.  The early returns at lines 115 and 121 keep the
    lock they hold. *)
Definition UnAlias_prog (alias index : string) : prog :=
  if decide (index = "") then
    Lock MA (GetAlias alias (fun os =>
    DelAlias alias (Unlock MA (Ret (RBool (bool_decide (is_Some os)))))))
  else
    RLock MI (GetIndex index (fun oi =>
    match oi with
    | None => Ret (RBool false)
    | Some _ =>
        RUnlock MI (Lock MA (GetAlias alias (fun os =>
        match os with
        | None => Ret (RBool false)
        | Some indices =>
            filter_loop indices 0 (sl_len indices) index nil_slice (fun newIndices =>
            if decide (sl_len newIndices = sl_len indices)
            then Unlock MA (Ret (RBool true))
            else SetAlias alias newIndices (Unlock MA (Ret (RBool true))))
        end)))
    end)).

(** repos_repo.go:152-156: rewrite [old] to [new] in place. *)
Fixpoint rename_elems (s : slice) (i n : nat) (old new : string) (k : prog) : prog :=
  match n with
  | O => k
  | S n' => LoadElem s i (fun x =>
              if decide (x = old) then StoreElem s i new (rename_elems s (S i) n' old new k)
              else rename_elems s (S i) n' old new k)
  end.

(** repos_repo.go:151-157.  Go's range over a map yields every entry present
    throughout the loop once, in any order. *)
Fixpoint rename_loop (aliases : list string) (old new : string) (k : prog) : prog :=
  match aliases with
  | [] => k
  | a :: rest => GetAlias a (fun os =>
      match os with
      | Some s => rename_elems s 0 (sl_len s) old new (rename_loop rest old new k)
      | None => rename_loop rest old new k
      end)
  end.

(** repos_repo.go:139-160 *)
Definition Rename_prog (old new : string) : prog :=
  Lock MI (GetIndex old (fun oi =>
  match oi with
  | None => Unlock MI (Ret (RBool false))
  | Some p =>
      SetIndex new p (DelIndex old (
      RangeAliases (fun aliases =>
      rename_loop aliases old new (
      Unlock MI (Ret (RBool true))))))
  end)).

(** repos_repo.go:184-187 and 299-302: look the listed names up. *)
Fixpoint resolve_loop (s : slice) (i n : nat) (acc : list (option ptr))
  (k : list (option ptr) -> prog) : prog :=
  match n with
  | O => k acc
  | S n' => LoadElem s i (fun name =>
            GetIndex name (fun oi => resolve_loop s (S i) n' (acc ++ [oi]) k))
  end.

(** repos_repo.go:191-213.  A panic in the caller's goroutine (line 192) runs the
    deferred RUnlock; a panic in a goroutine of lines 203-211 kills the process. *)
Definition search_tail (ps : list (option ptr)) (terms : string) (engine : Engine) : prog :=
  match ps with
  | [p] => IdxSearch p terms engine
             (fun sr => RUnlock MI (Ret (RResults sr))) (RUnlock MI Throw)
  | _ => GoSearch ps terms engine (fun result => RUnlock MI (Ret (RResults result)))
  end.

(** repos_repo.go:182 *)
Definition not_exist_error (indexName : string) : string :=
  "index with name '" ++ indexName ++ "' does not exist".

(** repos_repo.go:162-214; streams.MemReader (vago) is a cursor over the slice
    and is modelled by the slice itself. *)
Definition Search_prog (indexName terms : string) (engine : Engine) : prog :=
  RLock MI (GetIndex indexName (fun oi =>
  match oi with
  | Some p => search_tail [Some p] terms engine
  | None =>
      RLock MA (GetAlias indexName (fun os =>
      match os with
      | None => RUnlock MA (RUnlock MI (Ret (RError (not_exist_error indexName))))
      | Some aliasedIndices =>
          resolve_loop aliasedIndices 0 (sl_len aliasedIndices) [] (fun ps =>
          RUnlock MA (search_tail ps terms engine))
      end))
  end)).

(** repos_repo.go:283-306; the continuation gets [None] for [nil, false]. *)
Definition getIndices (name : string) (k : option (list (option ptr)) -> prog) : prog :=
  RLock MI (GetIndex name (fun oi =>
  match oi with
  | Some p => RUnlock MI (k (Some [Some p]))
  | None =>
      RLock MA (GetAlias name (fun os =>
      match os with
      | None => RUnlock MA (RUnlock MI (k None))
      | Some aliasedIndices =>
          resolve_loop aliasedIndices 0 (sl_len aliasedIndices) [] (fun res =>
          RUnlock MI (RUnlock MA (k (Some res))))
      end))
  end)).

(** repos_repo.go:216-238 *)
Definition Put_prog (indexName : string) (doc : DocRequest) : prog :=
  getIndices indexName (fun r =>
  Lock MI (
  match r with
  | None =>
      NewIndex indexName (fun p =>
      SetIndex indexName p (
      IdxPut p doc (
      Unlock MI (Ret RUnit))))
  | Some indices =>
      GoPut indices doc (
      Unlock MI (Ret RUnit))
  end)).

(** repos_repo.go:251-263 *)
Fixpoint drop_loop (aliases : list string) (indexName : string) (k : prog) : prog :=
  match aliases with
  | [] => k
  | a :: rest => GetAlias a (fun os =>
      match os with
      | Some indices =>
          filter_loop indices 0 (sl_len indices) indexName nil_slice (fun newIndices =>
          if decide (sl_len newIndices < 1)%nat then DelAlias a (drop_loop rest indexName k)
          else if decide (sl_len newIndices = sl_len indices) then drop_loop rest indexName k
          else SetAlias a newIndices (drop_loop rest indexName k))
      | None => drop_loop rest indexName k
      end)
  end.

(** repos_repo.go:240-269 *)
Definition Drop_prog (indexName : string) : prog :=
  RLock MI (GetIndex indexName (fun oi =>
  match oi with
  | None => RUnlock MI (Ret (RBool false))
  | Some _ =>
      RUnlock MI (Lock MI (Lock MA (
      RangeAliases (fun aliases =>
      drop_loop aliases indexName (
      DelIndex indexName (
      Unlock MI (Unlock MA (Ret (RBool true)))))))))
  end)).

(** repos_repo.go:275-278: the rows share the slices of the map. *)
Fixpoint rows_loop (aliases : list string) (acc : list (string * slice))
  (k : list (string * slice) -> prog) : prog :=
  match aliases with
  | [] => k acc
  | a :: rest => GetAlias a (fun os =>
      match os with
      | Some s => rows_loop rest (acc ++ [(a, s)]) k
      | None => rows_loop rest acc k
      end)
  end.

(** repos_repo.go:271-281 *)
Definition ListAliases_prog : prog :=
  RLock MA (RangeAliases (fun aliases =>
  rows_loop aliases [] (fun rows => RUnlock MA (Ret (RRows rows))))).

(** repos_repo.go:311-313: [fmt.Sprintln(index)] prints the index's String()
    followed by a newline; [show] is MemoryIndex.String (Print.v). *)
Fixpoint string_loop (show : MemoryIndex -> string) (names : list string) (acc : string)
  (k : string -> prog) : prog :=
  match names with
  | [] => k acc
  | n :: rest => GetIndex n (fun oi => IdxRead oi (fun omi =>
      match omi with
      | Some mi => string_loop show rest (acc ++ show mi ++ String (ascii_of_N 10) "") k
      | None => string_loop show rest (acc ++ "<nil>" ++ String (ascii_of_N 10) "") k
      end))
  end.

(** repos_repo.go:308-316 *)
Definition String_prog (show : MemoryIndex -> string) : prog :=
  RLock MI (RangeIndices (fun names =>
  string_loop show names "" (fun s => RUnlock MI (Ret (RText s))))).

(** repos_repo.go:12-23: the calls of the [Repo] interface (and String). *)
Inductive call :=
| CList
| CListAliases
| CHas (name : string)
| CHasAlias (name : string)
| CAlias (alias index : string)
| CUnAlias (alias index : string)
| CPut (index : string) (doc : DocRequest)
| CSearch (index terms : string) (engine : Engine)
| CRename (old new : string)
| CDrop (index : string)
| CString (show : MemoryIndex -> string).

Definition prog_of (c : call) : prog :=
  match c with
  | CList => List_prog
  | CListAliases => ListAliases_prog
  | CHas n => Has_prog n
  | CHasAlias n => HasAlias_prog n
  | CAlias a i => Alias_prog a i
  | CUnAlias a i => UnAlias_prog a i
  | CPut n d => Put_prog n d
  | CSearch n q e => Search_prog n q e
  | CRename o n => Rename_prog o n
  | CDrop n => Drop_prog n
  | CString show => String_prog show
  end.
