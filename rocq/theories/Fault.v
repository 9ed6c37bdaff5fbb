(** * Model: panics of the code supplied by the caller.
    The tokenizer (and the filters it is composed of) and the builder given to
    NewIndexRepo are the caller's; a nil pipeline, a nil builder or a bug in a filter
    makes them panic.  [faulty f] turns a method of Repo.v into the same method
    running with such a tokenizer and builder.  No proofs in this file. *)
From Verif Require Export Entities Search Repo Sem.

(** The builder panics on the names [f_build], the tokenizer on the texts
    [f_text]. *)
Record fault := MkFault { f_build : string -> bool; f_text : string -> bool }.

(** NewIndexRepo(nil), NewMemoryIndexBuilder(nil), and no fault at all. *)
Definition nil_builder : fault := MkFault (fun _ => true) (fun _ => false).
Definition nil_tokenizer : fault := MkFault (fun _ => false) (fun _ => true).
Definition no_fault : fault := MkFault (fun _ => false) (fun _ => false).

(** index_memory_index.go:62-64: Search tokenizes before it calls the engine. *)
Definition boom : Engine := fun _ _ => Panic.
Definition f_engine (f : fault) (q : string) (e : Engine) : Engine := if f_text f q then boom else e.

(** repos_repo.go:216-238.
    A panic of h.indexBuilder(indexName) or of index.Put (its first line,
    index_memory_index.go:45, tokenizes) at lines 222-224 leaves Put there:
    h.indicesMu.Unlock() at line 225 is not deferred.  A panic inside one of the
    goroutines ends the process: the goroutines of a Put with a bad text are
    replaced by one that panics ([None], see S_PutChild_nil). *)
Fixpoint faulty (f : fault) (p : prog) : prog :=
  match p with
  | Ret r => Ret r
  | Throw => Throw
  | RLock m k => RLock m (faulty f k)
  | RUnlock m k => RUnlock m (faulty f k)
  | Lock m k => Lock m (faulty f k)
  | Unlock m k => Unlock m (faulty f k)
  | GetIndex n k => GetIndex n (fun x => faulty f (k x))
  | SetIndex n p k => SetIndex n p (faulty f k)
  | DelIndex n k => DelIndex n (faulty f k)
  | RangeIndices k => RangeIndices (fun x => faulty f (k x))
  | GetAlias a k => GetAlias a (fun x => faulty f (k x))
  | SetAlias a s k => SetAlias a s (faulty f k)
  | DelAlias a k => DelAlias a (faulty f k)
  | RangeAliases k => RangeAliases (fun x => faulty f (k x))
  | LoadElem s i k => LoadElem s i (fun x => faulty f (k x))
  | StoreElem s i v k => StoreElem s i v (faulty f k)
  | Append s v k => Append s v (fun x => faulty f (k x))
  | MakeSlice l k => MakeSlice l (fun x => faulty f (k x))
  | NewIndex n k => if f_build f n then Throw else NewIndex n (fun x => faulty f (k x))
  | IdxPut p d k => if f_text f (req_statement d) then Throw else IdxPut p d (faulty f k)
  | IdxSearch p q e k kp => IdxSearch p q (f_engine f q e) (fun x => faulty f (k x)) (faulty f kp)
  | IdxRead p k => IdxRead p (fun x => faulty f (k x))
  | GoPut ps d k =>
      GoPut (if f_text f (req_statement d) then match ps with [] => [] | _ => [None] end else ps) d (faulty f k)
  | GoSearch ps q e k => GoSearch ps q (f_engine f q e) (fun x => faulty f (k x))
  end.

(** A call on a repo with such a tokenizer and builder. *)
Definition faulty_result (f : fault) (c : call) : repo -> result -> Prop :=
  outcome_of (TRun (faulty f (prog_of c))).
