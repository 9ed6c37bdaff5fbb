(** * Model: code supplied by the caller that calls the repository back.
    Search hands control to the caller's tokenizer and engine while it holds
    [indicesMu] for reading (repos_repo.go:167-168, 191-192), Put to the tokenizer
    while it holds it for writing (repos_repo.go:218-237).  Nothing
    keeps these closures from using the repo they are called from.  Here they first
    make some calls, one after the other, and then do what they did before.
    No proofs in this file. *)
From Verif Require Export Entities Search Repo Sem.

(** [k] after [p], with the value [p] returned; [kp] after a panic of [p]. *)
Fixpoint bindp (p : prog) (k : ret -> prog) (kp : prog) : prog :=
  match p with
  | Ret r => k r
  | Throw => kp
  | RLock m p => RLock m (bindp p k kp)
  | RUnlock m p => RUnlock m (bindp p k kp)
  | Lock m p => Lock m (bindp p k kp)
  | Unlock m p => Unlock m (bindp p k kp)
  | GetIndex n f => GetIndex n (fun x => bindp (f x) k kp)
  | SetIndex n x p => SetIndex n x (bindp p k kp)
  | DelIndex n p => DelIndex n (bindp p k kp)
  | RangeIndices f => RangeIndices (fun x => bindp (f x) k kp)
  | GetAlias a f => GetAlias a (fun x => bindp (f x) k kp)
  | SetAlias a s p => SetAlias a s (bindp p k kp)
  | DelAlias a p => DelAlias a (bindp p k kp)
  | RangeAliases f => RangeAliases (fun x => bindp (f x) k kp)
  | LoadElem s i f => LoadElem s i (fun x => bindp (f x) k kp)
  | StoreElem s i v p => StoreElem s i v (bindp p k kp)
  | Append s v f => Append s v (fun x => bindp (f x) k kp)
  | MakeSlice l f => MakeSlice l (fun x => bindp (f x) k kp)
  | NewIndex n f => NewIndex n (fun x => bindp (f x) k kp)
  | IdxPut x d p => IdxPut x d (bindp p k kp)
  | IdxSearch x q e f fp => IdxSearch x q e (fun x => bindp (f x) k kp) (bindp fp k kp)
  | IdxRead x f => IdxRead x (fun x => bindp (f x) k kp)
  | GoPut ps d p => GoPut ps d (bindp p k kp)
  | GoSearch ps q e f => GoSearch ps q e (fun x => bindp (f x) k kp)
  end.

(** The calls [cs], then [k]. *)
Definition calls (cs : list call) (k kp : prog) : prog :=
  foldr (fun c p => bindp (prog_of c) (fun _ => p) kp) k cs.

(** repos_repo.go:191-213 with an index whose tokenizer, or an engine that, makes the
    calls [cs].  Only one index is searched: with several, the goroutines of lines
    203-211 would make the calls concurrently, which is not modelled (the theorems
    exclude it). *)
Definition rsearch_tail (cs : list call) (ps : list (option ptr)) (terms : string) (engine : Engine) : prog :=
  match ps with
  | [Some p] =>
      calls cs (IdxSearch (Some p) terms engine
                  (fun sr => RUnlock MI (Ret (RResults sr))) (RUnlock MI Throw))
        (RUnlock MI Throw)
  | _ => search_tail ps terms engine
  end.

(** repos_repo.go:162-214 *)
Definition rsearch (cs : list call) (indexName terms : string) (engine : Engine) : prog :=
  RLock MI (GetIndex indexName (fun oi =>
  match oi with
  | Some p => rsearch_tail cs [Some p] terms engine
  | None =>
      RLock MA (GetAlias indexName (fun os =>
      match os with
      | None => RUnlock MA (RUnlock MI (Ret (RError (not_exist_error indexName))))
      | Some aliasedIndices =>
          resolve_loop aliasedIndices 0 (sl_len aliasedIndices) [] (fun ps =>
          RUnlock MA (rsearch_tail cs ps terms engine))
      end))
  end)).

(** repos_repo.go:216-238 with a tokenizer that makes the calls [cs] before it splits
    the text.  With one index the goroutine of line 231 runs while Put waits
    for it, so that the two are one sequence; a panic in it ends the process
    (the [None] of [GoPut]).  Several indices are not modelled, as above; a nil index
    panics before it reaches a tokenizer. *)
Definition rput (cs : list call) (indexName : string) (doc : DocRequest) : prog :=
  getIndices indexName (fun r =>
  Lock MI (
  match r with
  | None =>
      NewIndex indexName (fun p =>
      SetIndex indexName p (
      calls cs (IdxPut p doc (Unlock MI (Ret RUnit))) Throw))
  | Some [Some p] =>
      calls cs (GoPut [Some p] doc (Unlock MI (Ret RUnit))) (GoPut [None] doc Throw)
  | Some indices =>
      GoPut indices doc (
      Unlock MI (Ret RUnit))
  end)).

(** Calls of a program that uses such closures. *)
Inductive rcall :=
| Plain (c : call)
| RSearch (cs : list call) (n q : string) (e : Engine)
| RPut (cs : list call) (n : string) (d : DocRequest).
Definition rprog (x : rcall) : prog :=
  match x with Plain c => prog_of c | RSearch cs n q e => rsearch cs n q e | RPut cs n d => rput cs n d end.
Definition rresult (x : rcall) : repo -> result -> Prop := outcome_of (TRun (rprog x)).
