(** * Model: builders that hand out objects they made before.
    The builder given to NewIndexRepo (repos_repo.go:318-326) is the caller's; nothing
    obliges it to return a new object each time it is called, e.g.
    [NewIndexRepo(func(string) Index { return shared })].  [share give] turns a method
    of Repo.v into the same method running with a builder that returns, for the names
    given an address by [give], the object at that address, and a new MemoryIndex for
    the others.  No proofs in this file. *)
From stdpp Require Import gmap list.
From Verif Require Export Entities Search Repo Sem.

(** repos_repo.go:222: [h.indexBuilder(indexName)] is the only place that calls the
    builder. *)
Fixpoint share (give : string -> option ptr) (p : prog) : prog :=
  match p with
  | Ret r => Ret r
  | Throw => Throw
  | RLock m k => RLock m (share give k)
  | RUnlock m k => RUnlock m (share give k)
  | Lock m k => Lock m (share give k)
  | Unlock m k => Unlock m (share give k)
  | GetIndex n k => GetIndex n (fun x => share give (k x))
  | SetIndex n p k => SetIndex n p (share give k)
  | DelIndex n k => DelIndex n (share give k)
  | RangeIndices k => RangeIndices (fun x => share give (k x))
  | GetAlias a k => GetAlias a (fun x => share give (k x))
  | SetAlias a s k => SetAlias a s (share give k)
  | DelAlias a k => DelAlias a (share give k)
  | RangeAliases k => RangeAliases (fun x => share give (k x))
  | LoadElem s i k => LoadElem s i (fun x => share give (k x))
  | StoreElem s i v k => StoreElem s i v (share give k)
  | Append s v k => Append s v (fun x => share give (k x))
  | MakeSlice l k => MakeSlice l (fun x => share give (k x))
  | NewIndex n k =>
      match give n with
      | Some q => share give (k q)
      | None => NewIndex n (fun x => share give (k x))
      end
  | IdxPut p d k => IdxPut p d (share give k)
  | IdxSearch p q e k kp => IdxSearch p q e (fun x => share give (k x)) (share give kp)
  | IdxRead p k => IdxRead p (fun x => share give (k x))
  | GoPut ps d k => GoPut ps d (share give k)
  | GoSearch ps q e k => GoSearch ps q e (fun x => share give (k x))
  end.

(** A call on a repo with such a builder. *)
Definition shared_result (give : string -> option ptr) (c : call) : repo -> result -> Prop :=
  outcome_of (TRun (share give (prog_of c))).

(** One goroutine per call of [cs], none of which has run yet. *)
Definition sstart (give : string -> option ptr) (cs : list call) : list thr :=
  (fun c => TRun (share give (prog_of c))) <$> cs.

(** repos_repo.go:318-326: a new repo in a process where the builder has already made
    its objects.  The object at address [p] was created with the name [(pool !! p).1]
    and has since been given the documents [(pool !! p).2]. *)
Definition pooled (ckn : bool) (tk : Tokenizer) (pool : list (string * list DocRequest)) : repo :=
  {| r_I := {| i_map := ∅;
               i_heap := map_seq 0 ((fun x => fold_left Put x.2 (NewMemoryIndex x.1 tk)) <$> pool);
               i_next := length pool; i_builder := NewMemoryIndexBuilder tk; i_ckn := ckn |};
     r_A := {| a_map := ∅; a_arr := {[0%nat := []]}; a_next := 1 |};
     r_imu := rw_free; r_amu := rw_free |}.
