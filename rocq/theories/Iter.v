(** * Model: ranging over the maps of the repo key by key.
    In Sem.v a loop over a map learns all its keys in one step.  In Go each iteration
    takes some key that the map has at that moment and that was not produced before;
    entries removed before they are reached are not produced, entries created during the
    loop may be produced or skipped (https://go.dev/ref/spec#For_range).  This file runs
    the same programs with such loops, other goroutines running between any two steps.
    No proofs in this file. *)
From stdpp Require Import list.
From Verif Require Export Entities Search Repo Sem.
Open Scope nat_scope.

Inductive table := TI | TA.  (* h.indices, h.aliases *)
Definition keys (tb : table) (s : repo) : list string :=
  match tb with TI => (map_to_list (i_map (r_I s))).*1 | TA => (map_to_list (a_map (r_A s))).*1 end.

(** The loops of repos_repo.go: lines 49-52, 275-278, 311-313, 251-263, 151-157, with what
    they have collected so far. *)
Inductive loop :=
| LNames (acc : list string)
| LRows (acc : list (string * slice))
| LText (show : MemoryIndex -> string) (acc : string)
| LDrop (n : string)
| LRename (old new : string).
Definition table_of (L : loop) : table :=
  match L with LNames _ | LText _ _ => TI | LRows _ | LDrop _ | LRename _ _ => TA end.

(** What the call still does, at the head of the loop, if the keys [rest] are to come: in
    the words of Repo.v. *)
Definition todo (L : loop) (rest : list string) : prog :=
  match L with
  | LNames acc => RUnlock MI (Ret (RNames (acc ++ rest)))
  | LRows acc => rows_loop rest acc (fun rows => RUnlock MA (Ret (RRows rows)))
  | LText show acc => string_loop show rest acc (fun s => RUnlock MI (Ret (RText s)))
  | LDrop n => drop_loop rest n (DelIndex n (Unlock MI (Unlock MA (Ret (RBool true)))))
  | LRename old new => rename_loop rest old new (Unlock MI (Ret (RBool true)))
  end.

(** A call: outside of such loops; at the head of one; in the body of one, [f rest] being
    what it still does if the keys [rest] are to come.  [init]: the keys that have been
    in the map since the loop began; [seen]: those produced. *)
Inductive fthr :=
| FRun (t : thr)
| FHead (L : loop) (init seen : list string)
| FBody (tb : table) (init seen : list string) (f : list string -> prog).

(** The steps of a loop body.  They do not depend on the keys to come. *)
Inductive bstep (s : repo) (f : list string -> prog) : (list string -> prog) -> repo -> Prop :=
| B_GetIndex n k :
    (forall r, f r = GetIndex n (k r)) -> bstep s f (fun r => k r (i_map (r_I s) !! n)) s
| B_IdxRead p k :
    (forall r, f r = IdxRead p (k r)) -> bstep s f (fun r => k r (p ≫= fun p => i_heap (r_I s) !! p)) s
| B_GetAlias a k :
    (forall r, f r = GetAlias a (k r)) -> bstep s f (fun r => k r (a_map (r_A s) !! a)) s
| B_SetAlias a sl k :
    (forall r, f r = SetAlias a sl (k r)) -> bstep s f k (set_A (a_set a sl (r_A s)) s)
| B_DelAlias a k :
    (forall r, f r = DelAlias a (k r)) -> bstep s f k (set_A (a_del a (r_A s)) s)
| B_LoadElem sl i k :
    (forall r, f r = LoadElem sl i (k r)) -> bstep s f (fun r => k r (a_load sl i (r_A s))) s
| B_StoreElem sl i v k :
    (forall r, f r = StoreElem sl i v (k r)) -> bstep s f k (set_A (a_store sl i v (r_A s)) s)
| B_Append sl v k cap :
    (forall r, f r = Append sl v (k r)) -> sl_len sl < cap ->
    bstep s f (fun r => k r (a_append sl v cap (r_A s)).2) (set_A (a_append sl v cap (r_A s)).1 s).

Definition ranging (t : thr) : Prop :=
  match t with TRun (RangeIndices _) | TRun (RangeAliases _) => True | _ => False end.

Inductive fres := FNext (t : fthr) (s : repo) | FCrash.
Inductive fstep (s : repo) : fthr -> fres -> Prop :=
| F_plain t t' s' : ~ ranging t -> tstep s t (TNext t' s') -> fstep s (FRun t) (FNext (FRun t') s')
| F_crash t : tstep s t TCrash -> fstep s (FRun t) FCrash
| F_begin_indices k L :
    table_of L = TI -> (forall l, k l = todo L l) ->
    fstep s (FRun (TRun (RangeIndices k))) (FNext (FHead L (keys TI s) []) s)
| F_begin_aliases k L :
    table_of L = TA -> (forall l, k l = todo L l) ->
    fstep s (FRun (TRun (RangeAliases k))) (FNext (FHead L (keys TA s) []) s)
| F_pick L init seen x :
    x ∈ keys (table_of L) s -> x ∉ seen ->
    fstep s (FHead L init seen) (FNext (FBody (table_of L) init (x :: seen) (fun rest => todo L (x :: rest))) s)
| F_body tb init seen f f' s' :
    bstep s f f' s' -> fstep s (FBody tb init seen f) (FNext (FBody tb init seen f') s')
| F_again tb init seen f L :
    table_of L = tb -> (forall rest, f rest = todo L rest) ->
    fstep s (FBody tb init seen f) (FNext (FHead L init seen) s)
| F_end L init seen :
    (forall x, x ∈ init -> x ∈ seen) -> fstep s (FHead L init seen) (FNext (FRun (TRun (todo L []))) s).

(** Keys that others removed need not be produced any more. *)
Definition shrink (s : repo) (t : fthr) : fthr :=
  match t with
  | FRun t => FRun t
  | FHead L init seen => FHead L (filter (fun x => x ∈ keys (table_of L) s) init) seen
  | FBody tb init seen f => FBody tb (filter (fun x => x ∈ keys tb s) init) seen f
  end.

Inductive fpool := FPool (ts : list fthr) (s : repo) | FPCrashed.
Inductive fpstep : fpool -> fpool -> Prop :=
| FP_step ts s i t t' s' :
    ts !! i = Some t -> fstep s t (FNext t' s') ->
    fpstep (FPool ts s) (FPool (shrink s' <$> <[i := t']> ts) s')
| FP_crash ts s i t : ts !! i = Some t -> fstep s t FCrash -> fpstep (FPool ts s) FPCrashed.

Definition fstart (cs : list call) : list fthr := (fun c => FRun (TRun (prog_of c))) <$> cs.
