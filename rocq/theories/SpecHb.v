(** * Specification for C96: the happens-before order of the Go memory model,
    for runs of concurrent calls.  No proofs in this file. *)
From stdpp Require Import list.
From Verif Require Import Entities Search Repo Sem Race.
Open Scope nat_scope.

(** The goroutine of a call that made the step from [t] to [t']: the one started by
    the call whose state changed, otherwise the caller (0). *)
Definition mover (t t' : thr) (g : nat) : Prop :=
  match t, t' with
  | TPut cs _ _, TPut cs' _ _ => exists j, g = S j /\ cs !! j <> cs' !! j
  | TSearch cs _ _ _ _, TSearch cs' _ _ _ _ => exists j, g = S j /\ cs !! j <> cs' !! j
  | _, _ => g = 0
  end.

(** An event of a run: goroutine [ev_g] of call [ev_call] made a step when the call
    was in state [ev_at]. *)
Record event := MkEv { ev_call : nat; ev_g : nat; ev_at : thr }.

(** Runs with their events in order. *)
Inductive run (ts : list thr) (s : repo) : list event -> list thr -> repo -> Prop :=
| R_start : run ts s [] ts s
| R_step tr ts1 s1 i t t' s2 g :
    run ts s tr ts1 s1 -> ts1 !! i = Some t -> tstep s1 t (TNext t' s2) -> mover t t' g ->
    run ts s (tr ++ [MkEv i g t]) (<[i := t']> ts1) s2.

(** What the synchronising operations are. *)
Definition is_unlock (m : mutex) (e : event) : Prop :=
  match ev_at e with TRun (Unlock m' _) => m' = m | _ => False end.
Definition is_runlock (m : mutex) (e : event) : Prop :=
  match ev_at e with TRun (RUnlock m' _) => m' = m | _ => False end.
(** Lock returns (its announcement is another event). *)
Definition is_lock (m : mutex) (e : event) : Prop :=
  match ev_at e with TPend m' _ => m' = m | _ => False end.
Definition is_rlock (m : mutex) (e : event) : Prop :=
  match ev_at e with TRun (RLock m' _) => m' = m | _ => False end.
(** The go statements of a Put or Search: repos_repo.go:203-212, 230-235. *)
Definition is_go (e : event) : Prop :=
  match ev_at e with TRun (GoPut _ _ _) | TRun (GoSearch _ _ _ _) => True | _ => False end.
(** Wait returns: repos_repo.go:213, 236. *)
Definition is_wait (e : event) : Prop :=
  ev_g e = 0 /\ match ev_at e with TPut _ _ _ | TSearch _ _ _ _ _ => True | _ => False end.
(** The mutex [rl] of a Search: repos_repo.go:207, 209. *)
Definition is_rl (held : bool) (e : event) : Prop :=
  exists j, ev_g e = S j /\
    match ev_at e with
    | TSearch cs _ _ _ _ => if held then cs !! j = Some SRel else exists sr, cs !! j = Some (SGot sr)
    | _ => False
    end.

(** Happens-before (https://go.dev/ref/mem) between the positions of a run: the order
    within a goroutine; an Unlock before later Lock and RLock; an RUnlock before later
    Lock; a go statement before the goroutine; what a goroutine does before Done before
    the return of Wait; and what follows by transitivity. *)
Inductive hb (tr : list event) : nat -> nat -> Prop :=
| HB_order a b e e' :
    tr !! a = Some e -> tr !! b = Some e' -> a < b -> ev_call e = ev_call e' -> ev_g e = ev_g e' -> hb tr a b
| HB_unlock a b e e' m :
    tr !! a = Some e -> tr !! b = Some e' -> a < b -> is_unlock m e -> is_lock m e' \/ is_rlock m e' -> hb tr a b
| HB_runlock a b e e' m :
    tr !! a = Some e -> tr !! b = Some e' -> a < b -> is_runlock m e -> is_lock m e' -> hb tr a b
| HB_go a b e e' :
    tr !! a = Some e -> tr !! b = Some e' -> a < b -> ev_call e = ev_call e' -> is_go e -> ev_g e' <> 0 -> hb tr a b
| HB_wait a b e e' :
    tr !! a = Some e -> tr !! b = Some e' -> a < b -> ev_call e = ev_call e' -> ev_g e <> 0 -> is_wait e' -> hb tr a b
| HB_rl a b e e' :
    tr !! a = Some e -> tr !! b = Some e' -> a < b -> ev_call e = ev_call e' -> is_rl true e -> is_rl false e' -> hb tr a b
| HB_trans a b c : hb tr a b -> hb tr b c -> hb tr a c.

(** The event accesses a location. *)
Definition does (e : event) (l : loc) (w : bool) : Prop := access (ev_at e) (ev_g e) l w.

(** Two events that conflict: one location, at least one write.  ([LResult] is a
    variable of its own in every call.) *)
Definition conflict (e e' : event) : Prop :=
  exists l w w', does e l w /\ does e' l w' /\ (w = true \/ w' = true) /\
    (l = LResult -> ev_call e = ev_call e').
