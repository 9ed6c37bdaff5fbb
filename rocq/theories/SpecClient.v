(** * Specification: programs that use the repo.
    Client programs running at once against the code, and the same programs taking
    turns against the sequential machine of SpecRepo.v.  No proofs in this file. *)
From stdpp Require Import gmap list.
From Verif Require Import Entities Search Repo Sem SpecRepo SpecConc SpecLin.
Open Scope nat_scope.

(** A client program stops, or makes a call and goes on depending on the answer. *)
Inductive client := Stop | Ask (c : call) (k : answer -> client).

(** ** Clients at once, against the code *)

(** A client is between two calls, or the thread [t] runs the call [c] for it. *)
Inductive cstate := Idle (p : client) | Busy (c : call) (t : thr) (k : answer -> client).

(** The clients, the repo, and the calls made so far. *)
Inductive world := Live (l : list cstate) (s : repo) (cs : list call) | Dead.

(** The rows of ListAliases are read when the client gets them. *)
Inductive wstep : world -> world -> Prop :=
| W_ask l s cs i c k :
    l !! i = Some (Idle (Ask c k)) ->
    wstep (Live l s cs) (Live (<[i := Busy c (TRun (prog_of c)) k]> l) s (cs ++ [c]))
| W_run l s cs i c t k t' s' :
    l !! i = Some (Busy c t k) -> tstep s t (TNext t' s') ->
    wstep (Live l s cs) (Live (<[i := Busy c t' k]> l) s' cs)
| W_return l s cs i c r k :
    l !! i = Some (Busy c (TRun (Ret r)) k) ->
    wstep (Live l s cs) (Live (<[i := Idle (k (Returned (see s r)))]> l) s cs)
| W_throw l s cs i c k :
    l !! i = Some (Busy c (TRun Throw) k) ->
    wstep (Live l s cs) (Live (<[i := Idle (k Threw)]> l) s cs)
| W_die l s cs i c t k :
    l !! i = Some (Busy c t k) -> tstep s t TCrash -> wstep (Live l s cs) Dead.

(** ** Clients taking turns, against the sequential machine *)

Inductive turns := Turn (l : list client) (v : view) | Over.

Inductive turn (ckn : bool) (tk : Tokenizer) : turns -> turns -> Prop :=
| T_call l v i c k a v' :
    l !! i = Some (Ask c k) -> explained ckn tk c a v v' -> turn ckn tk (Turn l v) (Turn (<[i := k a]> l) v')
| T_die l v i c k :
    l !! i = Some (Ask c k) -> spec ckn tk c v OCrash -> turn ckn tk (Turn l v) Over.

(** How far a client that takes turns is when the client at once is at [x]: a
    running call has been made or not. *)
Definition at_turn (x : cstate) (p : client) : Prop :=
  match x with
  | Idle q => p = q
  | Busy c _ k => p = Ask c k \/ exists a, p = k a
  end.

(** No call is changing the tables. *)
Definition at_rest (s : repo) : Prop := rw_writer (r_imu s) = false /\ rw_writer (r_amu s) = false.

Definition idle (x : cstate) : Prop := match x with Idle _ => True | Busy _ _ _ => False end.

(** All calls a client may make satisfy [P]. *)
Fixpoint makes_only (P : call -> Prop) (p : client) : Prop :=
  match p with Stop => True | Ask c k => P c /\ forall a, makes_only P (k a) end.

(** Some client's UnAlias(a, x), x not empty, is about to tell it false (and keeps a
    lock). *)
Definition refused (l : list cstate) : Prop :=
  exists i a x k, l !! i = Some (Busy (CUnAlias a x) (TRun (Ret (RBool false))) k) /\ x <> ""%string.

(** A step after which no UnAlias is refused. *)
Definition smooth (w w' : world) : Prop :=
  wstep w w' /\ match w' with Live l _ _ => ~ refused l | Dead => True end.

(** The thread that runs for a client (an idle client runs nothing). *)
Definition thread_of (x : cstate) : thr := match x with Idle _ => TRun Throw | Busy _ t _ => t end.
