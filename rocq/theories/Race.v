(** * Data races between the goroutines of concurrent calls: definitions.
    A race is a state in which two goroutines are both about to access the same
    memory location without holding it exclusively, one of them writing.
    No proofs in this file. *)
From stdpp Require Import list.
From Verif Require Import Entities Search Repo Sem.
Open Scope nat_scope.

(** The table of indices, the table of aliases, an element of the backing array
    of an alias list, an index object, and the variable [result] of Search
    (repos_repo.go:198), which is local to one call. *)
Inductive loc := LIndices | LAliases | LElem (a i : nat) | LObj (p : ptr) | LResult.

(** [access t g l w]: goroutine [g] of the call [t] is about to access [l]; [w]:
    to write it.  Goroutine 0 is the caller, the others were started by the
    call. *)
Inductive access : thr -> nat -> loc -> bool -> Prop :=
| A_GetIndex n k : access (TRun (GetIndex n k)) 0 LIndices false
| A_SetIndex n p k : access (TRun (SetIndex n p k)) 0 LIndices true
| A_DelIndex n k : access (TRun (DelIndex n k)) 0 LIndices true
| A_RangeIndices k : access (TRun (RangeIndices k)) 0 LIndices false
| A_GetAlias a k : access (TRun (GetAlias a k)) 0 LAliases false
| A_SetAlias a s k : access (TRun (SetAlias a s k)) 0 LAliases true
| A_DelAlias a k : access (TRun (DelAlias a k)) 0 LAliases true
| A_RangeAliases k : access (TRun (RangeAliases k)) 0 LAliases false
| A_LoadElem s i k : access (TRun (LoadElem s i k)) 0 (LElem (sl_arr s) i) false
| A_StoreElem s i v k : access (TRun (StoreElem s i v k)) 0 (LElem (sl_arr s) i) true
| A_Append_copy s v k i : i < sl_len s -> access (TRun (Append s v k)) 0 (LElem (sl_arr s) i) false
| A_Append_in_place s v k :
    sl_len s < sl_cap s -> access (TRun (Append s v k)) 0 (LElem (sl_arr s) (sl_len s)) true
| A_IdxPut p d k : access (TRun (IdxPut p d k)) 0 (LObj p) true
| A_IdxSearch p q e k kp : access (TRun (IdxSearch (Some p) q e k kp)) 0 (LObj p) false
| A_IdxRead p k : access (TRun (IdxRead (Some p) k)) 0 (LObj p) false
| A_PutChild cs d k j p : cs !! j = Some (Some (Some p)) -> access (TPut cs d k) (S j) (LObj p) true
| A_SearchChild cs q e r k j p :
    cs !! j = Some (SStart (Some p)) -> access (TSearch cs q e r k) (S j) (LObj p) false
| A_SearchRead cs q e r k j sr :
    cs !! j = Some (SHold sr) -> access (TSearch cs q e r k) (S j) LResult false
| A_SearchWrite cs q e r k j sr old :
    cs !! j = Some (SRead sr old) -> access (TSearch cs q e r k) (S j) LResult true
| A_SearchWait cs q e r k :
    Forall (fun c => c = SDone) cs -> access (TSearch cs q e r k) 0 LResult false.

(** A race between goroutines of two different calls. *)
Definition race_between (ts : list thr) : Prop :=
  exists i j ti tj gi gj l wi wj,
    ts !! i = Some ti /\ ts !! j = Some tj /\ i <> j /\ l <> LResult /\
    access ti gi l wi /\ access tj gj l wj /\ (wi = true \/ wj = true).

(** The same, on the location [l]. *)
Definition race_on (l : loc) (ts : list thr) : Prop :=
  exists i j ti tj gi gj wi wj,
    ts !! i = Some ti /\ ts !! j = Some tj /\ i <> j /\ l <> LResult /\
    access ti gi l wi /\ access tj gj l wj /\ (wi = true \/ wj = true).

(** A race between two goroutines of one call. *)
Definition race_within (t : thr) : Prop :=
  exists g g' l w w', g <> g' /\ access t g l w /\ access t g' l w' /\ (w = true \/ w' = true).
