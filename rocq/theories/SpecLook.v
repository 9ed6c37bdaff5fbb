(** * Specification for C92: what a program that uses a repo can see of it.
    Only calls and what they report, one after the other; no views. *)
From stdpp Require Import gmap list.
From Verif Require Import Entities Search SpecSearch Repo Sem SpecRepo.

(** What the program sees of one call: the value, a panic, the end of the process,
    or nothing any more. *)
Inductive seen := SawValue (o : obs) | SawPanic | SawCrash | SawHang.

(** [l] is a possible experience of a program that makes the calls in [l] one after
    the other, starting with the repo in state [s].  Nothing can be seen after a crash
    or a call that does not return. *)
Inductive experience : repo -> list (call * seen) -> Prop :=
| X_nil s : experience s []
| X_value s c r s' l :
    call_result c s (Done r s') -> experience s' l -> experience s ((c, SawValue (see s' r)) :: l)
| X_panic s c s' l :
    call_result c s (Panicked s') -> experience s' l -> experience s ((c, SawPanic) :: l)
| X_crash s c : call_result c s Crashed -> experience s [(c, SawCrash)]
| X_hang s c : call_result c s Blocked -> experience s [(c, SawHang)].

(** [String] is a method for debugging: it shows more (see C92_String_shows_more). *)
Definition no_String (l : list (call * seen)) : Prop := forall show x, (CString show, x) ∉ l.

(** No program that does not print the repos can tell the two apart. *)
Definition alike (s1 s2 : repo) : Prop :=
  forall l, no_String l -> experience s1 l <-> experience s2 l.

(** Two documents that no search tells apart: the same ID and content, and the same
    set of tokens. *)
Definition same_doc (tk : Tokenizer) (r1 r2 : DocRequest) : Prop :=
  req_Name r1 = req_Name r2 /\ req_Content r1 = req_Content r2 /\
  forall t, t ∈ tk (req_statement r1) <-> t ∈ tk (req_statement r2).

(** What there is to know about a repo: the names, the documents of each in order,
    whether a lock of the index table was left behind, whether that of the alias table
    was; and the aliases, unless it was. *)
Record similar (tk : Tokenizer) (v1 v2 : view) : Prop := {
  si_idx : forall n,
    match v_idx v1 !! n, v_idx v2 !! n with
    | Some reqs1, Some reqs2 => Forall2 (same_doc tk) reqs1 reqs2
    | None, None => True
    | _, _ => False
    end;
  si_leakI : v_leakI v1 = 0%nat <-> v_leakI v2 = 0%nat;
  si_leakA : v_leakA v1 = v_leakA v2;
  si_ali : v_leakA v1 = false -> v_ali v1 = v_ali v2 }.
