(** * Specification: calls that take effect at a step of another call.
    A document on its way to an index that is dropped under it is lost with the
    index; that is what happens if the Put comes just before the Drop.
    No proofs in this file. *)
From stdpp Require Import gmap list.
From Verif Require Import Entities Search Repo Sem SpecRepo SpecConc SpecLin.
Open Scope nat_scope.

(** Issued one after the other, some of the calls kill the process: the first ones
    of the log, or the first ones and then the call number [i].  At least [from]
    calls precede [i]. *)
Definition deadly (ckn : bool) (tk : Tokenizer) (v : view) (cs : list call) (log : list (nat * view * view)) (from i : nat) : Prop :=
  exists log1 v1 j c,
    chain v log1 v1 /\ log1 `prefix_of` log /\
    (forall k vb va, (k, vb, va) ∈ log1 -> exists c' a, cs !! k = Some c' /\ explained ckn tk c' a vb va) /\
    cs !! j = Some c /\ spec ckn tk c v1 OCrash /\
    (log1.*1.*1 ++ [j] `prefix_of` log.*1.*1 \/ (j = i /\ i ∉ log1.*1.*1 /\ from <= length log1)).

(** [cs] started in [s]: every interleaving is linearizable, and every call takes
    effect between its first and its last step ([begun] are the calls that have
    taken a step, each with the number of calls that had taken effect by then; a
    call that has returned is in the log by [linearized]).
    Unlike in [linearizable] it may do so at a step of another call.  If a step kills
    the process, so can calls issued one after the other. *)
Definition linearizable_within (ckn : bool) (tk : Tokenizer) (v : view) (cs : list call) (ts : list thr) (s : repo)
  : Prop :=
  exists L : list thr -> repo -> gmap nat nat -> list (nat * view * view) -> Prop,
    L ts s ∅ [] /\
    (forall ts1 s1 begun log, L ts1 s1 begun log -> linearized ckn tk v cs ts1 s1 log) /\
    (forall ts1 s1 begun log i t t' s2,
      L ts1 s1 begun log -> ts1 !! i = Some t -> tstep s1 t (TNext t' s2) ->
      exists now, L (<[i := t']> ts1) s2 (begun ∪ {[i := length log]}) (log ++ now) /\
        forall j, j ∈ now.*1.*1 -> j = i \/ is_Some (begun !! j)) /\
    (forall ts1 s1 begun log i t,
      L ts1 s1 begun log -> ts1 !! i = Some t -> tstep s1 t TCrash ->
      exists from, begun !! i = Some from /\ deadly ckn tk v cs log from i).

(** The call makes an index or an alias of the name [n]. *)
Definition makes (n : string) (c : call) : Prop :=
  match c with CPut m _ => m = n | CAlias a _ => a = n | CRename _ m => m = n | _ => False end.

(** Of [cs], only the call number [i] does. *)
Definition sole (cs : list call) (i : nat) (n : string) : Prop :=
  forall k c, k <> i -> cs !! k = Some c -> ~ makes n c.

(** [c], the call number [i] of [cs], may run while [c'] does.  This is [tolerates]
    with more room for Put:
    - A Put into an existing index: nobody renames it.  It may be dropped if the Put
      may then make a new index of that name.
    - A Put through an alias: nobody changes the alias, makes an index of its name
      or renames one of its indices.  If all its indices may be dropped, the Put
      may make a new index. *)
Definition bears (v : view) (cs : list call) (i : nat) (c c' : call) : Prop :=
  match c with
  | CPut n _ =>
      match v_idx v !! n, v_ali v !! n with
      | Some _, oa =>
          match c' with
          | CDrop m => m = n -> oa = None /\ sole cs i n
          | CRename o _ => o <> n
          | _ => True
          end
      | None, Some l =>
          match c' with
          | CAlias a _ | CUnAlias a _ => a <> n
          | CDrop _ => (forall x, x ∈ l -> CDrop x ∈ cs) -> sole cs i n
          | CRename o m => m <> n /\ o ∉ l /\ m ∉ l
          | _ => True
          end
      | None, None => ~ makes n c'
      end
  | CDrop n => match c' with CDrop m => m <> n | CRename o _ => o <> n | _ => True end
  | CUnAlias _ i => match c' with CDrop m => m <> i | CRename _ _ => False | _ => True end
  | CListAliases => match c' with CRename _ _ => False | _ => True end
  | _ => True
  end.

Definition gentle (v : view) (cs : list call) : Prop :=
  forall i j c c', i <> j -> cs !! i = Some c -> cs !! j = Some c' -> bears v cs i c c'.
