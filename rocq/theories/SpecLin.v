(** * Specification of linearizability: concurrent calls against the sequential
    machine of SpecRepo.v.  No proofs in this file. *)
From stdpp Require Import gmap list.
From Verif Require Import Entities Search Repo Sem SpecRepo SpecConc.
Open Scope nat_scope.

(** The locks left behind by UnAlias are not part of this comparison (C48). *)
Definition forget (v : view) : view := MkView (v_idx v) (v_ali v) 0 false.

(** A log of the calls that have taken effect, each with the views before and
    after it. *)
Inductive chain : view -> list (nat * view * view) -> view -> Prop :=
| chain_nil v : chain v [] v
| chain_cons i v v1 log v2 : chain v1 log v2 -> chain v ((i, v, v1) :: log) v2.

(** The sequential machine allows the call [c] to end as the answer [a] does,
    turning [vb] into [va]. *)
Definition explained (ckn : bool) (tk : Tokenizer) (c : call) (a : answer) (vb va : view) : Prop :=
  match a with
  | Returned o => exists v1, spec ckn tk c vb (ODone o v1) /\ va = forget v1
  | Threw => exists v1, spec ckn tk c vb (OPanic v1) /\ va = forget v1
  end.

(** The sequential machine allows [c] to turn [vb] into [va], or to kill the
    process in [vb] (which has not happened yet). *)
Definition may_take ckn tk (c : call) (vb va : view) : Prop :=
  (exists a, explained ckn tk c a vb va) \/ (spec ckn tk c vb OCrash /\ va = vb).

(** The memory of the code holds the indices and aliases of [v]. *)
Definition shows (tk : Tokenizer) (s : repo) (v : view) : Prop :=
  exists w, view_of w = v /\ shows_indices tk s w /\ shows_aliases s w.

(** The calls of [log] have taken effect, in this order and starting from [v0];
    no other call has.  Every finished call is among them and its answer is the
    one it would have got if the calls had been issued one after the other. *)
Record linearized (ckn : bool) (tk : Tokenizer) (v0 : view) (cs : list call) (ts : list thr) (s : repo)
  (log : list (nat * view * view)) : Prop := {
  lin_nodup : NoDup log.*1.*1;
  lin_calls : forall i, i ∈ log.*1.*1 -> i < length cs;
  lin_log : exists v,
    chain v0 log v /\
    (forall i vb va, (i, vb, va) ∈ log -> exists c, cs !! i = Some c /\ may_take ckn tk c vb va) /\
    (forall i p, ts !! i = Some (TRun p) -> finished (TRun p) ->
      exists c a vb va, cs !! i = Some c /\ (i, vb, va) ∈ log /\ explained ckn tk c a vb va /\ answers p a /\
        (forall r, p = Ret r -> a = Returned (see s r))) /\
    ((rw_writer (r_imu s) = false /\ rw_writer (r_amu s) = false) \/ Forall finished ts -> shows tk s v) }.

(** [cs] started in [s]: every interleaving is linearizable, and the log grows
    by one call at a time, at a step of that call. *)
Definition linearizable (ckn : bool) (tk : Tokenizer) (v : view) (cs : list call) (ts : list thr) (s : repo) : Prop :=
  exists L : list thr -> repo -> list (nat * view * view) -> Prop,
    L ts s [] /\
    (forall ts1 s1 log, L ts1 s1 log -> linearized ckn tk v cs ts1 s1 log) /\
    (forall ts1 s1 log i t t' s2, L ts1 s1 log -> ts1 !! i = Some t -> tstep s1 t (TNext t' s2) ->
      L (<[i := t']> ts1) s2 log \/
      (i ∉ log.*1.*1 /\ exists vb va, L (<[i := t']> ts1) s2 (log ++ [(i, vb, va)]))).

(** The calls do not drop or rename indices, and every Put names an index that
    exists, or an alias that exists and that no call changes. *)
Definition steady (v : view) (cs : list call) : Prop :=
  forall c, c ∈ cs ->
  match c with
  | CRename _ _ | CDrop _ => False
  | CPut n _ =>
      is_Some (v_idx v !! n) \/
      (is_Some (v_ali v !! n) /\ forall i, CAlias n i ∉ cs /\ CUnAlias n i ∉ cs)
  | _ => True
  end.

(** [c] may run while [c'] does: [c'] does not touch what [c] looks at in its first
    section and relies on in its second.
    - A Put into an existing index: nobody drops it, renames it or renames another
      index to its name.
    - A Put through an alias: nobody changes the alias, makes an index of its name
      or drops, renames or creates one of its indices.
    - A Put of a new name: nobody else makes an index or an alias of that name.
    - A Drop: nobody else drops the index or renames it.
    - An UnAlias: nobody drops the index; no Rename (which changes aliases without
      their lock).
    - ListAliases: no Rename (which changes the returned rows). *)
Definition tolerates (v : view) (c c' : call) : Prop :=
  match c with
  | CPut n _ =>
      match v_idx v !! n, v_ali v !! n with
      | Some _, _ =>
          match c' with CDrop m => m <> n | CRename o m => o <> n /\ m <> n | _ => True end
      | None, Some l =>
          match c' with
          | CAlias a _ | CUnAlias a _ => a <> n
          | CDrop m => l <> [] /\ m ∉ l
          | CRename o m => m <> n /\ o ∉ l /\ m ∉ l
          | CPut m _ => m ∈ l -> is_Some (v_idx v !! m) \/ is_Some (v_ali v !! m)
          | _ => True
          end
      | None, None =>
          match c' with CPut m _ => m <> n | CAlias a _ => a <> n | CRename _ m => m <> n | _ => True end
      end
  | CDrop n => match c' with CDrop m => m <> n | CRename o _ => o <> n | _ => True end
  | CUnAlias _ i => match c' with CDrop m => m <> i | CRename _ _ => False | _ => True end
  | CListAliases => match c' with CRename _ _ => False | _ => True end
  | _ => True
  end.

Definition calm (v : view) (cs : list call) : Prop :=
  forall i j c c', i <> j -> cs !! i = Some c -> cs !! j = Some c' -> tolerates v c c'.

(** A finished run in which every call ends as if the calls had been issued one
    after the other in some order. *)
Definition serializable (ckn : bool) (tk : Tokenizer) (v : view) (cs : list call) (ts : list thr) (s' : repo) : Prop :=
  exists log v',
    log.*1.*1 ≡ₚ seq 0 (length cs) /\ chain v log v' /\ shows tk s' v' /\
    forall i p, ts !! i = Some (TRun p) ->
      exists c a vb va, cs !! i = Some c /\ (i, vb, va) ∈ log /\ explained ckn tk c a vb va /\
        match p with Ret r => a = Returned (see s' r) | _ => p = Throw /\ a = Threw end.
