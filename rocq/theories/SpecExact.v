(** * Specification for C93: the machine of SpecConc.v when no lock is left behind.
    No proofs in this file. *)
From stdpp Require Import gmap list.
From Verif Require Import Entities Search SpecSearch Repo Sem SpecRepo SpecConc.

(** The sections after which UnAlias returns without unlocking: its index does not
    exist (repos_repo.go:114-116), or its alias does not (repos_repo.go:119-122). *)
Definition leaks (x : stage) (w : cview) : Prop :=
  match x with
  | Todo (CUnAlias a i) => i <> ""%string /\ c_idx w !! i = None
  | UnAliasAt a i => c_ali w !! a = None
  | _ => False
  end.

(** The machine of SpecConc.v, restricted to sections that leave no lock behind. *)
Definition tidy_section (ckn : bool) (tk : Tokenizer) (x : stage) (w : cview) (b : leaving) (w' : cview) : Prop :=
  section ckn tk x w b w' /\ ~ leaks x w.
Notation tstep_of ckn tk := (astep (tidy_section ckn tk) leave dies_before dies_inside).

(** [w] is the picture of the memory [s]: its tables, and its objects, each with the
    name it was created with and the documents put into it. *)
Record pictures (tk : Tokenizer) (s : repo) (w : cview) : Prop := {
  pic_idx : shows_indices tk s w;
  pic_ali : shows_aliases s w;
  pic_obj : forall p, is_Some (c_obj w !! p) -> exists n, c_idx w !! n = Some p }.

(** What the code returned, read in the memory [s], is what the machine answered. *)
Definition read_as (s : repo) (p : prog) (a : answer) : Prop :=
  match p, a with
  | Ret r, Returned o => see s r = o
  | Throw, Threw => True
  | _, _ => False
  end.

(** What is in the memory: the index of each name, and the list of each alias. *)
Definition stored (s : repo) : gmap string MemoryIndex :=
  omap (fun p => i_heap (r_I s) !! p) (i_map (r_I s)).
Definition lists (s : repo) : gmap string (list string) := a_cont (r_A s) <$> a_map (r_A s).
(** The same for the machine. *)
Definition m_stored (tk : Tokenizer) (w : cview) : gmap string MemoryIndex :=
  omap (fun p => (fun x => index_after x.1 tk x.2) <$> c_obj w !! p) (c_idx w).
(** Apart from the name that an index was created with, which only String shows. *)
Definition unnamed (x : MemoryIndex) : MemoryIndex :=
  MkMI "" (mi_tokenizer x) (mi_Docs x) (mi_Inverted x).

(** The calls [cs], running concurrently on [s], can all come to an end with the
    answers [la], leaving the indices [m] and the aliases [ali].  (Rename rewrites the
    rows that ListAliases returned: if it occurs, only the names in them are compared.) *)
Definition code_can (s : repo) (cs : list call) (la : list answer)
  (m : gmap string MemoryIndex) (ali : gmap string (list string)) : Prop :=
  exists ts s', rtc pstep (Pool (start cs) s) (Pool ts s') /\
    Forall2 (fun t a => exists p, t = TRun p /\ answers p a /\ (without_rename cs -> read_as s' p a)) ts la /\
    stored s' = m /\ lists s' = ali.

(** The machine can; rows are compared in the same way. *)
Definition same_answer (cs : list call) (a a' : answer) : Prop :=
  match a, a' with
  | Returned (ORows l), Returned (ORows l') => l.*1 = l'.*1 /\ (without_rename cs -> l = l')
  | _, _ => a = a'
  end.
Definition machine_can (ckn : bool) (tk : Tokenizer) (w : cview) (cs : list call) (la : list answer)
  (m : gmap string MemoryIndex) (ali : gmap string (list string)) : Prop :=
  exists la' w', rtc (cstep ckn tk) (APool (cstart cs) w) (APool ((fun a => Between (Answered a)) <$> la') w') /\
    Forall2 (same_answer cs) la' la /\ m_stored tk w' = m /\ c_ali w' = ali.

(** Where a call of the code is, if its call of the machine is at stage [x]: it has
    returned or panicked exactly if the machine has an answer. *)
Definition arrived (cs : list call) (s : repo) (x : stage) (t : thr) : Prop :=
  match x with
  | Answered a => exists p, t = TRun p /\ answers p a /\ (without_rename cs -> read_as s p a)
  | _ => ~ finished t
  end.

(** No UnAlias of an index from an alias answered [false]. *)
Definition kept (cs : list call) (la : list answer) : Prop :=
  forall i a n, cs !! i = Some (CUnAlias a n) -> n <> ""%string -> la !! i <> Some (Returned (OBool false)).

(** UnAlias is only used to remove whole aliases. *)
Definition whole_unalias (cs : list call) : Prop := forall a i, CUnAlias a i ∈ cs -> i = ""%string.
