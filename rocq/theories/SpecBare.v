(** * Specification for C95: a MemoryIndex shared by goroutines.
    No proofs in this file. *)
From stdpp Require Import gmap list.
From Verif Require Import Entities Search SpecSearch Trace Print Bare.
Open Scope Z_scope.

(** Calls that change nothing. *)
Definition looks (c : bcall) : Prop := match c with KPut _ => False | _ => True end.

(** How a call that changes nothing may end on [mi]: it returns, or panics (or its
    engine loops for ever, which Trace.v allows). *)
Definition answer_of (ckn : bool) (mi : MemoryIndex) (c : bcall) (p : mprog) : Prop :=
  match c with
  | KPut _ => False
  | KSearch q e =>
      match (irun (indexer_of ckn mi) (e (mi_tokenizer mi q))).2 with
      | Some (Ok l) => p = MDone (BResults l)
      | Some Panic => p = MThrow
      | None => p = MSpin
      end
  | KLen => p = MDone (BLen (Z.of_nat (length (mi_Docs mi))))
  | KIndexed t => p = MDone (BPositions (Indexed ckn mi t))
  | KDocument i => match slice_get (mi_Docs mi) i with Ok d => p = MDone (BDoc d) | Panic => p = MThrow end
  | KString => exists range, range (mi_Inverted mi) ≡ₚ map_to_list (mi_Inverted mi) /\ p = MDone (BText (mi_String range mi))
  end.

(** The calls of the Indexer that read the documents. *)
Definition reads_docs (e : event) : Prop := match e with EvIndexed _ => False | _ => True end.

(** A Put and a call that reads or writes what the Put writes: the slice of
    documents, or the map if the text has any tokens. *)
Definition collides (ckn : bool) (mi : MemoryIndex) (c c' : bcall) : Prop :=
  match c with
  | KPut r =>
      match c' with
      | KPut _ | KLen | KDocument _ => True
      | KIndexed _ | KString => mi_tokenizer mi (req_Statement r) <> []
      | KSearch q e =>
          let calls := (irun (indexer_of ckn mi) (e (mi_tokenizer mi q))).1 in
          (mi_tokenizer mi (req_Statement r) <> [] /\ calls <> []) \/ Exists reads_docs calls
      end
  | _ => False
  end.
