(** * The memory of a MemoryIndex: index_memory_index.go once more, with the slices
    it stores and hands out as Go has them (backing array, length, capacity), and
    callers that write into the slices they were given.  Search.v has the same
    functions on immutable lists; Properties_Heap.v shows that the two agree.
    No proofs in this file. *)
From Verif Require Export Entities Search.
Open Scope nat_scope.

(** A Go slice header; the code never re-slices, so there is no offset. *)
Record slc := MkSlc { s_arr : nat; s_len : nat; s_cap : nat }.

(** Backing arrays with elements of type [A]; [m_next] is the next free address. *)
Record mem (A : Type) := MkMem { m_arrs : gmap nat (list A); m_next : nat }.
Arguments MkMem {A} _ _.
Arguments m_arrs {A} _.
Arguments m_next {A} _.

(** The elements a holder of header [s] sees; a nil slice has none. *)
Definition elems {A} (m : mem A) (s : option slc) : list A :=
  match s with Some s => take (s_len s) (default [] (m_arrs m !! s_arr s)) | None => [] end.

Definition store {A} (m : mem A) (a i : nat) (x : A) : mem A :=
  MkMem (alter (fun l => <[i := x]> l) a (m_arrs m)) (m_next m).

Definition alloc {A} (m : mem A) (l : list A) : mem A * nat :=
  (MkMem (<[m_next m := l]> (m_arrs m)) (S (m_next m)), m_next m).

(** Go's append of one element: in place if there is spare capacity, otherwise in
    a new array of the needed length plus [extra] zeroed elements.  How much is
    reserved is up to the implementation: [extra] is any function. *)
Definition go_append {A} (extra : nat -> nat) (zero : A) (m : mem A) (s : option slc) (x : A) : mem A * slc :=
  let len := match s with Some s => s_len s | None => 0 end in
  let cap := match s with Some s => s_cap s | None => 0 end in
  match s with
  | Some s' =>
      if len <? cap then (store m (s_arr s') len x, MkSlc (s_arr s') (S len) cap)
      else let n := extra (S len) in
           let (m', a) := alloc m (elems m s ++ [x] ++ replicate n zero) in (m', MkSlc a (S len) (S len + n))
  | None =>
      let n := extra (S len) in
      let (m', a) := alloc m ([x] ++ replicate n zero) in (m', MkSlc a (S len) (S len + n))
  end.

(** index_memory_index.go:11-18, with the memory its slices point into. *)
Record hindex := MkH {
  h_name : string;
  h_tokenizer : Tokenizer;
  h_Docs : option slc;
  h_Inverted : gmap string slc;
  h_docmem : mem Doc;
  h_mem : mem Z }.

Definition zero_doc : Doc := NewDoc "" "".

(** index_memory_index.go:66-73: [Docs] is an empty, non-nil slice. *)
Definition h_New (name : string) (tkr : Tokenizer) : hindex :=
  {| h_name := name; h_tokenizer := tkr; h_Docs := Some (MkSlc 0 0 0); h_Inverted := ∅;
     h_docmem := MkMem {[0 := []]} 1; h_mem := MkMem ∅ 0 |}.

(** index_memory_index.go:20-22 *)
Definition h_Len (h : hindex) : Z :=
  match h_Docs h with Some s => Z.of_nat (s_len s) | None => 0 end.

(** index_memory_index.go:29-31, with the bounds check of [mi.Docs[index]]. *)
Definition h_Document (h : hindex) (index : Z) : outcome Doc :=
  slice_get (elems (h_docmem h) (h_Docs h)) index.

(** index_memory_index.go:24-27.  slices.Copy (package vago, not in the repo):
    a new array with the same elements; of a nil slice, nil or a new empty slice. *)
Definition h_Indexed (ckn : bool) (h : hindex) (key : string) : hindex * option slc :=
  let data := h_Inverted h !! key in
  if (match data with Some _ => false | None => ckn end) then (h, None)
  else let l := elems (h_mem h) data in
       let (m', a) := alloc (h_mem h) l in
       (MkH (h_name h) (h_tokenizer h) (h_Docs h) (h_Inverted h) (h_docmem h) m',
        Some (MkSlc a (length l) (length l))).

(** index_memory_index.go:50-58: one iteration of [tokenLoop]. *)
Definition h_put_token (extra : nat -> nat) (next : Z)
  (inv : gmap string slc * mem Z) (tok : string) : gmap string slc * mem Z :=
  let indexedDocs := inv.1 !! tok in
  if has_doc next (elems inv.2 indexedDocs) then inv
  else let (m', s') := go_append extra 0%Z inv.2 indexedDocs next in
       (<[tok := s']> inv.1, m').

(** index_memory_index.go:44-60 *)
Definition h_Put (extra : nat -> nat) (h : hindex) (payload : DocRequest) : hindex :=
  let tokens := h_tokenizer h (req_Statement payload) in
  let next := h_Len h in
  let newDoc := NewDoc (req_ID payload) (req_Raw payload) in
  let (dm, docs) := go_append extra zero_doc (h_docmem h) (h_Docs h) newDoc in
  let (inv, m) := fold_left (h_put_token extra next) tokens (h_Inverted h, h_mem h) in
  MkH (h_name h) (h_tokenizer h) (Some docs) inv dm m.

(** A caller's assignment [s[i] = x] to an element, or into the spare capacity of
    (by [append(s, x)] or a re-slice), a slice it holds. *)
Definition h_scribble (h : hindex) (s : slc) (i : nat) (x : Z) : hindex :=
  MkH (h_name h) (h_tokenizer h) (h_Docs h) (h_Inverted h) (h_docmem h) (store (h_mem h) (s_arr s) i x).
