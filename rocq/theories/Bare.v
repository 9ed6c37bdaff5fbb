(** * A MemoryIndex shared by goroutines, without a repo and its locks:
    index_memory_index.go a third time, one step per access to shared memory.
    Heap.v has the memory and the methods run alone; Trace.v has the engines as
    programs that call the Indexer.  No proofs in this file. *)
From stdpp Require Import gmap list.
From Verif Require Export Entities Search Heap Trace Print.
Open Scope Z_scope.

(** What a method returns (Put: the index itself). *)
Inductive bret :=
| BIndex
| BLen (n : Z)
| BPositions (l : option (list Z))
| BDoc (d : Doc)
| BResults (l : list SearchResult)
| BText (t : string).

(** A method call in progress.  [MGetDocs], [MSetDocs]: the field Docs (the slice
    header).  [MLoadDoc]: an element of Docs.  [MPushDoc], [MPush]: append, which
    reads the elements when it needs a new array and otherwise writes the next
    element in place.  [MGetKey], [MSetKey], [MRange]: the map InvertedIndex.
    [MLoad]: the elements of a posting list, all in one step. *)
Inductive mprog :=
| MDone (r : bret)
| MThrow
| MSpin
| MGetDocs (k : option slc -> mprog)
| MSetDocs (s : slc) (k : mprog)
| MLoadDoc (s : slc) (i : nat) (k : Doc -> mprog)
| MPushDoc (s : option slc) (d : Doc) (k : slc -> mprog)
| MGetKey (t : string) (k : option slc -> mprog)
| MSetKey (t : string) (s : slc) (k : mprog)
| MRange (k : list (string * slc) -> mprog)
| MLoad (s : option slc) (k : list Z -> mprog)
| MPush (s : option slc) (x : Z) (k : slc -> mprog).

Definition len_of (s : option slc) : Z := match s with Some s => Z.of_nat (s_len s) | None => 0 end.

(** index_memory_index.go:24-27: what slices.Copy makes of the list read. *)
Definition copied (ckn : bool) (s : option slc) (l : list Z) : option (list Z) :=
  match s with Some _ => Some l | None => if ckn then None else Some [] end.

(** index_memory_index.go:29-31 *)
Definition Document_m (index : Z) (k : Doc -> mprog) : mprog :=
  MGetDocs (fun s =>
    match s with
    | Some s => if (0 <=? index) && (index <? Z.of_nat (s_len s)) then MLoadDoc s (Z.to_nat index) k else MThrow
    | None => MThrow
    end).

(** index_memory_index.go:62-64 and the calls the engine makes
    (search_search.go:15-19, index_memory_index.go:20-31). *)
Fixpoint engine_m (ckn : bool) (p : iprog) : mprog :=
  match p with
  | IRet l => MDone (BResults l)
  | ISpin => MSpin
  | ILen k => MGetDocs (fun s => engine_m ckn (k (len_of s)))
  | IIndexed t k => MGetKey t (fun s => MLoad s (fun l => engine_m ckn (k (copied ckn s l))))
  | IDocument i k => Document_m i (fun d => engine_m ckn (k d))
  end.

(** index_memory_index.go:50-58 *)
Fixpoint tokens_m (next : Z) (tokens : list string) : mprog :=
  match tokens with
  | [] => MDone BIndex
  | tok :: rest =>
      MGetKey tok (fun s =>
        MLoad s (fun indexedDocs =>
          if has_doc next indexedDocs then tokens_m next rest
          else MPush s next (fun s' => MSetKey tok s' (tokens_m next rest))))
  end.

(** index_memory_index.go:44-60: [len(mi.Docs)] in line 46 and [mi.Docs] in line 48
    are two reads of the field. *)
Definition Put_m (tk : Tokenizer) (payload : DocRequest) : mprog :=
  MGetDocs (fun s =>
    let next := len_of s in
    MGetDocs (fun s =>
      MPushDoc s (NewDoc (req_ID payload) (req_Raw payload)) (fun s' =>
        MSetDocs s' (tokens_m next (tk (req_Statement payload)))))).

(** index_memory_index.go:37-39 *)
Fixpoint print_m (entries : list (string * slc)) (buf : string) : mprog :=
  match entries with
  | [] => MDone (BText (buf ++ newline ++ "}"))
  | (t, s) :: rest => MLoad (Some s) (fun l => print_m rest (write_token buf (t, l)))
  end.

(** The methods; an engine is what it does with the tokens. *)
Inductive bcall :=
| KPut (r : DocRequest)
| KSearch (q : string) (e : list string -> iprog)
| KLen
| KIndexed (t : string)
| KDocument (i : Z)
| KString.

(** index_memory_index.go:20-64 *)
Definition bprog (ckn : bool) (name : string) (tk : Tokenizer) (c : bcall) : mprog :=
  match c with
  | KPut r => Put_m tk r
  | KSearch q e => engine_m ckn (e (tk q))
  | KLen => MGetDocs (fun s => MDone (BLen (len_of s)))
  | KIndexed t => MGetKey t (fun s => MLoad s (fun l => MDone (BPositions (copied ckn s l))))
  | KDocument i => Document_m i (fun d => MDone (BDoc d))
  | KString => MRange (fun entries => print_m entries ("{" ++ newline ++ tab ++ "name=" ++ name))
  end.

Definition set_docs (h : hindex) (s : slc) : hindex :=
  MkH (h_name h) (h_tokenizer h) (Some s) (h_Inverted h) (h_docmem h) (h_mem h).
Definition set_docmem (h : hindex) (m : mem Doc) : hindex :=
  MkH (h_name h) (h_tokenizer h) (h_Docs h) (h_Inverted h) m (h_mem h).
Definition set_key (h : hindex) (t : string) (s : slc) : hindex :=
  MkH (h_name h) (h_tokenizer h) (h_Docs h) (<[t := s]> (h_Inverted h)) (h_docmem h) (h_mem h).
Definition set_mem (h : hindex) (m : mem Z) : hindex :=
  MkH (h_name h) (h_tokenizer h) (h_Docs h) (h_Inverted h) (h_docmem h) m.

(** One step of one goroutine. *)
Inductive bstep (extra : nat -> nat) : mprog -> hindex -> mprog -> hindex -> Prop :=
| B_GetDocs k h : bstep extra (MGetDocs k) h (k (h_Docs h)) h
| B_SetDocs s k h : bstep extra (MSetDocs s k) h k (set_docs h s)
| B_LoadDoc s i k h :
    bstep extra (MLoadDoc s i k) h (k (default zero_doc (default [] (m_arrs (h_docmem h) !! s_arr s) !! i))) h
| B_PushDoc s d k h m s' :
    go_append extra zero_doc (h_docmem h) s d = (m, s') -> bstep extra (MPushDoc s d k) h (k s') (set_docmem h m)
| B_GetKey t k h : bstep extra (MGetKey t k) h (k (h_Inverted h !! t)) h
| B_SetKey t s k h : bstep extra (MSetKey t s k) h k (set_key h t s)
| B_Range k h l : l ≡ₚ map_to_list (h_Inverted h) -> bstep extra (MRange k) h (k l) h
| B_Load s k h : bstep extra (MLoad s k) h (k (elems (h_mem h) s)) h
| B_Push s x k h m s' :
    go_append extra 0 (h_mem h) s x = (m, s') -> bstep extra (MPush s x k) h (k s') (set_mem h m).

(** Goroutines that share the index. *)
Inductive bpool (extra : nat -> nat) : list mprog * hindex -> list mprog * hindex -> Prop :=
| BP ps h i p p' h' :
    ps !! i = Some p -> bstep extra p h p' h' -> bpool extra (ps, h) (<[i := p']> ps, h').

(** Locations: the field Docs, the map, elements of the arrays of both kinds. *)
Inductive bloc := AtDocs | AtMap | AtDoc (a i : nat) | AtPosition (a i : nat).

(** [touches p l w]: the next step of [p] accesses [l]; [w]: writes it. *)
Inductive touches : mprog -> bloc -> bool -> Prop :=
| T_GetDocs k : touches (MGetDocs k) AtDocs false
| T_SetDocs s k : touches (MSetDocs s k) AtDocs true
| T_LoadDoc s i k : touches (MLoadDoc s i k) (AtDoc (s_arr s) i) false
| T_PushDoc_in_place s d k :
    (s_len s < s_cap s)%nat -> touches (MPushDoc (Some s) d k) (AtDoc (s_arr s) (s_len s)) true
| T_PushDoc_copy s d k i :
    (s_cap s <= s_len s)%nat -> (i < s_len s)%nat -> touches (MPushDoc (Some s) d k) (AtDoc (s_arr s) i) false
| T_GetKey t k : touches (MGetKey t k) AtMap false
| T_SetKey t s k : touches (MSetKey t s k) AtMap true
| T_Range k : touches (MRange k) AtMap false
| T_Load s k i : (i < s_len s)%nat -> touches (MLoad (Some s) k) (AtPosition (s_arr s) i) false
| T_Push_in_place s x k :
    (s_len s < s_cap s)%nat -> touches (MPush (Some s) x k) (AtPosition (s_arr s) (s_len s)) true
| T_Push_copy s x k i :
    (s_cap s <= s_len s)%nat -> (i < s_len s)%nat -> touches (MPush (Some s) x k) (AtPosition (s_arr s) i) false.

(** A data race: two goroutines are about to access one location, one to write. *)
Definition brace (ps : list mprog) : Prop :=
  exists i j p q l w w', ps !! i = Some p /\ ps !! j = Some q /\ i <> j /\
    touches p l w /\ touches q l w' /\ (w = true \/ w' = true).
