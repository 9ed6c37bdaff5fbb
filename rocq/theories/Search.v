(** * Model of index_memory_index.go, search_search.go, search_noop_search.go,
    search_linear_search.go and search_hits_search.go.  No proofs. *)
From Verif Require Export Entities.

(** index_index.go:5-7.  A tokenizer is modelled as a pure function. *)
Definition Tokenizer := string -> list string.

(** search_search.go:15-19.  [Indexed] returns a slice that may be nil: [None]
    is nil, [Some []] the empty non-nil slice. [Document] may panic. *)
Record Indexer := MkIndexer {
  ix_Len : Z;
  ix_Indexed : string -> option (list Z);
  ix_Document : Z -> outcome Doc }.

(** search_search.go:22.  The result slice's nil/empty distinction is not
    observable through the API (callers range over it or take its length), so
    results are plain lists. *)
Definition Engine := list string -> Indexer -> outcome (list SearchResult).

(** search_search.go:5-13 ([iota]) *)
Definition EngineType := N.
Definition ET_NoopZero : EngineType := 0%N.
Definition ET_NoopAll : EngineType := 1%N.
Definition ET_Hits : EngineType := 2%N.
Definition ET_SmartsHits : EngineType := 3%N.
Definition ET_Linear : EngineType := 4%N.

(** index_memory_index.go:11-18 *)
Record MemoryIndex := MkMI {
  mi_name : string;
  mi_tokenizer : Tokenizer;
  mi_Docs : list Doc;
  mi_Inverted : gmap string (list Z) }.

(** Go slice indexing [s[i]] with the run-time bounds check. *)
Definition slice_get {A} (s : list A) (i : Z) : outcome A :=
  if (i <? 0) then Panic
  else match s !! Z.to_nat i with Some x => Ok x | None => Panic end.

(** index_memory_index.go:20-22 *)
Definition Len (mi : MemoryIndex) : Z := Z.of_nat (length (mi_Docs mi)).

(** index_memory_index.go:24-27.  [slices.Copy] (vago, not in the repo) of a
    nil slice may return nil or an empty slice: [copy_keeps_nil] says which. *)
Definition Indexed (copy_keeps_nil : bool) (mi : MemoryIndex) (key : string)
  : option (list Z) :=
  match mi_Inverted mi !! key with
  | Some l => Some l
  | None => if copy_keeps_nil then None else Some []
  end.

(** index_memory_index.go:29-31 *)
Definition Document (mi : MemoryIndex) (index : Z) : outcome Doc :=
  slice_get (mi_Docs mi) index.

(** index_memory_index.go:52-56: the inner loop of Put looks for [next]. *)
Fixpoint has_doc (next : Z) (indexedDocs : list Z) : bool :=
  match indexedDocs with
  | [] => false
  | docIndex :: rest => if docIndex =? next then true else has_doc next rest
  end.

(** index_memory_index.go:50-58: one iteration of [tokenLoop]. A missing key
    reads as the nil slice. *)
Definition put_token (next : Z) (inv : gmap string (list Z)) (tok : string)
  : gmap string (list Z) :=
  let indexedDocs := default [] (inv !! tok) in
  if has_doc next indexedDocs then inv
  else <[tok := indexedDocs ++ [next]]> inv.

(** index_memory_index.go:44-60 *)
Definition Put (mi : MemoryIndex) (payload : DocRequest) : MemoryIndex :=
  let tokens := mi_tokenizer mi (req_Statement payload) in
  let next := Z.of_nat (length (mi_Docs mi)) in
  let newDoc := NewDoc (req_ID payload) (req_Raw payload) in
  {| mi_name := mi_name mi;
     mi_tokenizer := mi_tokenizer mi;
     mi_Docs := mi_Docs mi ++ [newDoc];
     mi_Inverted := fold_left (put_token next) tokens (mi_Inverted mi) |}.

(** The [Indexer] view of a memory index (search_search.go:15-19 implemented
    by index_memory_index.go:20-31). *)
Definition indexer_of (copy_keeps_nil : bool) (mi : MemoryIndex) : Indexer :=
  {| ix_Len := Len mi;
     ix_Indexed := Indexed copy_keeps_nil mi;
     ix_Document := Document mi |}.

(** index_memory_index.go:62-64 *)
Definition mi_Search (copy_keeps_nil : bool) (mi : MemoryIndex) (payload : string)
  (engine : Engine) : outcome (list SearchResult) :=
  engine (mi_tokenizer mi payload) (indexer_of copy_keeps_nil mi).

(** index_memory_index.go:66-73 *)
Definition NewMemoryIndex (name : string) (tkr : Tokenizer) : MemoryIndex :=
  {| mi_name := name; mi_tokenizer := tkr; mi_Docs := []; mi_Inverted := ∅ |}.

(** index_index.go:14 and index_memory_index.go:75-79 *)
Definition Builder := string -> MemoryIndex.
Definition NewMemoryIndexBuilder (tokenizer : Tokenizer) : Builder :=
  fun name => NewMemoryIndex name tokenizer.

(** search_noop_search.go:6-8 *)
Definition NoopZeroSearch : Engine := fun _ _ => Ok [].

(** Loop counter values of [for i := 0; i < n; i++]. *)
Definition upto (n : Z) : list Z := map Z.of_nat (seq 0 (Z.to_nat n)).

(** search_noop_search.go:11-21 *)
Definition NoopAllSearch : Engine := fun _ indexable =>
  ofold (fun results i =>
           obind (ix_Document indexable i) (fun doc =>
           Ok (results ++ [MkSR doc 0])))
        [] (upto (ix_Len indexable)).

(** search_linear_search.go:12-31.  The two-pointer loop, on the state (i, j,
    r); every slice access carries its bounds check.  [fuel] bounds the number
    of iterations; running out of fuel is reported as a panic, and is proved
    unreachable for the fuel used by [go_intersection]. *)
Fixpoint intersection_loop (fuel : nat) (a b : list Z) (i j : Z) (r : list Z)
  : outcome (list Z) :=
  if (i <? Z.of_nat (length a)) && (j <? Z.of_nat (length b)) then
    match fuel with
    | O => Panic
    | S fuel' =>
        obind (slice_get a i) (fun ai =>
        obind (slice_get b j) (fun bj =>
        if ai <? bj then intersection_loop fuel' a b (i + 1) j r
        else if ai >? bj then intersection_loop fuel' a b i (j + 1) r
        else intersection_loop fuel' a b (i + 1) (j + 1) (r ++ [ai])))
    end
  else Ok r.

(** search_linear_search.go:12-31 ([maxLen] is only a capacity hint). *)
Definition go_intersection (a b : list Z) : outcome (list Z) :=
  intersection_loop (length a + length b) a b 0 0 [].

(** search_linear_search.go:69-79: the loop over tokens[1:]; [None] is the
    early [return nil]. *)
Fixpoint linear_loop (indexable : Indexer) (docs : list Z) (tokens : list string)
  : outcome (option (list Z)) :=
  match tokens with
  | [] => Ok (Some docs)
  | tok :: rest =>
      match ix_Indexed indexable tok with
      | None => Ok None
      | Some nextDocs =>
          obind (go_intersection docs nextDocs) (fun docs' =>
          if (length docs' =? 0)%nat then Ok None
          else linear_loop indexable docs' rest)
      end
  end.

(** search_linear_search.go:58-92 *)
Definition LinearSearch : Engine := fun tokens indexable =>
  match tokens with
  | [] => Ok []
  | tok0 :: rest =>
      match ix_Indexed indexable tok0 with
      | None => Ok []
      | Some docs0 =>
          obind (linear_loop indexable docs0 rest) (fun od =>
          match od with
          | None => Ok []
          | Some docs =>
              ofold (fun results docIndex =>
                       obind (ix_Document indexable docIndex) (fun doc =>
                       Ok (results ++ [MkSR doc (Z.of_nat (length tokens))])))
                    [] docs
          end)
      end
  end.

(** search_hits_search.go:60-75: one iteration of the inner loop of phase 1. *)
Definition hit_doc (indexer : Indexer) (docHits : gmap N SearchResult) (index : Z)
  : outcome (gmap N SearchResult) :=
  obind (ix_Document indexer index) (fun doc =>
  let hashKey := Hash doc in
  match docHits !! hashKey with
  | Some result => Ok (<[hashKey := MkSR (sr_Document result) (sr_Hits result + 1)]> docHits)
  | None => Ok (<[hashKey := MkSR doc 1]> docHits)
  end).

(** search_hits_search.go:52-76: one iteration of the outer loop of phase 1. *)
Definition hit_token (indexer : Indexer) (docHits : gmap N SearchResult) (token : string)
  : outcome (gmap N SearchResult) :=
  match ix_Indexed indexer token with
  | None => Ok docHits
  | Some indexed => ofold (hit_doc indexer) docHits indexed
  end.

(** search_hits_search.go:83-91: one iteration of phase 2. *)
Definition hit_filter (indexer : Indexer) (threshold : Z) (docHits : gmap N SearchResult)
  (results : list SearchResult) (i : Z) : outcome (list SearchResult) :=
  obind (ix_Document indexer i) (fun doc =>
  match docHits !! Hash doc with
  | Some result => if sr_Hits result >=? threshold then Ok (results ++ [result]) else Ok results
  | None => Ok results
  end).

(** search_hits_search.go:43-97.  [sort_Sort] is sort.Sort (Go standard library,
    not in the repo) applied to the [SearchResults] slice; theorems assume only
    that it permutes the slice and leaves it ordered by [Less]. *)
Definition HitsSearch (sort_Sort : list SearchResult -> list SearchResult) : Engine :=
  fun tokens indexer =>
  let threshold := Z.of_nat (length tokens) in
  obind (ofold (hit_token indexer) ∅ tokens) (fun docHits =>
  obind (ofold (hit_filter indexer threshold docHits) [] (upto (ix_Len indexer)))
        (fun results =>
  Ok (sort_Sort results))).

(** A concrete sort.Sort: Go's [insertionSort] (sort/zsortinterface.go), which is
    what sort.Sort runs on slices of at most 12 elements.  Used to show that the
    sorting contract can be met and to compute examples. *)
Fixpoint sift_down (x : SearchResult) (sorted_rev : list SearchResult) : list SearchResult :=
  match sorted_rev with
  | [] => [x]
  | y :: rest => if Less x y then y :: sift_down x rest else x :: y :: rest
  end.
Definition insertion_sort (l : list SearchResult) : list SearchResult :=
  rev (fold_left (fun acc x => sift_down x acc) l []).
