(** * What the engines ask of an Indexer, call by call.
    search_noop_search.go, search_linear_search.go and search_hits_search.go once
    more, as programs that call the methods of the Indexer interface
    (search_search.go:15-19) one at a time; and the inner loop of MemoryIndex.Put
    with its iterations counted.  Search.v has the same functions without the
    calls; Properties_Trace.v shows that the results agree.  No proofs in this
    file. *)
From Verif Require Export Entities Search.
Open Scope Z_scope.

(** A program calling the Indexer.  [ISpin] stands for a loop cut off after the
    given number of iterations (it is proved not to occur if the number is large
    enough). *)
Inductive iprog :=
| IRet (l : list SearchResult)
| ISpin
| ILen (k : Z -> iprog)
| IIndexed (key : string) (k : option (list Z) -> iprog)
| IDocument (index : Z) (k : Doc -> iprog).

Inductive event := EvLen | EvIndexed (key : string) | EvDocument (index : Z).

(** The calls made, in order, and the result; a panic of Document ends the run. *)
Fixpoint irun (ix : Indexer) (p : iprog) : list event * option (outcome (list SearchResult)) :=
  match p with
  | IRet l => ([], Some (Ok l))
  | ISpin => ([], None)
  | ILen k => let r := irun ix (k (ix_Len ix)) in (EvLen :: r.1, r.2)
  | IIndexed t k => let r := irun ix (k (ix_Indexed ix t)) in (EvIndexed t :: r.1, r.2)
  | IDocument i k =>
      match ix_Document ix i with
      | Ok d => let r := irun ix (k d) in (EvDocument i :: r.1, r.2)
      | Panic => ([EvDocument i], Some Panic)
      end
  end.

(** [for i := from; i < indexer.Len(); i++ { doc := indexer.Document(i); ... }]:
    the loop of search_noop_search.go:13-19 and of search_hits_search.go:83-91.
    Len is called before every iteration. *)
Fixpoint scan (fuel : nat) (i : Z) (body : list SearchResult -> Doc -> list SearchResult)
  (acc : list SearchResult) (k : list SearchResult -> iprog) : iprog :=
  ILen (fun n =>
    if i <? n then
      match fuel with
      | O => ISpin
      | S fuel => IDocument i (fun doc => scan fuel (i + 1) body (body acc doc) k)
      end
    else k acc).

(** search_noop_search.go:6-8 and 11-21 *)
Definition NoopZero_i (tokens : list string) : iprog := IRet [].
Definition NoopAll_i (fuel : nat) (tokens : list string) : iprog :=
  scan fuel 0 (fun results doc => results ++ [MkSR doc 0]) [] IRet.

(** search_linear_search.go:82-89: the documents of the positions found. *)
Fixpoint fetch (js : list Z) (n : Z) (acc : list SearchResult) : iprog :=
  match js with
  | [] => IRet acc
  | j :: js => IDocument j (fun doc => fetch js n (acc ++ [MkSR doc n]))
  end.

(** search_linear_search.go:69-79 *)
Fixpoint narrow (docs : list Z) (tokens : list string) (k : list Z -> iprog) : iprog :=
  match tokens with
  | [] => k docs
  | tok :: rest =>
      IIndexed tok (fun o =>
        match o with
        | None => IRet []
        | Some nextDocs =>
            match go_intersection docs nextDocs with
            | Ok docs' => if (length docs' =? 0)%nat then IRet [] else narrow docs' rest k
            | Panic => ISpin
            end
        end)
  end.

(** search_linear_search.go:58-92 *)
Definition Linear_i (tokens : list string) : iprog :=
  match tokens with
  | [] => IRet []
  | tok0 :: rest =>
      IIndexed tok0 (fun o =>
        match o with
        | None => IRet []
        | Some docs0 => narrow docs0 rest (fun docs => fetch docs (Z.of_nat (length tokens)) [])
        end)
  end.

(** search_hits_search.go:60-75, given the document. *)
Definition hit (docHits : gmap N SearchResult) (doc : Doc) : gmap N SearchResult :=
  match docHits !! Hash doc with
  | Some result => <[Hash doc := MkSR (sr_Document result) (sr_Hits result + 1)]> docHits
  | None => <[Hash doc := MkSR doc 1]> docHits
  end.

Fixpoint hit_list (indexed : list Z) (docHits : gmap N SearchResult) (k : gmap N SearchResult -> iprog) : iprog :=
  match indexed with
  | [] => k docHits
  | index :: rest => IDocument index (fun doc => hit_list rest (hit docHits doc) k)
  end.

(** search_hits_search.go:52-76 *)
Fixpoint hit_tokens (tokens : list string) (docHits : gmap N SearchResult) (k : gmap N SearchResult -> iprog) : iprog :=
  match tokens with
  | [] => k docHits
  | token :: rest =>
      IIndexed token (fun o =>
        match o with
        | None => hit_tokens rest docHits k
        | Some indexed => hit_list indexed docHits (fun docHits => hit_tokens rest docHits k)
        end)
  end.

(** search_hits_search.go:43-97 *)
Definition Hits_i (sort_Sort : list SearchResult -> list SearchResult) (fuel : nat) (tokens : list string) : iprog :=
  hit_tokens tokens ∅ (fun docHits =>
    scan fuel 0 (fun results doc =>
        match docHits !! Hash doc with
        | Some result => if sr_Hits result >=? Z.of_nat (length tokens) then results ++ [result] else results
        | None => results
        end) [] (fun results => IRet (sort_Sort results))).

(** index_memory_index.go:52-56: the same loop as [has_doc], with the number of
    iterations it makes. *)
Fixpoint has_doc_n (next : Z) (indexedDocs : list Z) : bool * nat :=
  match indexedDocs with
  | [] => (false, 0%nat)
  | docIndex :: rest => if docIndex =? next then (true, 1%nat) else let r := has_doc_n next rest in (r.1, S r.2)
  end.

(** index_memory_index.go:50-58 *)
Definition put_token_n (next : Z) (st : gmap string (list Z) * nat) (tok : string) : gmap string (list Z) * nat :=
  let indexedDocs := default [] (st.1 !! tok) in
  let (found, n) := has_doc_n next indexedDocs in
  (if found then st.1 else <[tok := indexedDocs ++ [next]]> st.1, (st.2 + n)%nat).

(** index_memory_index.go:44-60: iterations of the inner loop in one Put. *)
Definition put_work (mi : MemoryIndex) (payload : DocRequest) : nat :=
  (fold_left (put_token_n (Z.of_nat (length (mi_Docs mi)))) (mi_tokenizer mi (req_Statement payload))
     (mi_Inverted mi, 0%nat)).2.

(** In a sequence of Puts. *)
Fixpoint puts_work (mi : MemoryIndex) (payloads : list DocRequest) : nat :=
  match payloads with [] => 0 | r :: rest => put_work mi r + puts_work (Put mi r) rest end%nat.

(** search_linear_search.go:19-29: the same loop as [intersection_loop], with the
    number of iterations it makes. *)
Fixpoint intersection_loop_n (fuel : nat) (a b : list Z) (i j : Z) (r : list Z) (n : nat)
  : outcome (list Z * nat) :=
  if (i <? Z.of_nat (length a)) && (j <? Z.of_nat (length b)) then
    match fuel with
    | O => Panic
    | S fuel' =>
        obind (slice_get a i) (fun ai =>
        obind (slice_get b j) (fun bj =>
        if ai <? bj then intersection_loop_n fuel' a b (i + 1) j r (S n)
        else if ai >? bj then intersection_loop_n fuel' a b i (j + 1) r (S n)
        else intersection_loop_n fuel' a b (i + 1) (j + 1) (r ++ [ai]) (S n)))
    end
  else Ok (r, n).
Definition intersection_n (a b : list Z) : outcome (list Z * nat) :=
  intersection_loop_n (length a + length b) a b 0 0 [] 0.

(** search_linear_search.go:13-17: the capacity the result is made with. *)
Definition intersection_cap (a b : list Z) : Z :=
  let maxLen := Z.of_nat (length a) in
  if Z.of_nat (length b) >? maxLen then Z.of_nat (length b) else maxLen.

(** search_linear_search.go:69-79: the arguments of the calls of intersection. *)
Fixpoint linear_pairs (indexable : Indexer) (docs : list Z) (tokens : list string) : list (list Z * list Z) :=
  match tokens with
  | [] => []
  | tok :: rest =>
      match ix_Indexed indexable tok with
      | None => []
      | Some nextDocs =>
          (docs, nextDocs) ::
          match go_intersection docs nextDocs with
          | Ok docs' => if (length docs' =? 0)%nat then [] else linear_pairs indexable docs' rest
          | Panic => []
          end
      end
  end.

(** search_linear_search.go:58-79 *)
Definition intersections (indexable : Indexer) (tokens : list string) : list (list Z * list Z) :=
  match tokens with
  | [] => []
  | tok0 :: rest =>
      match ix_Indexed indexable tok0 with
      | None => []
      | Some docs0 => linear_pairs indexable docs0 rest
      end
  end.
