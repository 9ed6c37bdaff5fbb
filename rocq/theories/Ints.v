(** * Model: the search engines with integers of the machine.
    Search.v computes with unbounded integers.  Here an [int] has [w] bits (32 or 64,
    https://go.dev/ref/spec#Numeric_types) and wraps around; the only arithmetic in the
    index and the engines are the increments below.  [len] is no arithmetic: a slice
    never has more elements than an [int] can count.  Put computes nothing but
    [len(mi.Docs)] (index_memory_index.go:47).  No proofs in this file. *)
From Verif Require Export Entities Search.

(** https://go.dev/ref/spec#Integer_overflow: two's complement. *)
Definition wrap (w z : Z) : Z := (z + 2 ^ (w - 1)) mod 2 ^ w - 2 ^ (w - 1).

Section Ints.
Context (w : Z).

(** The values of [i] in [for i := ...; i < n; i++] from [i] on; running out of fuel
    is a panic. *)
Fixpoint counter (fuel : nat) (i n : Z) : outcome (list Z) :=
  if i <? n then
    match fuel with
    | O => Panic
    | S fuel' => obind (counter fuel' (wrap w (i + 1)) n) (fun l => Ok (i :: l))
    end
  else Ok [].
Definition upto_w (n : Z) : outcome (list Z) := counter (Z.to_nat n) 0 n.

(** search_noop_search.go:11-21 *)
Definition NoopAllSearch_w : Engine := fun _ indexable =>
  obind (upto_w (ix_Len indexable)) (ofold (fun results i =>
    obind (ix_Document indexable i) (fun doc => Ok (results ++ [MkSR doc 0]))) []).

(** search_linear_search.go:12-31 *)
Fixpoint intersection_loop_w (fuel : nat) (a b : list Z) (i j : Z) (r : list Z) : outcome (list Z) :=
  if (i <? Z.of_nat (length a)) && (j <? Z.of_nat (length b)) then
    match fuel with
    | O => Panic
    | S fuel' =>
        obind (slice_get a i) (fun ai =>
        obind (slice_get b j) (fun bj =>
        if ai <? bj then intersection_loop_w fuel' a b (wrap w (i + 1)) j r
        else if ai >? bj then intersection_loop_w fuel' a b i (wrap w (j + 1)) r
        else intersection_loop_w fuel' a b (wrap w (i + 1)) (wrap w (j + 1)) (r ++ [ai])))
    end
  else Ok r.
Definition go_intersection_w (a b : list Z) : outcome (list Z) :=
  intersection_loop_w (length a + length b) a b 0 0 [].

(** search_linear_search.go:69-79: the body of the loop, for the token at position [i];
    [None] is the early [return nil]. *)
Definition linear_body_w (indexable : Indexer) (tokens : list string) (docs : option (list Z)) (i : Z)
  : outcome (option (list Z)) :=
  match docs with
  | None => Ok None
  | Some docs =>
      obind (slice_get tokens i) (fun tok =>
      match ix_Indexed indexable tok with
      | None => Ok None
      | Some nextDocs =>
          obind (go_intersection_w docs nextDocs) (fun docs' =>
          if (length docs' =? 0)%nat then Ok None else Ok (Some docs'))
      end)
  end.

(** search_linear_search.go:58-92 *)
Definition LinearSearch_w : Engine := fun tokens indexable =>
  match tokens with
  | [] => Ok []
  | tok0 :: _ =>
      match ix_Indexed indexable tok0 with
      | None => Ok []
      | Some docs0 =>
          obind (counter (length tokens) 1 (Z.of_nat (length tokens))) (fun l =>
          obind (ofold (linear_body_w indexable tokens) (Some docs0) l) (fun od =>
          match od with
          | None => Ok []
          | Some docs =>
              ofold (fun results docIndex =>
                       obind (ix_Document indexable docIndex) (fun doc =>
                       Ok (results ++ [MkSR doc (Z.of_nat (length tokens))])))
                    [] docs
          end))
      end
  end.

(** search_hits_search.go:60-75 *)
Definition hit_doc_w (indexer : Indexer) (docHits : gmap N SearchResult) (index : Z)
  : outcome (gmap N SearchResult) :=
  obind (ix_Document indexer index) (fun doc =>
  let hashKey := Hash doc in
  match docHits !! hashKey with
  | Some result => Ok (<[hashKey := MkSR (sr_Document result) (wrap w (sr_Hits result + 1))]> docHits)
  | None => Ok (<[hashKey := MkSR doc 1]> docHits)
  end).

(** search_hits_search.go:52-76 *)
Definition hit_token_w (indexer : Indexer) (docHits : gmap N SearchResult) (token : string)
  : outcome (gmap N SearchResult) :=
  match ix_Indexed indexer token with
  | None => Ok docHits
  | Some indexed => ofold (hit_doc_w indexer) docHits indexed
  end.

(** search_hits_search.go:43-97 *)
Definition HitsSearch_w (sort_Sort : list SearchResult -> list SearchResult) : Engine :=
  fun tokens indexer =>
  let threshold := Z.of_nat (length tokens) in
  obind (ofold (hit_token_w indexer) ∅ tokens) (fun docHits =>
  obind (upto_w (ix_Len indexer)) (fun l =>
  obind (ofold (hit_filter indexer threshold docHits) [] l) (fun results =>
  Ok (sort_Sort results)))).
End Ints.
