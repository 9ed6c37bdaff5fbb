(** * Specification vocabulary for the index and the search engines.
    Independent of the model's loops: everything is said about the list of
    requests that were put, in order. *)
From Verif Require Import Entities Search.

(** The index obtained by a history of Puts. *)
Definition index_after (name : string) (tk : Tokenizer) (reqs : list DocRequest) : MemoryIndex :=
  fold_left Put reqs (NewMemoryIndex name tk).

(** Does the indexed statement of request [r] contain token [t]? *)
Definition contains (tk : Tokenizer) (r : DocRequest) (t : string) : bool :=
  bool_decide (t ∈ tk (req_statement r)).

(** Does it contain every token of [ts]? *)
Definition contains_all (tk : Tokenizer) (ts : list string) (r : DocRequest) : bool :=
  forallb (contains tk r) ts.

(** What a caller gets to see of a request. *)
Definition doc_of (r : DocRequest) : Doc := MkDoc (req_Name r) (req_Content r).

(** AND search: nothing for an empty token list, otherwise the matching
    documents in insertion order, each with Hits = number of query tokens. *)
Definition and_search (tk : Tokenizer) (reqs : list DocRequest) (ts : list string)
  : list SearchResult :=
  match ts with
  | [] => []
  | _ => map (fun r => MkSR (doc_of r) (Z.of_nat (length ts)))
             (filter (fun r => contains_all tk ts r = true) reqs)
  end.

(** Bytewise order on IDs, stated through the first difference. *)
Definition id_lt (a b : string) : Prop :=
  let la := bytes_of a in let lb := bytes_of b in
  exists p, (exists x s y t, la = p ++ x :: s /\ lb = p ++ y :: t /\ (x < y)%N)
            \/ (exists y t, la = p /\ lb = p ++ y :: t).

Definition id_le (a b : string) : Prop := a = b \/ id_lt a b.

(** The contract of sort.Sort for the ranking order "more hits first, then
    smaller ID": the output is a permutation of the input in which no later
    element is Less than an earlier one. *)
Definition sort_contract (srt : list SearchResult -> list SearchResult) : Prop :=
  forall l, srt l ≡ₚ l /\
    forall i j x y, (i < j)%nat -> srt l !! i = Some x -> srt l !! j = Some y ->
                    Less y x = false.

(** Hash group arithmetic, for the exact behaviour of HitsSearch: how many
    (query-token occurrence, document) pairs fall in the hash group [key]. *)
Definition in_group (key : N) (r : DocRequest) : bool := (fnv64 (req_Name r) =? key)%N.

Definition group_hits (tk : Tokenizer) (reqs : list DocRequest) (ts : list string) (key : N) : nat :=
  list_sum (map (fun t => length (filter (fun r => in_group key r = true /\ contains tk r t = true) reqs)) ts).

(** The first document of the group met when walking the query tokens in order
    and, for each, the documents in insertion order. *)
Definition group_first (tk : Tokenizer) (reqs : list DocRequest) (ts : list string) (key : N)
  : option DocRequest :=
  head (flat_map (fun t => filter (fun r => in_group key r = true /\ contains tk r t = true) reqs) ts).

Definition hits_row (tk : Tokenizer) (reqs : list DocRequest) (ts : list string) (r : DocRequest)
  : list SearchResult :=
  let key := fnv64 (req_Name r) in
  match group_first tk reqs ts key with
  | Some r0 => if (length ts <=? group_hits tk reqs ts key)%nat
               then [MkSR (doc_of r0) (Z.of_nat (group_hits tk reqs ts key))]
               else []
  | None => []
  end.

(** What HitsSearch reports, before ordering: one row per qualifying position. *)
Definition hits_rows (tk : Tokenizer) (reqs : list DocRequest) (ts : list string)
  : list SearchResult :=
  flat_map (hits_row tk reqs ts) reqs.
