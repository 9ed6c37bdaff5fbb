(** * Specification for C97: what fits into an [int], and the rows of HitsSearch when
    the hits of a group are counted in one.  No proofs in this file. *)
From Verif Require Import Entities Search SpecSearch.

(** A list that Go can hold in a slice, and a number it can hold in an int. *)
Definition fits (w z : Z) : Prop := - 2 ^ (w - 1) <= z < 2 ^ (w - 1).
Definition slice_fits {A} (w : Z) (l : list A) : Prop := fits w (Z.of_nat (length l)).

(** [h] is what an [int] holds after counting up to [n]: the number that fits and differs
    from [n] by a multiple of 2^w. *)
Definition counted (w n h : Z) : Prop := fits w h /\ exists k, h = n + k * 2 ^ w.

(** As [hits_row] of SpecSearch.v, the hits being the number [h] of their group. *)
Definition row_with (tk : Tokenizer) (reqs : list DocRequest) (ts : list string) (h : N -> Z) (r : DocRequest)
  : list SearchResult :=
  let key := fnv64 (req_Name r) in
  match group_first tk reqs ts key with
  | Some r0 => if decide (Z.of_nat (length ts) <= h key) then [MkSR (doc_of r0) (h key)] else []
  | None => []
  end.
