(** * Model of stemmer_spanish_snowball.go.  No proofs in this file. *)
From Verif Require Export Entities Utf8.
Open Scope N_scope.

(** stemmer_spanish_snowball.go:3-15: a e i o u á é í ó ú ü *)
Definition vowels : list N := [97; 101; 105; 111; 117; 0xE1; 0xE9; 0xED; 0xF3; 0xFA; 0xFC].

(** stemmer_spanish_snowball.go:17-20 *)
Definition isVowel (r : N) : bool := bool_decide (r ∈ vowels).

(** stemmer_spanish_snowball.go:27-31: [runeSlot]; the value itself is only used
    through [IsVowel]. *)
Record runeSlot := MkSlot { slot_Index : nat; slot_Value : N; slot_IsVowel : bool }.

(** stemmer_spanish_snowball.go:33-35 *)
Definition rune_slots (w : bytes) : list runeSlot :=
  map (fun '(index, r) => MkSlot index r (isVowel r)) (go_range w).

(** stemmer_spanish_snowball.go:38-51 (R1, over the slots of [w]) and 58-71 (R2,
    over the runes of [r1]): both loops have the same body.  [None] is nil. *)
Fixpoint r_loop (w : bytes) (slots : list runeSlot) (foundVowel foundNonVowel : bool)
  : option bytes :=
  match slots with
  | [] => None
  | slot :: rest =>
      if foundNonVowel then Some (slice_from w (slot_Index slot))
      else
        let foundNonVowel' := if foundVowel then (if negb (slot_IsVowel slot) then true else foundNonVowel)
                              else foundNonVowel in
        let foundVowel' := if slot_IsVowel slot then true else foundVowel in
        r_loop w rest foundVowel' foundNonVowel'
  end.

(** stemmer_spanish_snowball.go:81-91: [rv] once a non-vowel has been passed. *)
Fixpoint rv_after_nonvowel (w : bytes) (slots : list runeSlot) (foundNonVowel : bool) : option bytes :=
  match slots with
  | [] => None
  | run :: rest =>
      if foundNonVowel then Some (slice_from w (slot_Index run))
      else rv_after_nonvowel w rest (if negb (slot_IsVowel run) then true else foundNonVowel)
  end.

(** stemmer_spanish_snowball.go:95-105: [rv] once a vowel has been passed. *)
Fixpoint rv_after_vowel (w : bytes) (slots : list runeSlot) (foundVowel : bool) : option bytes :=
  match slots with
  | [] => None
  | run :: rest =>
      if foundVowel then Some (slice_from w (slot_Index run))
      else rv_after_vowel w rest (if slot_IsVowel run then true else foundVowel)
  end.

(** stemmer_spanish_snowball.go:72-113 (a [Some] from a loop is the [return]
    inside it). *)
Definition rv_part (w : bytes) (runes : list runeSlot) : outcome (option bytes) :=
  if (length runes <? 3)%nat then Ok None
  else
    match runes !! 0%nat, runes !! 1%nat with
    | Some s0, Some s1 =>
        match (if slot_IsVowel s0 && slot_IsVowel s1
               then rv_after_nonvowel w (drop 2 runes) false else None) with
        | Some rv => Ok (Some rv)
        | None =>
            match (if negb (slot_IsVowel s1)
                   then rv_after_vowel w (drop 2 runes) false else None) with
            | Some rv => Ok (Some rv)
            | None =>
                if (3 <? length runes)%nat && negb (slot_IsVowel s0) && slot_IsVowel s1
                then match runes !! 3%nat with
                     | Some s3 => Ok (Some (slice_from w (slot_Index s3)))
                     | None => Panic
                     end
                else Ok None
            end
        end
    | _, _ => Panic
    end.

(** stemmer_spanish_snowball.go:23-114; the result is (r1, r2, rv). *)
Definition R1R2RV (w : bytes) : outcome (option bytes * option bytes * option bytes) :=
  let runes := rune_slots w in
  match r_loop w runes false false with
  | None => Ok (None, None, None)
  | Some r1 =>
      let r2 := r_loop r1 (rune_slots r1) false false in
      obind (rv_part w runes) (fun rv => Ok (Some r1, r2, rv))
  end.

(** stemmer_spanish_snowball.go:116-124 *)
Definition Stem (w : bytes) : option bytes := None.
