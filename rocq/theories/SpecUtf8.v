(** * What UTF-8 text is, independently of the decoder: Unicode scalar values,
    their encoding by arithmetic (Unicode standard, table 3-6), and the
    decomposition of an arbitrary byte string into characters. *)
From Verif Require Import Entities Utf8.
Open Scope N_scope.

Definition scalar (r : N) : Prop := r < 0xD800 \/ (0xE000 <= r /\ r <= 0x10FFFF).

Definition utf8 (r : N) : bytes :=
  map Nb
    (if r <? 0x80 then [r]
     else if r <? 0x800 then [192 + r / 64; 128 + r mod 64]
     else if r <? 0x10000 then [224 + r / 4096; 128 + (r / 64) mod 64; 128 + r mod 64]
     else [240 + r / 262144; 128 + (r / 4096) mod 64; 128 + (r / 64) mod 64; 128 + r mod 64]).

(** [chars s l]: the byte string [s] is the sequence of characters [l], each
    with its code point and its bytes; a byte at which no encoded scalar value
    starts stands for U+FFFD. *)
Inductive chars : bytes -> list (N * bytes) -> Prop :=
| chars_nil : chars [] []
| chars_valid r s l :
    scalar r -> chars s l -> chars (utf8 r ++ s) ((r, utf8 r) :: l)
| chars_invalid b s l :
    (forall r, scalar r -> ~ (utf8 r `prefix_of` (b :: s))) ->
    chars s l -> chars (b :: s) ((0xFFFD, [b]) :: l).

(** Cutting a sequence of characters into its maximal runs of kept ones. *)
Inductive runs {A} (keep : A -> Prop) : list A -> list (list A) -> Prop :=
| runs_end sep : Forall (fun x => ~ keep x) sep -> runs keep sep []
| runs_run sep run rest rs :
    Forall (fun x => ~ keep x) sep ->
    run <> [] -> Forall keep run ->
    (forall x, head rest = Some x -> ~ keep x) ->
    runs keep rest rs ->
    runs keep (sep ++ run ++ rest) (run :: rs).

(** The bytes of a run of characters. *)
Definition run_bytes (run : list (N * bytes)) : bytes := concat (map snd run).
