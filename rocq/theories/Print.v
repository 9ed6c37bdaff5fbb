(** * Model of MemoryIndex.String (index_memory_index.go:33-42), with the verbs
    of fmt it uses.  No proofs in this file. *)
From Verif Require Export Entities Search Json.
Open Scope string_scope.

Definition newline : string := String (ascii_of_N 10) "".
Definition tab : string := String (ascii_of_N 9) "".

(** fmt: [%d] of an int *)
Definition fmt_d (n : Z) : string := str_bytes (AppendInt n).

(** fmt: [%v] of a []int: the elements between brackets, separated by blanks *)
Fixpoint fmt_v_loop (l : list Z) : string :=
  match l with
  | [] => ""
  | z :: rest => " " ++ fmt_d z ++ fmt_v_loop rest
  end.
Definition fmt_v (l : list Z) : string :=
  match l with
  | [] => "[]"
  | z :: rest => "[" ++ fmt_d z ++ fmt_v_loop rest ++ "]"
  end.

(** index_memory_index.go:37-39: one iteration *)
Definition write_token (buf : string) (entry : string * list Z) : string :=
  let '(token, indexed) := entry in
  buf ++ newline ++ tab ++ "[token=" ++ token ++ ",length=(" ++ fmt_d (Z.of_nat (length indexed)) ++ ")]="
      ++ fmt_v indexed.

(** index_memory_index.go:33-42.  [range] is the order in which the map is
    walked, in this call. *)
Definition mi_String (range : gmap string (list Z) -> list (string * list Z)) (mi : MemoryIndex) : string :=
  let buf := "{" ++ newline in
  let buf := buf ++ tab ++ "name=" ++ mi_name mi in
  let buf := fold_left write_token (range (mi_Inverted mi)) buf in
  buf ++ newline ++ "}".
