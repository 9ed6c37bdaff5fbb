(** * JSON texts (RFC 8259) and what they mean, independently of any reader or
    writer: an inductive grammar over byte strings. *)
From Verif Require Import Entities Utf8 SpecUtf8.
Open Scope N_scope.

(** A JSON value.  Of a number only the integer it denotes is kept, and only if
    it is written without fraction and exponent. *)
Inductive json :=
| JNull
| JBool (b : bool)
| JNum (z : option Z)
| JStr (s : bytes)
| JArr (l : list json)
| JObj (m : list (bytes * json)).

(** The nesting of arrays and objects. *)
Fixpoint depth (j : json) : nat :=
  match j with
  | JArr l => S (foldr (fun j n => Nat.max (depth j) n) 0%nat l)
  | JObj m => S (foldr (fun '(_, j) n => Nat.max (depth j) n) 0%nat m)
  | _ => 0%nat
  end.

(** ** Strings *)

(** A string literal is a sequence of bytes and [\uXXXX] code units. *)
Inductive piece := PByte (b : ascii) | PUnit (u : N).

(** The two-character escapes, all but [\u]. *)
Definition simple_escapes : list (ascii * N) :=
  [(""""%char, 34); ("\"%char, 92); ("/"%char, 47); ("b"%char, 8); ("f"%char, 12);
   ("n"%char, 10); ("r"%char, 13); ("t"%char, 9)].

Definition hex_digits : list (ascii * N) :=
  [("0"%char, 0); ("1"%char, 1); ("2"%char, 2); ("3"%char, 3); ("4"%char, 4); ("5"%char, 5);
   ("6"%char, 6); ("7"%char, 7); ("8"%char, 8); ("9"%char, 9);
   ("a"%char, 10); ("b"%char, 11); ("c"%char, 12); ("d"%char, 13); ("e"%char, 14); ("f"%char, 15);
   ("A"%char, 10); ("B"%char, 11); ("C"%char, 12); ("D"%char, 13); ("E"%char, 14); ("F"%char, 15)].

Inductive piece_text : piece -> bytes -> Prop :=
| text_raw b : 0x20 <= bN b -> b <> """"%char -> b <> "\"%char -> piece_text (PByte b) [b]
| text_escape e n : (e, n) ∈ simple_escapes -> piece_text (PByte (Nb n)) ["\"%char; e]
| text_unit a1 a2 a3 a4 v1 v2 v3 v4 :
    (a1, v1) ∈ hex_digits -> (a2, v2) ∈ hex_digits ->
    (a3, v3) ∈ hex_digits -> (a4, v4) ∈ hex_digits ->
    piece_text (PUnit (v1 * 4096 + v2 * 256 + v3 * 16 + v4)) ["\"%char; "u"%char; a1; a2; a3; a4].

Inductive pieces_text : list piece -> bytes -> Prop :=
| pieces_nil : pieces_text [] []
| pieces_cons p t ps ts : piece_text p t -> pieces_text ps ts -> pieces_text (p :: ps) (t ++ ts).

Definition high (u : N) : Prop := 0xD800 <= u < 0xDC00.
Definition low (u : N) : Prop := 0xDC00 <= u < 0xE000.
Global Instance high_dec u : Decision (high u). Proof. unfold high; apply _. Defined.
Global Instance low_dec u : Decision (low u). Proof. unfold low; apply _. Defined.

(** UTF-16 surrogate pairs denote one character; a lone surrogate stands for
    U+FFFD. *)
Fixpoint pieces_val (ps : list piece) : bytes :=
  match ps with
  | [] => []
  | PByte b :: ps' => b :: pieces_val ps'
  | PUnit u :: ps' =>
      if decide (high u) then
        match ps' with
        | PUnit v :: ps'' =>
            if decide (low v)
            then utf8 (0x10000 + (u - 0xD800) * 1024 + (v - 0xDC00)) ++ pieces_val ps''
            else utf8 0xFFFD ++ pieces_val ps'
        | _ => utf8 0xFFFD ++ pieces_val ps'
        end
      else if decide (low u) then utf8 0xFFFD ++ pieces_val ps'
      else utf8 u ++ pieces_val ps'
  end.

Inductive string_text : bytes -> bytes -> Prop :=
| string_quoted ps t : pieces_text ps t -> string_text (pieces_val ps) ([""""%char] ++ t ++ [""""%char]).

(** ** Numbers *)

Definition digit (c : ascii) : Prop := 48 <= bN c <= 57.

Definition decimal (ds : bytes) : N := fold_left (fun a c => 10 * a + (bN c - 48)) ds 0.

(** No leading zero, except for 0 itself. *)
Inductive nat_text : N -> bytes -> Prop :=
| nat_zero : nat_text 0 ["0"%char]
| nat_digits c ds : digit c -> c <> "0"%char -> Forall digit ds -> nat_text (decimal (c :: ds)) (c :: ds).

Inductive int_text : Z -> bytes -> Prop :=
| int_pos n t : nat_text n t -> int_text (Z.of_N n) t
| int_neg n t : nat_text n t -> int_text (- Z.of_N n) ("-"%char :: t).

Definition digits1 (ds : bytes) : Prop := ds <> [] /\ Forall digit ds.
Definition frac_text (t : bytes) : Prop := exists ds, digits1 ds /\ t = "."%char :: ds.
Definition exp_text (t : bytes) : Prop :=
  exists e sign ds, e ∈ ["e"; "E"]%char /\ sign ∈ [[]; ["+"]; ["-"]]%char /\ digits1 ds /\ t = e :: sign ++ ds.

(** ** Values *)

Definition space (c : ascii) : Prop := c ∈ [" "; "009"; "010"; "013"]%char.
Definition spaces (w : bytes) : Prop := Forall space w.

Inductive value : json -> bytes -> Prop :=
| v_null : value JNull ["n"; "u"; "l"; "l"]%char
| v_true : value (JBool true) ["t"; "r"; "u"; "e"]%char
| v_false : value (JBool false) ["f"; "a"; "l"; "s"; "e"]%char
| v_int z t : int_text z t -> value (JNum (Some z)) t
| v_frac z t f : int_text z t -> frac_text f -> value (JNum None) (t ++ f)
| v_exp z t e : int_text z t -> exp_text e -> value (JNum None) (t ++ e)
| v_frac_exp z t f e : int_text z t -> frac_text f -> exp_text e -> value (JNum None) (t ++ f ++ e)
| v_string s t : string_text s t -> value (JStr s) t
| v_array_empty w : spaces w -> value (JArr []) (["["%char] ++ w ++ ["]"%char])
| v_array l t : elements l t -> value (JArr l) (["["%char] ++ t ++ ["]"%char])
| v_object_empty w : spaces w -> value (JObj []) (["{"%char] ++ w ++ ["}"%char])
| v_object m t : members m t -> value (JObj m) (["{"%char] ++ t ++ ["}"%char])
with elements : list json -> bytes -> Prop :=
| e_one w1 j t w2 :
    spaces w1 -> value j t -> spaces w2 -> elements [j] (w1 ++ t ++ w2)
| e_more w1 j t w2 l ts :
    spaces w1 -> value j t -> spaces w2 -> elements l ts ->
    elements (j :: l) (w1 ++ t ++ w2 ++ [","%char] ++ ts)
with members : list (bytes * json) -> bytes -> Prop :=
| m_one w1 k kt w2 w3 j t w4 :
    spaces w1 -> string_text k kt -> spaces w2 -> spaces w3 -> value j t -> spaces w4 ->
    members [(k, j)] (w1 ++ kt ++ w2 ++ [":"%char] ++ w3 ++ t ++ w4)
| m_more w1 k kt w2 w3 j t w4 m ts :
    spaces w1 -> string_text k kt -> spaces w2 -> spaces w3 -> value j t -> spaces w4 ->
    members m ts ->
    members ((k, j) :: m) (w1 ++ kt ++ w2 ++ [":"%char] ++ w3 ++ t ++ w4 ++ [","%char] ++ ts).

Scheme value_mind := Minimality for value Sort Prop
  with elements_mind := Minimality for elements Sort Prop
  with members_mind := Minimality for members Sort Prop.

(** A JSON text: a value with optional white space around it. *)
Inductive json_text : json -> bytes -> Prop :=
| json_value w1 j t w2 : spaces w1 -> value j t -> spaces w2 -> json_text j (w1 ++ t ++ w2).

(** ** Decoding into Go values *)

(** What a member called [name] supplies: nothing if it has another name or is
    null. *)
Definition supplied (name : bytes) (m : list (bytes * json)) : list json :=
  omap (fun '(k, j) => if decide (k = name) then match j with JNull => None | _ => Some j end else None) m.

Definition as_string (j : json) : option string :=
  match j with JStr s => Some (str_bytes s) | _ => None end.
Definition as_int64 (j : json) : option Z :=
  match j with
  | JNum (Some z) => if decide (- 2 ^ 63 <= z < 2 ^ 63)%Z then Some z else None
  | _ => None
  end.
Definition as_object (j : json) : option (list (bytes * json)) :=
  match j with JObj m => Some m | _ => None end.

(** All the values supplied for a field must have its type; the last one wins,
    and a field that is not supplied keeps its value. *)
Definition field {A} (as_type : json -> option A) (name : bytes) (m : list (bytes * json)) (old : A) : option A :=
  vs ← mapM as_type (supplied name m); Some (default old (last vs)).

Definition doc_value (m : list (bytes * json)) (old : Doc) : option Doc :=
  id ← field as_string (bytes_str "id") m (doc_Name old);
  raw ← field as_string (bytes_str "raw") m (doc_Content old);
  Some (MkDoc id raw).

(** An object given for a field of struct type updates the struct: it does not
    reset the fields it leaves out, whether it is repeated or not. *)
Definition result_value (m : list (bytes * json)) (old : SearchResult) : option SearchResult :=
  docs ← mapM as_object (supplied (bytes_str "doc") m);
  doc ← foldl (fun d m => d ≫= doc_value m) (Some (sr_Document old)) docs;
  hits ← field as_int64 (bytes_str "hits") m (sr_Hits old);
  Some (MkSR doc hits).

Definition decoded (j : json) (old : SearchResult) : option SearchResult :=
  match j with
  | JNull => Some old
  | JObj m => result_value m old
  | _ => None
  end.
