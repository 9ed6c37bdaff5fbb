(** * The byte strings that a reader built on jlexer accepts, as a grammar: JSON with
    a few liberties. *)
From Verif Require Import Entities Utf8 SpecUtf8 SpecJson.
Open Scope N_scope.

(** ** Tokens *)

(** String literals: as in JSON, but control characters may occur unescaped. *)
Inductive loose_piece : piece -> bytes -> Prop :=
| loose_raw b : b <> """"%char -> b <> "\"%char -> loose_piece (PByte b) [b]
| loose_other p t : piece_text p t -> loose_piece p t.

Inductive loose_pieces : list piece -> bytes -> Prop :=
| loose_nil : loose_pieces [] []
| loose_cons p t ps ts : loose_piece p t -> loose_pieces ps ts -> loose_pieces (p :: ps) (t ++ ts).

Inductive loose_string : bytes -> bytes -> Prop :=
| loose_quoted ps t : loose_pieces ps t -> loose_string (pieces_val ps) ([""""%char] ++ t ++ [""""%char]).

(** Strings that nobody looks into: a backslash may be followed by anything. *)
Inductive quoted : bytes -> Prop :=
| quoted_nil : quoted []
| quoted_raw b t : b <> """"%char -> b <> "\"%char -> quoted t -> quoted (b :: t)
| quoted_pair e t : quoted t -> quoted ("\"%char :: e :: t).

(** Numbers: leading zeros are allowed, and the value must be a 64-bit integer. *)
Definition loose_int (z : Z) (t : bytes) : Prop :=
  exists ds, digits1 ds /\
    (t = ds /\ z = Z.of_N (decimal ds) \/ t = "-"%char :: ds /\ z = (- Z.of_N (decimal ds))%Z) /\
    (- 2 ^ 63 <= z < 2 ^ 63)%Z.

(** Numbers that nobody looks into: any of the groups of digits may be empty. *)
Definition loose_number (t : bytes) : Prop :=
  exists c ds f x, (digit c \/ c = "-"%char) /\ Forall digit ds /\
    (f = [] \/ exists fs, Forall digit fs /\ f = "."%char :: fs) /\
    (x = [] \/ exists e sign es, e ∈ ["e"; "E"]%char /\ sign ∈ [[]; ["+"]; ["-"]]%char /\ Forall digit es /\
               x = e :: sign ++ es) /\
    t = c :: ds ++ f ++ x.

Definition null_text : bytes := ["n"; "u"; "l"; "l"]%char.
Definition bool_text (t : bytes) : Prop := t = ["t"; "r"; "u"; "e"]%char \/ t = ["f"; "a"; "l"; "s"; "e"]%char.

(** Values of unknown fields.  Arrays and objects must be JSON and pass [valid]. *)
Inductive ignored (valid : bytes -> bool) : bytes -> Prop :=
| ig_bool t : bool_text t -> ignored valid t
| ig_string t : quoted t -> ignored valid ([""""%char] ++ t ++ [""""%char])
| ig_number t : loose_number t -> ignored valid t
| ig_array l t : value (JArr l) t -> valid t = true -> ignored valid t
| ig_object m t : value (JObj m) t -> valid t = true -> ignored valid t.

(** ** Objects that update a value of type [A] *)
Section objects.
  Context {A : Type}.
  (** what the field of a name makes of the text of its value *)
  Variable reads : bytes -> bytes -> A -> A -> Prop.

  (** null leaves the field alone *)
  Inductive loose_value (k : bytes) : bytes -> A -> A -> Prop :=
  | lv_null a : loose_value k null_text a a
  | lv_field t a a' : reads k t a a' -> loose_value k t a a'.

  Inductive loose_members : bytes -> A -> A -> Prop :=
  | lm_one w1 k kt w2 w3 t w4 a a' :
      spaces w1 -> loose_string k kt -> spaces w2 -> spaces w3 -> loose_value k t a a' -> spaces w4 ->
      loose_members (w1 ++ kt ++ w2 ++ [":"%char] ++ w3 ++ t ++ w4) a a'
  | lm_more w1 k kt w2 w3 t w4 ts a a' a'' :
      spaces w1 -> loose_string k kt -> spaces w2 -> spaces w3 -> loose_value k t a a' -> spaces w4 ->
      loose_members ts a' a'' ->
      loose_members (w1 ++ kt ++ w2 ++ [":"%char] ++ w3 ++ t ++ w4 ++ [","%char] ++ ts) a a''.

  Inductive loose_object : bytes -> A -> A -> Prop :=
  | lo_empty w a : spaces w -> loose_object (["{"%char] ++ w ++ ["}"%char]) a a
  | lo_members t a a' : loose_members t a a' -> loose_object (["{"%char] ++ t ++ ["}"%char]) a a'.
End objects.

(** ** Documents and search results *)
Inductive doc_reads (valid : bytes -> bool) : bytes -> bytes -> Doc -> Doc -> Prop :=
| dr_id s t d : loose_string s t -> doc_reads valid (bytes_str "id") t d (MkDoc (str_bytes s) (doc_Content d))
| dr_raw s t d : loose_string s t -> doc_reads valid (bytes_str "raw") t d (MkDoc (doc_Name d) (str_bytes s))
| dr_other k t d : k <> bytes_str "id" -> k <> bytes_str "raw" -> ignored valid t -> doc_reads valid k t d d.

Inductive result_reads (valid : bytes -> bool) : bytes -> bytes -> SearchResult -> SearchResult -> Prop :=
| rr_doc t v d : loose_object (doc_reads valid) t (sr_Document v) d ->
    result_reads valid (bytes_str "doc") t v (MkSR d (sr_Hits v))
| rr_hits z t v : loose_int z t -> result_reads valid (bytes_str "hits") t v (MkSR (sr_Document v) z)
| rr_other k t v : k <> bytes_str "doc" -> k <> bytes_str "hits" -> ignored valid t -> result_reads valid k t v v.

(** The text [t] turns [v] into [v']. *)
Inductive accepted (valid : bytes -> bool) : bytes -> SearchResult -> SearchResult -> Prop :=
| acc_null w1 w2 v : spaces w1 -> spaces w2 -> accepted valid (w1 ++ null_text ++ w2) v v
| acc_object w1 t w2 v v' :
    spaces w1 -> spaces w2 -> loose_object (result_reads valid) t v v' -> accepted valid (w1 ++ t ++ w2) v v'.
