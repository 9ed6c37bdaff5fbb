(** * Model of search_result_easyjson.go, with the parts of
    github.com/mailru/easyjson v0.9.0 (go.mod:7) it calls: jwriter.Writer
    ([RawByte], [RawString], [String], [Int]) and jlexer.Lexer.  easyjson is not
    part of /repo and not available here; its functions are modelled after their
    published source, and that they behave so is an assumption (DESIGN.md).
    [strconv.AppendInt] and [strconv.ParseInt] are those of the standard
    library; [encoding/json.Valid] is an oracle, the parameter [valid].
    No proofs in this file. *)
From Verif Require Export Entities Utf8.
Open Scope N_scope.

Notation "a =c b" := (Ascii.eqb a b) (at level 70, no associativity).

(** ** Writing *)

(** jwriter: [htmlEscapeTable], the characters below [utf8.RuneSelf] that are
    copied ([NoEscapeHTML] is not set by search_result_easyjson.go:73). *)
Definition no_escape (c : N) : bool :=
  negb ((c <? 0x20) || (c =? 34) || (c =? 38) || (c =? 60) || (c =? 62) || (c =? 92)).

(** jwriter: [const chars = "0123456789abcdef"] *)
Definition hex_char (n : N) : ascii := if n <? 10 then Nb (48 + n) else Nb (87 + n).

(** jwriter.Writer.String: the [switch c] for a character that is not copied *)
Definition escape (c : N) : bytes :=
  if c =? 9 then ["\"; "t"]%char
  else if c =? 13 then ["\"; "r"]%char
  else if c =? 10 then ["\"; "n"]%char
  else if c =? 92 then ["\"; "\"]%char
  else if c =? 34 then ["\"; """"]%char
  else (["\"; "u"; "0"; "0"]%char ++ [hex_char (N.shiftr c 4); hex_char (N.land c 0xF)])%list.

(** jwriter.Writer.String: the loop.  [pend] is [s[p:i]], the bytes seen and not
    yet written; [s] is [s[i:]]; [fuel] bounds the number of iterations. *)
Fixpoint write_loop (fuel : nat) (out pend s : bytes) : bytes :=
  match fuel, s with
  | S fuel', c :: t =>
      if bN c <? RuneSelf then
        if no_escape (bN c) then write_loop fuel' out (pend ++ [c]) t
        else write_loop fuel' (out ++ pend ++ escape (bN c)) [] t
      else
        let '(r, w) := DecodeRune s in
        if (r =? RuneError) && (w =? 1)%nat
        then write_loop fuel' (out ++ pend ++ ["\"; "u"; "f"; "f"; "f"; "d"]%char) [] t
        else if (r =? 0x2028) || (r =? 0x2029)
        then write_loop fuel' (out ++ pend ++ ["\"; "u"; "2"; "0"; "2"]%char ++ [hex_char (N.land r 0xF)])
               [] (drop w s)
        else write_loop fuel' out (pend ++ take w s) (drop w s)
  | _, _ => out ++ pend
  end%list.

(** jwriter.Writer.String: what it appends to the buffer *)
Definition w_String (s : bytes) : bytes :=
  (["""" ]%char ++ write_loop (length s) [] [] s ++ [""""]%char)%list.

(** strconv.AppendInt(_, n, 10): digits from the least significant one; 20
    digits are enough for 64 bits. *)
Fixpoint digits_loop (fuel : nat) (u : N) (acc : bytes) : bytes :=
  match fuel with
  | O => acc
  | S fuel' =>
      let acc := Nb (48 + u mod 10) :: acc in
      if u <? 10 then acc else digits_loop fuel' (u / 10) acc
  end.
Definition AppendInt (n : Z) : bytes :=
  if (n <? 0)%Z then "-"%char :: digits_loop 20 (Z.to_N (- n)) [] else digits_loop 20 (Z.to_N n) [].

(** search_result_easyjson.go:127-142 *)
Definition encode_doc (d : Doc) : bytes :=
  (["{"%char]
   ++ bytes_str """id"":"
   ++ w_String (bytes_str (doc_Name d))
   ++ bytes_str ",""raw"":"
   ++ w_String (bytes_str (doc_Content d))
   ++ ["}"%char])%list.

(** search_result_easyjson.go:54-69 *)
Definition encode_result (r : SearchResult) : bytes :=
  (["{"%char]
   ++ bytes_str """doc"":"
   ++ encode_doc (sr_Document r)
   ++ bytes_str ",""hits"":"
   ++ AppendInt (sr_Hits r)
   ++ ["}"%char])%list.

(** search_result_easyjson.go:72-76; the buffer's chunks are one byte string
    here, and [w.Error] is never set by the calls above. *)
Definition MarshalJSON (v : SearchResult) : bytes := encode_result v.

(** ** The lexer *)

Inductive kind := KUndef | KDelim | KString | KNumber | KBool | KNull.

(** jlexer.Lexer.  [lx_rest] is [Data[pos:]]; [lx_bytes], [lx_delim] are
    [token.byteValue], [token.delimValue] (0 for none); [lx_err] tells whether
    [fatalError] is set (its text is not modelled; [UseMultipleErrors] is off).
    [boolValue], [byteValueCloned] and [start] have no effect here: the text
    from [start] to [pos], used by [SkipRecursive], is the delimiter followed by
    what is skipped. *)
Record lexer := MkLexer {
  lx_Data : bytes;
  lx_rest : bytes;
  lx_kind : kind;
  lx_bytes : bytes;
  lx_delim : ascii;
  lx_first : bool;
  lx_sep : ascii;
  lx_err : bool }.

Definition c0 : ascii := "000"%char.

(** jlexer.Lexer{Data: data} *)
Definition NewLexer (data : bytes) : lexer := MkLexer data data KUndef [] c0 false c0 false.

(** errSyntax, errParse, errInvalidToken, the assignments to fatalError *)
Definition err (l : lexer) : lexer :=
  MkLexer (lx_Data l) (lx_rest l) (lx_kind l) (lx_bytes l) (lx_delim l) (lx_first l) (lx_sep l) true.

(** Lexer.consume; the token's bytes are not looked at without a token. *)
Definition consume (l : lexer) : lexer :=
  MkLexer (lx_Data l) (lx_rest l) KUndef [] c0 (lx_first l) (lx_sep l) (lx_err l).

Definition is_ws (c : ascii) : bool :=
  (c =c " ") || (c =c "009") || (c =c "013") || (c =c "010").

(** isTokenEnd *)
Definition isTokenEnd (c : ascii) : bool :=
  is_ws c || (c =c "[") || (c =c "]") || (c =c "{") || (c =c "}") || (c =c ",") || (c =c ":").

(** findStringLen: the text of a string literal up to the first quote preceded
    by an even number of backslashes, and what follows the quote.  The code
    finds a quote and counts the backslashes before it backwards; here their
    parity [odd] is carried along. *)
Fixpoint find_string (odd : bool) (acc data : bytes) : option (bytes * bytes) :=
  match data with
  | [] => None
  | c :: t =>
      if c =c """" then
        if odd then find_string false (acc ++ [c]) t else Some (acc, t)
      else if c =c "\" then find_string (negb odd) (acc ++ [c]) t
      else find_string false (acc ++ [c]) t
  end%list.

(** fetchNumber: the loop over the characters after the first; the number's
    text, the rest, and whether it ends at the end of a token. *)
Fixpoint number_loop (hasE afterE hasDot : bool) (acc data : bytes) : bytes * bytes * bool :=
  match data with
  | [] => (acc, [], true)
  | c :: t =>
      if in_rng 48 57 (bN c) then number_loop hasE false hasDot (acc ++ [c]) t
      else if (c =c ".") && negb hasDot then number_loop hasE afterE true (acc ++ [c]) t
      else if ((c =c "e") || (c =c "E")) && negb hasE then number_loop true true true (acc ++ [c]) t
      else if ((c =c "+") || (c =c "-")) && afterE then number_loop hasE false hasDot (acc ++ [c]) t
      else (acc, data, isTokenEnd c)
  end%list.

(** fetchNull, fetchTrue, fetchFalse *)
Fixpoint fetch_word (word data : bytes) : option bytes :=
  match word, data with
  | [], [] => Some []
  | [], c :: _ => if isTokenEnd c then Some data else None
  | w :: word', c :: t => if w =c c then fetch_word word' t else None
  | _ :: _, [] => None
  end.

(** A token was read. *)
Definition token (l : lexer) (k : kind) (bs : bytes) (rest : bytes) : lexer :=
  MkLexer (lx_Data l) rest k bs c0 (lx_first l) c0 (lx_err l).
Definition open_token (l : lexer) (c : ascii) (rest : bytes) : lexer :=
  MkLexer (lx_Data l) rest KDelim [] c true c0 (lx_err l).
Definition close_token (l : lexer) (c : ascii) (rest : bytes) : lexer :=
  MkLexer (lx_Data l) rest KDelim [] c (lx_first l) c0 (lx_err l).

Definition word_token (l : lexer) (k : kind) (o : option bytes) : lexer :=
  match o with Some rest => token l k [] rest | None => err l end.

(** Lexer.FetchToken: [sep] is [wantSep], [rest] the text from [pos] on.
    Simplification: where the code records an error and reads on, the model
    stops; no method of the lexer looks at the token once an error is set. *)
Fixpoint fetch_loop (l : lexer) (sep : ascii) (rest : bytes) : lexer :=
  match rest with
  | [] => err l
  | c :: t =>
      if (c =c ":") || (c =c ",") then
        if sep =c c then fetch_loop l c0 t else err l
      else if is_ws c then fetch_loop l sep t
      else if (c =c "}") || (c =c "]") then
        if negb (lx_first l) && negb (sep =c ",") then err l else close_token l c t
      else if negb (sep =c c0) then err l
      else if c =c """" then
        match find_string false [] t with
        | Some (s, t') => token l KString s t'
        | None => err l
        end
      else if (c =c "{") || (c =c "[") then open_token l c t
      else if in_rng 48 57 (bN c) || (c =c "-") then
        let '(s, t', ok) := number_loop false false false [c] t in
        if ok then token l KNumber s t' else err l
      else if c =c "n" then word_token l KNull (fetch_word ["n"; "u"; "l"; "l"]%char rest)
      else if c =c "t" then word_token l KBool (fetch_word ["t"; "r"; "u"; "e"]%char rest)
      else if c =c "f" then word_token l KBool (fetch_word ["f"; "a"; "l"; "s"; "e"]%char rest)
      else err l
  end.
Definition FetchToken (l : lexer) : lexer := fetch_loop l (lx_sep l) (lx_rest l).

(** [if r.token.kind == tokenUndef && r.Ok() { r.FetchToken() }] *)
Definition scanToken (l : lexer) : lexer :=
  match lx_kind l with KUndef => if lx_err l then l else FetchToken l | _ => l end.

(** Lexer.Delim *)
Definition Delim (c : ascii) (l : lexer) : lexer :=
  let l := scanToken l in
  if lx_err l || negb (lx_delim l =c c) then err (consume l) else consume l.

(** Lexer.IsDelim *)
Definition IsDelim (c : ascii) (l : lexer) : lexer * bool :=
  let l := scanToken l in (l, lx_err l || (lx_delim l =c c)).

(** Lexer.IsNull *)
Definition IsNull (l : lexer) : lexer * bool :=
  let l := scanToken l in
  (l, negb (lx_err l) && match lx_kind l with KNull => true | _ => false end).

(** Lexer.Skip *)
Definition Skip (l : lexer) : lexer := consume (scanToken l).

(** Lexer.IsStart *)
Definition IsStart (l : lexer) : bool := (length (lx_rest l) =? length (lx_Data l))%nat.

(** Lexer.WantColon, Lexer.WantComma *)
Definition want (c : ascii) (l : lexer) : lexer :=
  MkLexer (lx_Data l) (lx_rest l) (lx_kind l) (lx_bytes l) (lx_delim l) false c (lx_err l).
Definition WantColon := want ":".
Definition WantComma := want ",".

(** Lexer.Consumed *)
Definition Consumed (l : lexer) : lexer :=
  if lx_err l then l else if forallb is_ws (lx_rest l) then l else err l.

(** getu4: the value of [\uXXXX] at the start, if there is one *)
Definition hex_val (c : ascii) : option N :=
  if in_rng 48 57 (bN c) then Some (bN c - 48)
  else if in_rng 97 102 (bN c) then Some (bN c - 97 + 10)
  else if in_rng 65 70 (bN c) then Some (bN c - 65 + 10)
  else None.
Definition getu4 (s : bytes) : option N :=
  match s with
  | b :: u :: a1 :: a2 :: a3 :: a4 :: _ =>
      if (b =c "\") && (u =c "u") then
        match hex_val a1, hex_val a2, hex_val a3, hex_val a4 with
        | Some v1, Some v2, Some v3, Some v4 => Some (((v1 * 16 + v2) * 16 + v3) * 16 + v4)
        | _, _, _, _ => None
        end
      else None
  | _ => None
  end.

(** unicode/utf16.IsSurrogate, unicode/utf16.DecodeRune *)
Definition IsSurrogate (r : N) : bool := in_rng 0xD800 0xDFFF r.
Definition DecodeSurrogates (r1 r2 : N) : N :=
  if in_rng 0xD800 0xDBFF r1 && in_rng 0xDC00 0xDFFF r2
  then (r1 - 0xD800) * 1024 + (r2 - 0xDC00) + 0x10000
  else RuneError.

(** decodeEscape: the rune and the number of bytes read, or an error *)
Definition decodeEscape (data : bytes) : option (N * nat) :=
  match data with
  | _ :: c :: _ =>
      if (c =c """") || (c =c "/") || (c =c "\") then Some (bN c, 2%nat)
      else if c =c "b" then Some (8, 2%nat)
      else if c =c "f" then Some (12, 2%nat)
      else if c =c "n" then Some (10, 2%nat)
      else if c =c "r" then Some (13, 2%nat)
      else if c =c "t" then Some (9, 2%nat)
      else if c =c "u" then
        match getu4 data with
        | None => None
        | Some rr =>
            if IsSurrogate rr then
              match getu4 (drop 6 data) with
              | Some rr1 =>
                  let dec := DecodeSurrogates rr rr1 in
                  if dec =? RuneError then Some (RuneError, 6%nat) else Some (dec, 12%nat)
              | None => Some (RuneError, 6%nat)
              end
            else Some (rr, 6%nat)
        end
      else None
  | _ => None
  end.

(** unescapeStringToken: the loop, on what is left of the token's bytes; the
    text before the first backslash is copied byte by byte. *)
Fixpoint unescape (fuel : nat) (data : bytes) : option bytes :=
  match fuel, data with
  | _, [] => Some []
  | O, _ => None
  | S fuel', c :: t =>
      if c =c "\" then
        match decodeEscape data with
        | None => None
        | Some (r, n) =>
            match unescape fuel' (drop n data) with
            | Some s => Some (EncodeRune r ++ s)%list
            | None => None
            end
        end
      else
        match unescape fuel' t with
        | Some s => Some (c :: s)
        | None => None
        end
  end.

(** Lexer.String, Lexer.UnsafeFieldName(false) *)
Definition lx_String (l : lexer) : lexer * bytes :=
  let l := scanToken l in
  match lx_err l, lx_kind l with
  | false, KString =>
      match unescape (length (lx_bytes l)) (lx_bytes l) with
      | Some s => (consume l, s)
      | None => (err l, [])
      end
  | _, _ => (err l, [])
  end.

(** strconv.ParseInt(s, 10, 64): the value, and whether there is an error; out
    of range, the nearest value is returned with the error. *)
Fixpoint digits_val (acc : N) (s : bytes) : option N :=
  match s with
  | [] => Some acc
  | c :: t => if in_rng 48 57 (bN c) then digits_val (acc * 10 + (bN c - 48)) t else None
  end.
Definition ParseUint (s : bytes) : option N :=
  match s with [] => None | _ => digits_val 0 s end.
Definition max_int64 : Z := (2 ^ 63 - 1)%Z.
Definition min_int64 : Z := (- 2 ^ 63)%Z.
Definition in_int64 (z : Z) : bool := (min_int64 <=? z)%Z && (z <=? max_int64)%Z.
Definition ParseInt (s : bytes) : Z * bool :=
  let '(neg, s) :=
    match s with
    | c :: t => if c =c "-" then (true, t) else if c =c "+" then (false, t) else (false, s)
    | [] => (false, s)
    end in
  match ParseUint s with
  | None => (0%Z, true)
  | Some u =>
      let z := if neg then (- Z.of_N u)%Z else Z.of_N u in
      if in_int64 z then (z, false) else (if neg then min_int64 else max_int64, true)
  end.

(** Lexer.Int (64-bit int) *)
Definition lx_Int (l : lexer) : lexer * Z :=
  let l := scanToken l in
  match lx_err l, lx_kind l with
  | false, KNumber =>
      let '(z, e) := ParseInt (lx_bytes l) in
      (if e then err (consume l) else consume l, z)
  | _, _ => (err l, 0%Z)
  end.

(** Lexer.SkipRecursive: the scan for the closing delimiter.  [done] is what was
    skipped so far. *)
Fixpoint skip_loop (start_ end_ : ascii) (level : nat) (inQuotes wasEscape : bool) (done data : bytes)
  : option (bytes * bytes) :=
  match data with
  | [] => None
  | c :: t =>
      let done' := (done ++ [c])%list in
      if (c =c start_) && negb inQuotes then skip_loop start_ end_ (S level) inQuotes false done' t
      else if (c =c end_) && negb inQuotes then
        match level with
        | S (S k) => skip_loop start_ end_ (S k) inQuotes false done' t
        | _ => Some (done', t)
        end
      else if (c =c "\") && inQuotes then skip_loop start_ end_ level inQuotes (negb wasEscape) done' t
      else if (c =c """") && inQuotes then skip_loop start_ end_ level wasEscape false done' t
      else if c =c """" then skip_loop start_ end_ level true false done' t
      else skip_loop start_ end_ level inQuotes false done' t
  end.

Definition SkipRecursive (valid : bytes -> bool) (l : lexer) : lexer :=
  let l := scanToken l in
  let close := if lx_delim l =c "{" then Some "}"%char
               else if lx_delim l =c "[" then Some "]"%char else None in
  match close with
  | None => consume l
  | Some end_ =>
      let l' := consume l in
      match skip_loop (lx_delim l) end_ 1 false false [] (lx_rest l) with
      | None => err l'
      | Some (skipped, rest) =>
          let l'' := MkLexer (lx_Data l) rest KUndef [] c0 (lx_first l) (lx_sep l) (lx_err l) in
          if valid (lx_delim l :: skipped) then l'' else err l''
      end
  end.

(** ** Decoding *)

(** The two decoders (search_result_easyjson.go:21-53 and 94-126) have the same
    shape; [field key] is the body of their [switch key].  The loop of lines
    31-48 and 104-121: *)
Fixpoint decode_loop {A} (field : bytes -> lexer -> A -> lexer * A) (fuel : nat) (in_ : lexer) (out : A)
  : lexer * A :=
  match fuel with
  | O => (err in_, out)
  | S fuel' =>
      let '(in_, b) := IsDelim "}" in_ in
      if b then (in_, out)
      else
        let '(in_, key) := lx_String in_ in
        let in_ := WantColon in_ in
        let '(in_, null) := IsNull in_ in
        if null then decode_loop field fuel' (WantComma (Skip in_)) out
        else
          let '(in_, out) := field key in_ out in
          decode_loop field fuel' (WantComma in_) out
  end.
(** lines 22-30 and 49-52, 95-103 and 122-125; [fuel] bounds the number of
    iterations of the loop (theorem C60_terminates: any number above the length
    of the input will do). *)
Definition decode_object {A} (field : bytes -> lexer -> A -> lexer * A) (fuel : nat) (in_ : lexer) (out : A) : lexer * A :=
  let isTopLevel := IsStart in_ in
  let '(in_, null) := IsNull in_ in
  if null then (Skip (if isTopLevel then Consumed in_ else in_), out)
  else
    let in_ := Delim "{" in_ in
    let '(in_, out) := decode_loop field fuel in_ out in
    let in_ := Delim "}" in_ in
    (if isTopLevel then Consumed in_ else in_, out).

(** search_result_easyjson.go:112-119 *)
Definition doc_field (valid : bytes -> bool) (key : bytes) (in_ : lexer) (out : Doc) : lexer * Doc :=
  if bool_decide (key = bytes_str "id") then
    let '(in_, s) := lx_String in_ in (in_, MkDoc (str_bytes s) (doc_Content out))
  else if bool_decide (key = bytes_str "raw") then
    let '(in_, s) := lx_String in_ in (in_, MkDoc (doc_Name out) (str_bytes s))
  else (SkipRecursive valid in_, out).

(** search_result_easyjson.go:94-126 *)
Definition decode_doc (valid : bytes -> bool) : nat -> lexer -> Doc -> lexer * Doc :=
  decode_object (doc_field valid).

(** search_result_easyjson.go:39-46 *)
Definition result_field (valid : bytes -> bool) (fuel : nat) (key : bytes) (in_ : lexer) (out : SearchResult)
  : lexer * SearchResult :=
  if bool_decide (key = bytes_str "doc") then
    let '(in_, d) := decode_doc valid fuel in_ (sr_Document out) in (in_, MkSR d (sr_Hits out))
  else if bool_decide (key = bytes_str "hits") then
    let '(in_, n) := lx_Int in_ in (in_, MkSR (sr_Document out) n)
  else (SkipRecursive valid in_, out).

(** search_result_easyjson.go:21-53 *)
Definition decode_result (valid : bytes -> bool) (fuel : nat) : lexer -> SearchResult -> lexer * SearchResult :=
  decode_object (result_field valid fuel) fuel.

(** search_result_easyjson.go:84-88: the value after the call, and whether an
    error is returned *)
Definition UnmarshalJSON (valid : bytes -> bool) (data : bytes) (v : SearchResult) : SearchResult * bool :=
  let '(r, v) := decode_result valid (S (length data)) (NewLexer data) v in (v, lx_err r).
