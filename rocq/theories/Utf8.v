(** * Model of the Go language / standard library pieces the analysis code
    relies on: ranging over a string, unicode/utf8 decoding and encoding,
    strings.FieldsFunc, strings.Map, strings.ToLower.  None of these is in
    /repo; they are modelled after the Go 1.23 sources (the version in go.mod:3)
    because the property statements are about bytes.  No proofs in this file. *)
From Verif Require Export Entities.
Open Scope N_scope.

(** A Go string or []byte seen as its list of bytes. *)
Notation bytes := (list ascii).
Definition bN (c : ascii) : N := N_of_ascii c.
Definition Nb (n : N) : ascii := ascii_of_N n.
Notation bytes_str := list_ascii_of_string.
Notation str_bytes := string_of_list_ascii.

(** unicode/utf8: RuneError, RuneSelf *)
Definition RuneError : N := 0xFFFD.
Definition RuneSelf : N := 0x80.

Definition in_rng (lo hi x : N) : bool := (lo <=? x) && (x <=? hi).

(** unicode/utf8.DecodeRuneInString (utf8.go, tables [first] and
    [acceptRanges]), equivalently one step of [for i, r := range s]: the rune
    and its width in bytes; a malformed prefix yields (RuneError, 1). *)
Definition DecodeRune (p : bytes) : N * nat :=
  match p with
  | [] => (RuneError, 0%nat)
  | p0 :: t =>
      let b0 := bN p0 in
      if b0 <? 0x80 then (b0, 1%nat)
      else if b0 <? 0xC2 then (RuneError, 1%nat)
      else if b0 <? 0xE0 then
        match t with
        | p1 :: _ =>
            if in_rng 0x80 0xBF (bN p1)
            then (N.lor (N.shiftl (N.land b0 0x1F) 6) (N.land (bN p1) 0x3F), 2%nat)
            else (RuneError, 1%nat)
        | _ => (RuneError, 1%nat)
        end
      else if b0 <? 0xF0 then
        match t with
        | p1 :: p2 :: _ =>
            if in_rng (if b0 =? 0xE0 then 0xA0 else 0x80) (if b0 =? 0xED then 0x9F else 0xBF) (bN p1)
               && in_rng 0x80 0xBF (bN p2)
            then (N.lor (N.lor (N.shiftl (N.land b0 0x0F) 12) (N.shiftl (N.land (bN p1) 0x3F) 6))
                        (N.land (bN p2) 0x3F), 3%nat)
            else (RuneError, 1%nat)
        | _ => (RuneError, 1%nat)
        end
      else if b0 <? 0xF5 then
        match t with
        | p1 :: p2 :: p3 :: _ =>
            if in_rng (if b0 =? 0xF0 then 0x90 else 0x80) (if b0 =? 0xF4 then 0x8F else 0xBF) (bN p1)
               && in_rng 0x80 0xBF (bN p2) && in_rng 0x80 0xBF (bN p3)
            then (N.lor (N.lor (N.lor (N.shiftl (N.land b0 0x07) 18) (N.shiftl (N.land (bN p1) 0x3F) 12))
                               (N.shiftl (N.land (bN p2) 0x3F) 6))
                        (N.land (bN p3) 0x3F), 4%nat)
            else (RuneError, 1%nat)
        | _ => (RuneError, 1%nat)
        end
      else (RuneError, 1%nat)
  end.

(** unicode/utf8.AppendRune *)
Definition EncodeRune (r : N) : bytes :=
  if r <=? 0x7F then [Nb r]
  else if r <=? 0x7FF then
    [Nb (N.lor 0xC0 (N.shiftr r 6)); Nb (N.lor 0x80 (N.land r 0x3F))]
  else
    let r := if (0x10FFFF <? r) || in_rng 0xD800 0xDFFF r then RuneError else r in
    if r <=? 0xFFFF then
      [Nb (N.lor 0xE0 (N.shiftr r 12)); Nb (N.lor 0x80 (N.land (N.shiftr r 6) 0x3F));
       Nb (N.lor 0x80 (N.land r 0x3F))]
    else
      [Nb (N.lor 0xF0 (N.shiftr r 18)); Nb (N.lor 0x80 (N.land (N.shiftr r 12) 0x3F));
       Nb (N.lor 0x80 (N.land (N.shiftr r 6) 0x3F)); Nb (N.lor 0x80 (N.land r 0x3F))].

(** [for i, r := range s]: the pairs (byte index, rune).  [skip] counts the
    bytes of the current rune still to be stepped over. *)
Fixpoint range_from (i : nat) (skip : nat) (s : bytes) : list (nat * N) :=
  match s with
  | [] => []
  | _ :: s' =>
      match skip with
      | S k => range_from (S i) k s'
      | O => let '(r, w) := DecodeRune s in (i, r) :: range_from (S i) (w - 1) s'
      end
  end.
Definition go_range (s : bytes) : list (nat * N) := range_from 0 0 s.

(** Slice expressions [s[i:]] and [s[i:j]] (indices always in range here). *)
Definition slice_from (s : bytes) (i : nat) : bytes := drop i s.
Definition slice_between (s : bytes) (i j : nat) : bytes := take (j - i) (drop i s).

(** strings.FieldsFunc: first loop, on the state (start or -1, spans). *)
Definition fields_step (f : N -> bool) (st : option nat * list (nat * nat)) (x : nat * N)
  : option nat * list (nat * nat) :=
  let '(start, spans) := st in
  let '(e, r) := x in
  if f r then
    match start with
    | Some b => (None, spans ++ [(b, e)])
    | None => (None, spans)
    end
  else
    match start with
    | Some b => (Some b, spans)
    | None => (Some e, spans)
    end.

Definition FieldsFunc (s : bytes) (f : N -> bool) : list bytes :=
  let '(start, spans) := fold_left (fields_step f) (go_range s) (None, []) in
  let spans := match start with Some b => spans ++ [(b, length s)] | None => spans end in
  map (fun '(b, e) => slice_between s b e) spans.

(** strings.Map for a mapping that never returns a negative rune.  The Go code
    copies the longest unchanged prefix instead of re-encoding it; the bytes are
    the same because a well-formed rune re-encodes to itself. *)
Definition strings_Map (mapping : N -> N) (s : bytes) : bytes :=
  flat_map (fun x => EncodeRune (mapping (snd x))) (go_range s).

Definition is_upper (c : N) : bool := in_rng 65 90 c.

(** strings.ToLower; [unicode_ToLower] is unicode.ToLower, used only when the
    string is not pure ASCII. *)
Definition ToLower (unicode_ToLower : N -> N) (s : bytes) : bytes :=
  if forallb (fun c => bN c <? RuneSelf) s then
    if existsb (fun c => is_upper (bN c)) s then
      map (fun c => if is_upper (bN c) then Nb (bN c + 32) else c) s
    else s
  else strings_Map unicode_ToLower s.
