(** * Model of entities_doc.go, entities_request.go, entities_hash.go and the
    data part of search_result.go.  No proofs in this file. *)
From stdpp Require Export prelude strings gmap.
From Coq Require Export ZArith Ascii String.
From stdpp Require Export list.
Open Scope Z_scope.

(** Go evaluation that may panic (index out of range, nil dereference). *)
Inductive outcome (A : Type) : Type :=
| Ok (a : A)
| Panic.
Arguments Ok {A} a.
Arguments Panic {A}.

Definition obind {A B} (m : outcome A) (f : A -> outcome B) : outcome B :=
  match m with Ok a => f a | Panic => Panic end.

(** Loop [for _, x := range l { acc = f(acc, x) }] where the body may panic. *)
Fixpoint ofold {A B} (f : B -> A -> outcome B) (acc : B) (l : list A) : outcome B :=
  match l with
  | [] => Ok acc
  | x :: l' => obind (f acc x) (fun acc' => ofold f acc' l')
  end.

(** entities_doc.go:3-6 *)
Record Doc := MkDoc { doc_Name : string; doc_Content : string }.

(** entities_doc.go:8-10 *)
Definition NewDoc (name content : string) : Doc :=
  {| doc_Name := name; doc_Content := content |}.

(** entities_doc.go:12-14 *)
Definition doc_ID (d : Doc) : string := doc_Name d.
(** entities_doc.go:16-18 *)
Definition doc_Raw (d : Doc) : string := doc_Content d.

(** entities_request.go:3-8.  [type MimeType byte]; [iota + 1]. *)
Definition MimeType := N.
Definition MimeText : MimeType := 1%N.
Definition MimeJSON : MimeType := 2%N.

(** entities_request.go:10-15 *)
Record DocRequest := MkDocRequest {
  req_Name : string;
  req_Content : string;
  req_statement : string;
  req_MimeType : MimeType }.

(** entities_request.go:17-20 *)
Definition req_ID (r : DocRequest) : string := req_Name r.
Definition req_Raw (r : DocRequest) : string := req_Content r.
Definition req_Mime (r : DocRequest) : MimeType := req_MimeType r.
Definition req_Statement (r : DocRequest) : string := req_statement r.

(** entities_request.go:22-29 *)
Definition NewDocRequest (name content : string) : DocRequest :=
  {| req_Name := name; req_Content := content;
     req_MimeType := MimeText; req_statement := content |}.

(** entities_request.go:31-38 *)
Definition NewDocRequestWith (name content statement : string) : DocRequest :=
  {| req_Name := name; req_Content := content;
     req_MimeType := MimeText; req_statement := statement |}.

(** entities_request.go:40-47 *)
Definition NewDocRequestWithMime (name content : string) (mime : MimeType) : DocRequest :=
  {| req_Name := name; req_Content := content;
     req_MimeType := mime; req_statement := content |}.

(** A composite literal [DocRequest{Name: n, Content: c, MimeType: m}] written
    outside the package: the unexported field [statement]
    (entities_request.go:13) gets the zero value. *)
Definition DocRequestLiteral (name content : string) (mime : MimeType) : DocRequest :=
  {| req_Name := name; req_Content := content;
     req_MimeType := mime; req_statement := "" |}.

(** entities_hash.go:13-18 with hash/fnv's [New64] (FNV-1, not FNV-1a):
    offset basis, then for every byte multiply by the prime modulo 2^64 and
    xor the byte. *)
Definition fnv_offset64 : N := 14695981039346656037%N.
Definition fnv_prime64 : N := 1099511628211%N.
Definition two64 : N := 18446744073709551616%N.

Definition fnv_step (h : N) (b : N) : N :=
  N.lxor ((h * fnv_prime64) mod two64) b.

(** The bytes of a Go string. *)
Definition bytes_of (s : string) : list N := map N_of_ascii (list_ascii_of_string s).

Definition fnv64 (s : string) : N := fold_left fnv_step (bytes_of s) fnv_offset64.

(** entities_hash.go:9-11: [HashKey] is a struct with one uint64. *)
Notation HashKey := N.

(** entities_hash.go:13-18 *)
Definition Hash (d : Doc) : HashKey := fnv64 (doc_ID d).

(** search_result.go:6-9 *)
Record SearchResult := MkSR { sr_Document : Doc; sr_Hits : Z }.

(** search_result.go:11-22 *)
Definition GetDoc (r : SearchResult) : Doc := sr_Document r.
Definition GetHits (r : SearchResult) : Z := sr_Hits r.
Definition sr_Doc (r : SearchResult) : Doc := sr_Document r.

(** Go's [<] on strings: bytewise lexicographic (language specification,
    "Comparison operators"). *)
Fixpoint go_string_lt (a b : string) : bool :=
  match a, b with
  | _, EmptyString => false
  | EmptyString, String _ _ => true
  | String x a', String y b' =>
      if (N_of_ascii x <? N_of_ascii y)%N then true
      else if (N_of_ascii y <? N_of_ascii x)%N then false
      else go_string_lt a' b'
  end.

(** search_result.go:31-38, on the two elements compared. *)
Definition Less (x y : SearchResult) : bool :=
  if negb (sr_Hits x =? sr_Hits y) then sr_Hits x >? sr_Hits y
  else go_string_lt (doc_ID (sr_Document x)) (doc_ID (sr_Document y)).
