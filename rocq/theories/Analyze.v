(** * Model of analyze_clean_tokenizer.go, analyze_compose.go,
    analyze_lowercase_filter.go, analyze_stopwords_filter.go and
    analyze_stem_filter.go.  No proofs in this file. *)
From Verif Require Export Entities Search Utf8 StopWords.

(** analyze_clean_tokenizer.go:8 *)
Definition cleanFunc := N -> bool.

(** analyze_clean_tokenizer.go:10-12 *)
Record CleanTokenizer := MkCT { ct_fns : list cleanFunc }.

(** analyze_clean_tokenizer.go:14-16 *)
Definition ct_register (c : CleanTokenizer) (fn : cleanFunc) : CleanTokenizer :=
  MkCT (ct_fns c ++ [fn]).

(** analyze_clean_tokenizer.go:19-26: the closure handed to FieldsFunc. *)
Fixpoint ct_drop (fns : list cleanFunc) (r : N) : bool :=
  match fns with
  | [] => true
  | fn :: rest => if fn r then false else ct_drop rest r
  end.

(** analyze_clean_tokenizer.go:18-27 *)
Definition ct_Tokenize (c : CleanTokenizer) : Tokenizer := fun text =>
  map str_bytes (FieldsFunc (bytes_str text) (ct_drop (ct_fns c))).

(** analyze_clean_tokenizer.go:29-35 *)
Definition NewCleanTokenizer (fns : list cleanFunc) : CleanTokenizer :=
  fold_left ct_register fns (MkCT []).

(** analyze_clean_tokenizer.go:37-43.  unicode.IsNumber and unicode.IsLetter are
    parameters. *)
Definition NewKeepAlphanumericTokenizer (IsNumber IsLetter : N -> bool) : CleanTokenizer :=
  ct_register (MkCT []) (fun r => IsNumber r || IsLetter r).

(** analyze_lowercase_filter.go:9-11 *)
Definition Filter := list string -> list string.

(** analyze_compose.go:3-21 *)
Definition pipeline_Tokenize (tokenizer : Tokenizer) (filters : list Filter) : Tokenizer :=
  fun text => fold_left (fun res filter => filter res) filters (tokenizer text).
Definition NewTokenizationPipeline (t : Tokenizer) (f : list Filter) : Tokenizer :=
  pipeline_Tokenize t f.

(** analyze_lowercase_filter.go:15-21: [r := make([]string, n)] then [r[i] =
    ToLower(tokens[i])] for every i; the result slice is fresh. *)
Definition LowerCaseFilter (unicode_ToLower : N -> N) : Filter := fun tokens =>
  map (fun token => str_bytes (ToLower unicode_ToLower (bytes_str token))) tokens.

(** analyze_stopwords_filter.go:15-25 *)
Definition StopWordsFilter (stopWords : StopWords) : Filter := fun tokens =>
  fold_left (fun r tok => if decide (tok ∈ stopWords) then r else r ++ [tok]) tokens [].

(** analyze_stem_filter.go:9-15.  [snowball_Stem] is
    github.com/kljensen/snowball/spanish.Stem. *)
Definition SpanishStemmerFilter (snowball_Stem : string -> bool -> string)
  (removeStopWords : bool) : Filter := fun tokens =>
  fold_left (fun r token => r ++ [snowball_Stem token removeStopWords]) tokens [].

(** README.md:65-72: the pipeline the README builds. *)
Definition readme_pipeline (IsNumber IsLetter : N -> bool) (unicode_ToLower : N -> N)
  (snowball_Stem : string -> bool -> string) : Tokenizer :=
  NewTokenizationPipeline (ct_Tokenize (NewKeepAlphanumericTokenizer IsNumber IsLetter))
    [LowerCaseFilter unicode_ToLower;
     StopWordsFilter SpanishStopWords;
     SpanishStemmerFilter snowball_Stem true].
