(** * Properties C18-C24 and C56: tokenizer, filters, pipeline. *)
From Coq Require Import Lia ZifyBool ZifyNat ZifyN.
From stdpp Require Import list.
From Verif Require Import Entities Utf8 SpecUtf8 ProofUtf8 StopWords Search SpecSearch Analyze
  ProofAnalyze ProofSearch ProofEngines ProofHits Properties_Search.
Open Scope N_scope.

(** ** Concrete material: the Latin-1 part of the unicode tables *)
Definition l1_IsLetter (r : N) : bool :=
  in_rng 65 90 r || in_rng 97 122 r || (r =? 0xAA) || (r =? 0xB5) || (r =? 0xBA) ||
  in_rng 0xC0 0xD6 r || in_rng 0xD8 0xF6 r || in_rng 0xF8 0xFF r.
Definition l1_IsNumber (r : N) : bool :=
  in_rng 48 57 r || in_rng 0xB2 0xB3 r || (r =? 0xB9) || in_rng 0xBC 0xBE r.
Definition l1_ToLower (r : N) : N :=
  if in_rng 65 90 r || in_rng 0xC0 0xD6 r || in_rng 0xD8 0xDE r then r + 32 else r.

Lemma l1_lower_ok : lower_ok l1_ToLower.
Proof.
  split; unfold l1_ToLower, in_rng, scalar; intros r H.
  - destruct (_ || _) eqn:E; lia.
  - set (up := fun r => ((65 <=? r) && (r <=? 90)) || ((192 <=? r) && (r <=? 214)) ||
                        ((216 <=? r) && (r <=? 222))).
    change ((if up (if up r then r + 32 else r) then (if up r then r + 32 else r) + 32
             else (if up r then r + 32 else r)) = if up r then r + 32 else r).
    destruct (up r) eqn:E; [|by rewrite E].
    destruct (up (r + 32)) eqn:E2; [|done]. unfold up in *. lia.
  - destruct ((65 <=? r) && (r <=? 90)) eqn:E; cbn [orb]; [done|].
    destruct (_ || _) eqn:E2; lia.
Qed.

(** ** C18 *)
Theorem C18_decomposition_exists_unique :
  forall (s : bytes) (fns : list cleanFunc),
    exists cs rs, chars s cs /\ runs (kept fns) cs rs /\
      concat (map snd cs) = s /\
      (forall cs' rs', chars s cs' -> runs (kept fns) cs' rs' -> cs' = cs /\ rs' = rs).
Proof.
  intros s fns. destruct (chars_total s) as [cs Hc]. destruct (kept_runs_total fns cs) as [rs Hr].
  exists cs, rs. split; [done|]. split; [done|]. split; [symmetry; by apply chars_bytes|].
  intros cs' rs' Hc' Hr'. assert (cs' = cs) as -> by (by eapply chars_det). split; [done|].
  eapply runs_det; [apply kept_dec|done|done].
Qed.
Print Assumptions C18_decomposition_exists_unique.

Theorem C18_tokenize_maximal_runs :
  forall (fns : list cleanFunc) (text : string) cs rs,
    chars (bytes_str text) cs -> runs (kept fns) cs rs ->
    ct_Tokenize (NewCleanTokenizer fns) text = map (fun run => str_bytes (concat (map snd run))) rs.
Proof.
  intros fns text cs rs Hc Hr. apply (ct_Tokenize_runs _ _ cs); [done|].
  replace (ct_fns (NewCleanTokenizer fns)) with fns; [done|].
  unfold NewCleanTokenizer.
  assert (H : forall c, ct_fns (fold_left ct_register fns c) = ct_fns c ++ fns).
  { clear. induction fns as [|f fns IH]; intros c; cbn [fold_left]; [by rewrite app_nil_r|].
    rewrite IH. cbn. by rewrite <- app_assoc. }
  rewrite H. done.
Qed.
Print Assumptions C18_tokenize_maximal_runs.

Theorem C18_alphanumeric :
  forall IsNumber IsLetter (text : string) cs rs,
    chars (bytes_str text) cs ->
    runs (fun x => IsNumber x.1 = true \/ IsLetter x.1 = true) cs rs ->
    ct_Tokenize (NewKeepAlphanumericTokenizer IsNumber IsLetter) text =
    map (fun run => str_bytes (concat (map snd run))) rs.
Proof.
  intros IsNumber IsLetter text cs rs Hc Hr. apply (ct_Tokenize_runs _ _ cs); [done|].
  eapply runs_iff; [|exact Hr]. intros x. unfold kept. cbn. split.
  - intros H. eexists. split; [left|]. cbn. by apply orb_true_iff.
  - intros (fn & Hin & Hfn). apply elem_of_list_singleton in Hin as ->. by apply orb_true_iff.
Qed.
Print Assumptions C18_alphanumeric.

(** The decoder and encoder are UTF-8. *)
Theorem C18_decode_encode :
  forall r s, scalar r -> DecodeRune (utf8 r ++ s) = (r, length (utf8 r)) /\ EncodeRune r = utf8 r.
Proof. intros r s H. split; [by apply Decode_utf8|by apply EncodeRune_utf8]. Qed.
Print Assumptions C18_decode_encode.

Theorem C18_decode_malformed :
  forall s, s <> [] -> (forall r, scalar r -> ~ (utf8 r `prefix_of` s)) -> DecodeRune s = (0xFFFD, 1%nat).
Proof.
  intros s Hne Hbad. destruct (Decode_cases s Hne) as [(r & s' & Hr & -> & _)|[H _]]; [|done].
  exfalso. apply (Hbad r Hr). by apply prefix_app_r.
Qed.
Print Assumptions C18_decode_malformed.

Example C18_example :
  ct_Tokenize (NewKeepAlphanumericTokenizer l1_IsNumber l1_IsLetter) "El año 2024, ¡olé!" =
  ["El"; "año"; "2024"; "olé"]%string /\
  ct_Tokenize (NewKeepAlphanumericTokenizer l1_IsNumber l1_IsLetter)
    (str_bytes [Nb 0xC3; "a"; "b"; Nb 0xFF; "c"])%char = ["ab"; "c"]%string.
Proof. vm_compute. done. Qed.

(** ** C19 *)
(** Strings joined with a separator (strings.Join). *)
Fixpoint join_strings (sep : string) (l : list string) : string :=
  match l with
  | [] => ""
  | [t] => t
  | t :: ts => t ++ sep ++ join_strings sep ts
  end.

Lemma bytes_str_app a b : bytes_str (a ++ b)%string = bytes_str a ++ bytes_str b.
Proof.
  induction a as [|c a IH]; [done|].
  change (String c a ++ b)%string with (String c (a ++ b)%string).
  cbn [list_ascii_of_string app]. by rewrite IH.
Qed.

Lemma join_strings_bytes sep l :
  bytes_str (join_strings sep l) = join_bytes (bytes_str sep) (map bytes_str l).
Proof.
  induction l as [|t l IH]; [done|]. destruct l as [|t2 l]; [done|].
  change (join_strings sep (t :: t2 :: l)) with (t ++ sep ++ join_strings sep (t2 :: l))%string.
  change (map bytes_str (t :: t2 :: l)) with (bytes_str t :: map bytes_str (t2 :: l)).
  rewrite !bytes_str_app, IH. done.
Qed.

Theorem C19_rejoin_stable :
  forall (c : CleanTokenizer) (text : string) (sep : N),
    scalar sep -> (forall fn, fn ∈ ct_fns c -> fn sep = false) ->
    ct_Tokenize c (join_strings (str_bytes (utf8 sep)) (ct_Tokenize c text)) = ct_Tokenize c text.
Proof.
  intros c text sep Hsc Hsep.
  destruct (chars_total (bytes_str text)) as [cs Hc].
  destruct (kept_runs_total (ct_fns c) cs) as [rs Hr].
  pose proof (runs_chars _ _ _ _ Hc Hr) as Hall.
  rewrite (ct_Tokenize_runs c text cs rs) by done.
  apply (ct_Tokenize_runs c _ (join_chars (sep, utf8 sep) rs)).
  - rewrite join_strings_bytes, bytes_str_id, map_map.
    rewrite (map_ext _ run_bytes) by (intros; apply bytes_str_id).
    apply join_chars_ok; [done|]. eapply Forall_impl; [exact Hall|]. intros run (_ & _ & H). exact H.
  - apply join_chars_runs.
    + intros (fn & Hfn & Ht). cbn in Ht. rewrite Hsep in Ht by done. done.
    + eapply Forall_impl; [exact Hall|]. intros run (H1 & H2 & _). done.
Qed.
Print Assumptions C19_rejoin_stable.

Theorem C19_token_is_its_own_token :
  forall (c : CleanTokenizer) (text t : string),
    t ∈ ct_Tokenize c text -> ct_Tokenize c t = [t].
Proof.
  intros c text t Ht.
  destruct (chars_total (bytes_str text)) as [cs Hc].
  destruct (kept_runs_total (ct_fns c) cs) as [rs Hr].
  pose proof (runs_chars _ _ _ _ Hc Hr) as Hall.
  rewrite (ct_Tokenize_runs c text cs rs) in Ht by done.
  apply elem_of_list_fmap in Ht as (run & -> & Hin).
  rewrite Forall_forall in Hall. destruct (Hall run Hin) as (Hne & Hk & Hch).
  apply (ct_Tokenize_runs c _ run [run]).
  - by rewrite bytes_str_id.
  - by apply runs_all_kept.
Qed.
Print Assumptions C19_token_is_its_own_token.

Theorem C19_no_predicates : forall text, ct_Tokenize (NewCleanTokenizer []) text = [].
Proof.
  intros text. destruct (chars_total (bytes_str text)) as [cs Hc].
  apply (ct_Tokenize_runs _ _ cs []); [done|]. apply runs_end.
  apply Forall_forall. intros x _ (fn & H & _). inversion H.
Qed.
Print Assumptions C19_no_predicates.

Theorem C19_empty_text : forall c, ct_Tokenize c "" = [].
Proof. done. Qed.
Print Assumptions C19_empty_text.

Example C19_example :
  scalar 0x2003 /\ l1_IsNumber 0x2003 = false /\ l1_IsLetter 0x2003 = false /\
  ct_Tokenize (NewKeepAlphanumericTokenizer l1_IsNumber l1_IsLetter)
    (join_strings (str_bytes (utf8 0x2003))
      (ct_Tokenize (NewKeepAlphanumericTokenizer l1_IsNumber l1_IsLetter) "¿Qué tal?")) = ["Qué"; "tal"]%string.
Proof. split; [unfold scalar; lia|]. vm_compute. done. Qed.

(** ** C20 *)
Theorem C20_pipeline_composition :
  forall (t : Tokenizer) (fs gs : list Filter) (f : Filter) (text : string),
    NewTokenizationPipeline t [] text = t text /\
    NewTokenizationPipeline t (fs ++ [f]) text = f (NewTokenizationPipeline t fs text) /\
    NewTokenizationPipeline t (fs ++ gs) text =
      NewTokenizationPipeline (NewTokenizationPipeline t fs) gs text.
Proof.
  intros. unfold NewTokenizationPipeline, pipeline_Tokenize.
  rewrite !fold_left_app. done.
Qed.
Print Assumptions C20_pipeline_composition.

(** The README pipeline, unfolded: keep runs of letters and digits, lower-case
    each, drop the stop words, stem each. *)
Theorem C20_readme_pipeline :
  forall IsNumber IsLetter ul stem text,
    readme_pipeline IsNumber IsLetter ul stem text =
    map (fun t => stem t true)
      (filter (fun t => t ∉ SpanishStopWords)
        (map (fun t => str_bytes (ToLower ul (bytes_str t)))
          (ct_Tokenize (NewKeepAlphanumericTokenizer IsNumber IsLetter) text))).
Proof.
  intros. unfold readme_pipeline, NewTokenizationPipeline, pipeline_Tokenize. cbn [fold_left].
  by rewrite SpanishStemmerFilter_map, StopWordsFilter_filter.
Qed.
Print Assumptions C20_readme_pipeline.

Example C20_example :
  readme_pipeline l1_IsNumber l1_IsLetter l1_ToLower (fun t _ => t) "La PROGRAMACIÓN en Java" =
  ["programación"; "java"]%string.
Proof. vm_compute. done. Qed.

(** ** C21 *)
Theorem C21_lowercase_one_to_one :
  forall ul (tokens : list string),
    length (LowerCaseFilter ul tokens) = length tokens /\
    forall i t, tokens !! i = Some t ->
      LowerCaseFilter ul tokens !! i = Some (str_bytes (ToLower ul (bytes_str t))).
Proof.
  intros ul tokens. unfold LowerCaseFilter. split; [apply map_length|].
  intros i t H. rewrite list_lookup_fmap, H. done.
Qed.
Print Assumptions C21_lowercase_one_to_one.

Theorem C21_lowercase_ascii :
  forall ul (s : bytes), Forall (fun c => bN c < 128) s ->
    length (ToLower ul s) = length s /\
    forall i c, s !! i = Some c -> exists c', ToLower ul s !! i = Some c' /\
      bN c' = if decide (65 <= bN c <= 90) then bN c + 32 else bN c.
Proof.
  intros ul s Ha. rewrite ToLower_ascii by done. split; [apply map_length|].
  intros i c H. rewrite list_lookup_fmap, H. cbn. eexists. split; [done|].
  rewrite ascii_lower_bN. destruct (decide _), (_ && _) eqn:E; lia.
Qed.
Print Assumptions C21_lowercase_ascii.

(** Outside ASCII: character by character, malformed bytes become U+FFFD. *)
Theorem C21_lowercase_unicode :
  forall ul (s : bytes) cs,
    lower_ok ul -> ~ Forall (fun c => bN c < 128) s -> chars s cs ->
    ToLower ul s = concat (map (fun x => utf8 (ul x.1)) cs).
Proof.
  intros ul s cs Hul Hna Hc. rewrite (ToLower_chars ul s cs) by done.
  rewrite concat_encode; [|done|by eapply chars_scalar]. by rewrite map_map.
Qed.
Print Assumptions C21_lowercase_unicode.

Theorem C21_lowercase_idempotent :
  forall ul (tokens : list string), lower_ok ul ->
    LowerCaseFilter ul (LowerCaseFilter ul tokens) = LowerCaseFilter ul tokens.
Proof.
  intros ul tokens Hul. unfold LowerCaseFilter. rewrite map_map. apply map_ext. intros t.
  by rewrite bytes_str_id, ToLower_idem.
Qed.
Print Assumptions C21_lowercase_idempotent.

Example C21_example :
  lower_ok l1_ToLower /\
  LowerCaseFilter l1_ToLower ["ÁRBOL"; "GoLang1"; "ñ"]%string = ["árbol"; "golang1"; "ñ"]%string.
Proof. split; [apply l1_lower_ok|]. vm_compute. done. Qed.

(** ** C22 *)
Theorem C22_stopwords_exact :
  forall (sw : StopWords) (tokens : list string),
    StopWordsFilter sw tokens = filter (fun t => t ∉ sw) tokens /\
    StopWordsFilter sw (StopWordsFilter sw tokens) = StopWordsFilter sw tokens /\
    (forall t, t ∈ StopWordsFilter sw tokens <-> t ∈ tokens /\ t ∉ sw).
Proof.
  intros sw tokens. rewrite !StopWordsFilter_filter. split; [done|]. split.
  - rewrite list_filter_filter. apply list_filter_iff. tauto.
  - intros t. rewrite elem_of_list_filter. tauto.
Qed.
Print Assumptions C22_stopwords_exact.

Theorem C22_readme_no_stopword_reaches_stemmer :
  forall IsNumber IsLetter ul stem text, exists toks,
    readme_pipeline IsNumber IsLetter ul stem text = map (fun t => stem t true) toks /\
    Forall (fun t => t ∉ SpanishStopWords) toks.
Proof.
  intros. rewrite C20_readme_pipeline. eexists. split; [done|].
  apply Forall_forall. intros t Ht. by apply elem_of_list_filter in Ht as [? _].
Qed.
Print Assumptions C22_readme_no_stopword_reaches_stemmer.

Lemma utf8_ascii_byte r c : scalar r -> c ∈ utf8 r -> bN c < 0x80 -> r = bN c.
Proof.
  intros Hr Hc Hlt. destruct (utf8_shape r Hr) as (b & t & He & Hb & Ht).
  rewrite He in Hc. apply elem_of_cons in Hc as [->|Hc].
  - unfold utf8, scalar in *. destruct (N.ltb_spec r 0x80).
    + injection He as <- _. by rewrite bN_Nb by lia.
    + exfalso. destruct (N.ltb_spec r 0x800).
      { injection He as <- _. rewrite bN_Nb in Hlt by lia. lia. }
      destruct (N.ltb_spec r 0x10000).
      { injection He as <- _. rewrite bN_Nb in Hlt by lia. lia. }
      { injection He as <- _. rewrite bN_Nb in Hlt by lia. lia. }
  - rewrite Forall_forall in Ht. apply Ht in Hc. unfold cont in Hc. lia.
Qed.

Lemma chars_ascii_byte s l c :
  chars s l -> c ∈ s -> bN c < 0x80 -> (bN c, utf8 (bN c)) ∈ l.
Proof.
  intros H Hc Hlt. induction H as [|r s l Hr _ IH|b s l Hb _ IH]; [inversion Hc| |].
  - apply elem_of_app in Hc as [Hc|Hc]; [|right; by apply IH].
    rewrite (utf8_ascii_byte r c) by done. left.
  - apply elem_of_cons in Hc as [->|Hc]; [|right; by apply IH].
    exfalso. apply (Hb (bN b)); [by apply scalar_ascii|]. rewrite utf8_1 by done. by exists s.
Qed.

(** A byte below 0x80 that the tokenizer does not keep and that no other
    character lower-cases to never occurs in a lower-cased token. *)
Lemma lower_token_no_byte ul c text t b :
  lower_ok ul -> bN b < 0x80 -> ~ kept (ct_fns c) (chr b) ->
  (forall r, scalar r -> ul r = bN b -> r = bN b) ->
  t ∈ LowerCaseFilter ul (ct_Tokenize c text) -> b ∉ bytes_str t.
Proof.
  intros Hul Hb Hk Hinj Ht Hin.
  destruct (chars_total (bytes_str text)) as [cs Hc].
  destruct (kept_runs_total (ct_fns c) cs) as [rs Hr].
  pose proof (runs_chars _ _ _ _ Hc Hr) as Hall.
  rewrite (ct_Tokenize_runs c text cs rs) in Ht by done.
  unfold LowerCaseFilter in Ht. rewrite map_map in Ht. apply elem_of_list_fmap in Ht as (run & -> & Hrun).
  rewrite !bytes_str_id in Hin. rewrite Forall_forall in Hall. destruct (Hall run Hrun) as (_ & Hkept & Hch).
  assert (Hkk : forall x, x ∈ run -> x.1 <> bN b).
  { intros x Hx He. rewrite Forall_forall in Hkept. apply Hk.
    destruct (Hkept x Hx) as (fn & Hfn & Hfx). exists fn. split; [done|]. by rewrite He in Hfx. }
  assert (Hda : is_ascii (run_bytes run) \/ ~ is_ascii (run_bytes run)).
  { rewrite <- forallb_ascii. destruct (forallb _ (run_bytes run)); [left|right]; done. }
  destruct Hda as [Ha|Ha].
  - rewrite ToLower_ascii in Hin by done. apply elem_of_list_fmap in Hin as (c' & He & Hc').
    assert (Hc'lt : bN c' < 0x80) by (unfold is_ascii in Ha; rewrite Forall_forall in Ha; by apply Ha).
    assert (ul (bN c') = bN b) as Hu.
    { rewrite (lo_ascii _ Hul) by done. rewrite He, ascii_lower_bN. done. }
    apply Hinj in Hu; [|by apply scalar_ascii].
    apply (Hkk (bN c', utf8 (bN c'))); [|done]. by eapply chars_ascii_byte.
  - rewrite (ToLower_chars ul _ run) in Hin by done.
    pose proof (chars_scalar _ _ Hch) as Hsc. rewrite concat_encode in Hin by done.
    rewrite map_map in Hin. apply elem_of_list_In, in_concat in Hin as (u & Hu & Hbu).
    apply in_map_iff in Hu as (x & <- & Hx). apply elem_of_list_In in Hx, Hbu.
    rewrite Forall_forall in Hsc.
    apply (utf8_ascii_byte (ul x.1)) in Hbu; [|apply (lo_scalar _ Hul); by apply Hsc|done].
    apply Hinj in Hbu; [|by apply Hsc]. by apply (Hkk x).
Qed.

(** The stop word "por qué" contains a space, so it never removes anything. *)
Theorem C22_two_word_stopword_unreachable :
  forall IsNumber IsLetter ul text,
    lower_ok ul -> IsNumber 32 = false -> IsLetter 32 = false ->
    (forall r, scalar r -> ul r = 32 -> r = 32) ->
    ("por qué"%string ∈ SpanishStopWords) /\
    ("por qué"%string ∉ LowerCaseFilter ul (ct_Tokenize (NewKeepAlphanumericTokenizer IsNumber IsLetter) text)).
Proof.
  intros IsNumber IsLetter ul text Hul HN HL Hinj. split.
  - unfold SpanishStopWords. apply elem_of_list_to_set.
    apply (bool_decide_unpack _). vm_compute. exact I.
  - intros Hin. eapply (lower_token_no_byte ul _ text _ " "%char) in Hin; [|done|done| |done].
    + apply Hin. apply elem_of_list_In. cbn. tauto.
    + intros (fn & Hfn & Ht). cbn in Hfn. apply elem_of_list_singleton in Hfn as ->. change (IsNumber 32 || IsLetter 32 = true) in Ht.
      rewrite HN, HL in Ht. done.
Qed.
Print Assumptions C22_two_word_stopword_unreachable.

Example C22_example :
  StopWordsFilter SpanishStopWords ["el"; "perro"; "por"; "qué"; "perro"; "El"]%string =
  ["perro"; "perro"; "El"]%string.
Proof. vm_compute. done. Qed.

(** ** C23 *)
Theorem C23_stemmer_one_to_one :
  forall stem b (tokens : list string),
    SpanishStemmerFilter stem b tokens = map (fun t => stem t b) tokens /\
    length (SpanishStemmerFilter stem b tokens) = length tokens.
Proof.
  intros. rewrite SpanishStemmerFilter_map. split; [done|apply map_length].
Qed.
Print Assumptions C23_stemmer_one_to_one.

(** In particular the flag called removeStopWords cannot remove anything: even
    if the stemmer mapped every stop word to the empty string, the empty token
    would still be there. *)
Theorem C23_remove_stop_words_flag_refuted :
  exists stem tokens,
    (forall t, t ∈ SpanishStopWords -> stem t true = ""%string) /\
    tokens = ["el"; "perro"]%string /\
    SpanishStemmerFilter stem true tokens = [""; "perro"]%string.
Proof.
  exists (fun t _ => if decide (t ∈ SpanishStopWords) then ""%string else t), ["el"; "perro"]%string.
  split; [|split; [done|vm_compute; done]].
  intros t Ht. by rewrite decide_True.
Qed.
Print Assumptions C23_remove_stop_words_flag_refuted.

Example C23_example :
  SpanishStemmerFilter (fun t _ => substring 0 3 t) true ["perros"; "gato"]%string = ["per"; "gat"]%string.
Proof. vm_compute. done. Qed.

(** ** C24 *)
Definition ascii_text (s : string) : Prop := Forall (fun c => bN c < 128) (bytes_str s).

(** Equal up to ASCII letter case. *)
Definition same_letters (a b : ascii) : Prop :=
  a = b \/ (exists n, 65 <= n <= 90 /\ ((bN a = n /\ bN b = n + 32) \/ (bN b = n /\ bN a = n + 32))).
Definition case_equal (s t : string) : Prop := Forall2 same_letters (bytes_str s) (bytes_str t).

Lemma case_equal_lower s t :
  case_equal s t -> map ascii_lower (bytes_str s) = map ascii_lower (bytes_str t).
Proof.
  unfold case_equal. induction 1 as [|a b u v Hab _ IH]; [done|]. cbn [map]. rewrite IH. f_equal.
  destruct Hab as [->|(n & Hn & [[H1 H2]|[H1 H2]])]; [done| |];
    apply bN_inj; rewrite !ascii_lower_bN, H1, H2;
    replace ((65 <=? n) && (n <=? 90)) with true by lia;
    replace ((65 <=? n + 32) && (n + 32 <=? 90)) with false by lia; done.
Qed.

(** unicode.IsNumber/IsLetter do not distinguish the case of ASCII letters. *)
Definition caseless (IsNumber IsLetter : N -> bool) : Prop :=
  forall r, 65 <= r <= 90 ->
    (IsNumber r || IsLetter r) = (IsNumber (r + 32) || IsLetter (r + 32)).

Theorem C24_tokens_case_insensitive :
  forall IsNumber IsLetter ul filters text text',
    caseless IsNumber IsLetter ->
    ascii_text text -> case_equal text text' ->
    let tk := NewTokenizationPipeline
                (ct_Tokenize (NewKeepAlphanumericTokenizer IsNumber IsLetter))
                (LowerCaseFilter ul :: filters) in
    tk text = tk text'.
Proof.
  intros IsNumber IsLetter ul filters text text' Hcl Ha Hce. cbn zeta.
  unfold NewTokenizationPipeline, pipeline_Tokenize. cbn [fold_left]. f_equal.
  set (c := NewKeepAlphanumericTokenizer IsNumber IsLetter).
  assert (Hcb : case_blind (ct_fns c)).
  { intros x Hx. unfold kept, chr. cbn. setoid_rewrite elem_of_list_singleton.
    assert (He : (IsNumber (bN x) || IsLetter (bN x)) =
                 (IsNumber (bN (ascii_lower x)) || IsLetter (bN (ascii_lower x)))).
    { rewrite ascii_lower_bN. destruct (_ && _) eqn:E; [|done]. apply Hcl. lia. }
    split; intros (fn & -> & Hfn); eexists; (split; [reflexivity|]); cbn in *; congruence. }
  assert (Ha' : ascii_text text').
  { unfold ascii_text, case_equal in *. clear -Ha Hce. revert Ha.
    induction Hce as [|a b u v Hab _ IH]; [done|]. rewrite !Forall_cons. intros [H1 H2]. split; [|auto].
    destruct Hab as [->|(n & Hn & Hab)]; [done|lia]. }
  rewrite !(lower_tokens ul c) by done. by rewrite (case_equal_lower text text').
Qed.
Print Assumptions C24_tokens_case_insensitive.

(** Hence queries equal up to case return the same on every index ... *)
Theorem C24_query_case_insensitive :
  forall IsNumber IsLetter ul filters ckn name reqs q q' (engine : Engine),
    caseless IsNumber IsLetter -> ascii_text q -> case_equal q q' ->
    let tk := NewTokenizationPipeline
                (ct_Tokenize (NewKeepAlphanumericTokenizer IsNumber IsLetter))
                (LowerCaseFilter ul :: filters) in
    mi_Search ckn (index_after name tk reqs) q engine =
    mi_Search ckn (index_after name tk reqs) q' engine.
Proof.
  intros IsNumber IsLetter ul filters ckn name reqs q q' engine Hcl Ha Hce tk.
  unfold mi_Search.
  rewrite (rep_tok tk reqs _ (rep_index_after name tk reqs)).
  unfold tk. by rewrite (C24_tokens_case_insensitive IsNumber IsLetter ul filters q q' Hcl Ha Hce).
Qed.
Print Assumptions C24_query_case_insensitive.

(** ... and statements equal up to case are indexed identically. *)
Theorem C24_document_case_insensitive :
  forall IsNumber IsLetter ul filters name reqs reqs',
    caseless IsNumber IsLetter ->
    Forall2 (fun r r' => req_Name r = req_Name r' /\ req_Content r = req_Content r' /\
               ascii_text (req_statement r) /\ case_equal (req_statement r) (req_statement r')) reqs reqs' ->
    let tk := NewTokenizationPipeline
                (ct_Tokenize (NewKeepAlphanumericTokenizer IsNumber IsLetter))
                (LowerCaseFilter ul :: filters) in
    index_after name tk reqs = index_after name tk reqs'.
Proof.
  intros IsNumber IsLetter ul filters name reqs reqs' Hcl HF tk. unfold index_after.
  assert (Hgen : forall mi, mi_tokenizer mi = tk -> fold_left Put reqs mi = fold_left Put reqs' mi);
    [|by apply Hgen].
  induction HF as [|r r' reqs reqs' (H1 & H2 & H3 & H4) _ IH]; intros mi Hmi; [done|]. cbn [fold_left].
  assert (Put mi r = Put mi r') as <-; [|by apply IH].
  unfold Put, req_ID, req_Raw, req_Statement. rewrite Hmi, H1, H2. unfold tk.
  by rewrite (C24_tokens_case_insensitive IsNumber IsLetter ul filters _ _ Hcl H3 H4).
Qed.
Print Assumptions C24_document_case_insensitive.

Example C24_example :
  caseless l1_IsNumber l1_IsLetter /\ ascii_text "Java WEB" /\ case_equal "Java WEB" "jAVA web" /\
  NewTokenizationPipeline (ct_Tokenize (NewKeepAlphanumericTokenizer l1_IsNumber l1_IsLetter))
    [LowerCaseFilter l1_ToLower] "jAVA web" = ["java"; "web"]%string.
Proof.
  split.
  { intros r Hr. unfold l1_IsNumber, l1_IsLetter, in_rng. lia. }
  split; [repeat constructor|]. split; [|vm_compute; done].
  unfold case_equal. cbn [list_ascii_of_string].
  repeat (apply Forall2_cons; split; [
    match goal with |- same_letters ?a ?b =>
      first [left; reflexivity
            | right; let n := eval vm_compute in (N.min (bN a) (bN b)) in exists n;
              split; [lia|first [left; split; reflexivity | right; split; reflexivity]]]
    end|]).
  constructor.
Qed.

(** ** C56 *)
(** A query consisting only of stop words and separators finds nothing, with
    either engine. *)
Theorem C56_stopword_query_finds_nothing :
  forall IsNumber IsLetter ul stem ckn srt name reqs q,
    sort_contract srt ->
    Forall (fun t => str_bytes (ToLower ul (bytes_str t)) ∈ SpanishStopWords)
           (ct_Tokenize (NewKeepAlphanumericTokenizer IsNumber IsLetter) q) ->
    let tk := readme_pipeline IsNumber IsLetter ul stem in
    mi_Search ckn (index_after name tk reqs) q LinearSearch = Ok [] /\
    mi_Search ckn (index_after name tk reqs) q (HitsSearch srt) = Ok [].
Proof.
  intros IsNumber IsLetter ul stem ckn srt name reqs q Hs HF tk.
  assert (Hq : tk q = []).
  { unfold tk. rewrite C20_readme_pipeline.
    replace (filter _ _) with (@nil string); [done|]. symmetry.
    apply elem_of_nil_inv. intros t Ht. apply elem_of_list_filter in Ht as [Hn Ht].
    apply elem_of_list_fmap in Ht as (u & -> & Hu). rewrite Forall_forall in HF. by apply Hn, HF. }
  rewrite C01_linear_search_exact, C03_hits_search_general, Hq. split; [done|].
  f_equal. replace (hits_rows tk reqs []) with (@nil SearchResult).
  - destruct (Hs []) as [HP _]. by apply Permutation_nil_r in HP.
  - symmetry. unfold hits_rows. by apply flat_map_nil.
Qed.
Print Assumptions C56_stopword_query_finds_nothing.

Example C56_example :
  Forall (fun t => str_bytes (ToLower l1_ToLower (bytes_str t)) ∈ SpanishStopWords)
    (ct_Tokenize (NewKeepAlphanumericTokenizer l1_IsNumber l1_IsLetter) "¿POR qué, el?").
Proof.
  assert (H : ct_Tokenize (NewKeepAlphanumericTokenizer l1_IsNumber l1_IsLetter) "¿POR qué, el?" =
    ["POR"; "qué"; "el"]%string) by (vm_compute; done).
  rewrite H. repeat constructor; apply (bool_decide_unpack _); vm_compute; exact I.
Qed.
