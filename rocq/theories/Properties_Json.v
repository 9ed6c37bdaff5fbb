(** * Properties C54, C55, C59 and C60: search results as JSON. *)
From stdpp Require Import prelude strings list.
From Verif Require Import Entities Utf8 SpecUtf8 ProofUtf8 Json SpecJson ProofJson.
Open Scope N_scope.
Open Scope list_scope.

(** [encoding/json.Valid] accepts every JSON value in which arrays and objects are
    nested at most 10000 deep (its [maxNestingDepth]); nothing else is needed of it
    here. *)
Definition max_depth : nat := Z.to_nat 10000.
Definition accepts_json (valid : bytes -> bool) : Prop :=
  forall j t, value j t -> (depth j <= max_depth)%nat -> valid t = true.

Lemma depth_member m x : x ∈ m -> (depth x.2 <= depth (JObj m))%nat.
Proof.
  cbn [depth]. induction 1 as [[k j] m|x [k j] m _ IH]; cbn [foldr snd]; lia.
Qed.

(** Go's [int] is a 64-bit integer. *)
Definition int64 (z : Z) : Prop := (- 2 ^ 63 <= z < 2 ^ 63)%Z.

(** [s] is the UTF-8 encoding of some characters. *)
Definition valid_utf8 (s : string) : Prop :=
  exists rs, Forall scalar rs /\ bytes_str s = concat (map utf8 rs).

(** [s'] is [s] with every byte that is not part of a character replaced by
    U+FFFD. *)
Definition repaired (s s' : string) : Prop :=
  exists l, chars (bytes_str s) l /\ bytes_str s' = concat (map (fun x => utf8 x.1) l).

Lemma bytes_str_inj s s' : bytes_str s = bytes_str s' -> s = s'.
Proof.
  intros H. rewrite <- (string_of_list_ascii_of_string s), <- (string_of_list_ascii_of_string s'). by f_equal.
Qed.

Lemma repaired_exists s : exists s', repaired s s'.
Proof.
  destruct (chars_total (bytes_str s)) as [l Hl].
  exists (str_bytes (concat (map (fun x => utf8 x.1) l))), l. split; [done|].
  by rewrite list_ascii_of_string_of_list_ascii.
Qed.

Lemma repaired_unique s s1 s2 : repaired s s1 -> repaired s s2 -> s1 = s2.
Proof.
  intros (l1 & H1 & E1) (l2 & H2 & E2). rewrite (chars_det _ _ _ H1 H2), <- E2 in E1. by apply bytes_str_inj.
Qed.

Lemma repaired_valid s : valid_utf8 s -> repaired s s.
Proof.
  intros (rs & Hrs & He).
  exists (map (fun r => (r, utf8 r)) rs). split.
  - rewrite He. pose proof (chars_valid_concat rs [] [] Hrs chars_nil) as H. by rewrite !app_nil_r in H.
  - rewrite He, map_map. done.
Qed.

(** A byte string is unchanged exactly if it is well formed. *)
Lemma repaired_self s : repaired s s <-> valid_utf8 s.
Proof.
  split; [|apply repaired_valid]. intros (l & Hl & He). exists (map fst l). split.
  - apply chars_ok in Hl. induction Hl as [|x l Hx _ IH] in s, He |- *; [constructor|].
    cbn [map]. constructor; [|by apply (IH (str_bytes (concat (map (fun x => utf8 x.1) l)))); rewrite list_ascii_of_string_of_list_ascii].
    destruct Hx as [[? _]|[-> _]]; [done|]. unfold scalar, RuneError. lia.
  - rewrite map_map. exact He.
Qed.

(** ** C54 *)
Definition result_json (n c : string) (hits : Z) : json :=
  JObj [(bytes_str "doc", JObj [(bytes_str "id", JStr (bytes_str n)); (bytes_str "raw", JStr (bytes_str c))]);
        (bytes_str "hits", JNum (Some hits))].

(** [MarshalJSON] writes a JSON text with the two fields. *)
Theorem C54_marshal_is_json (r : SearchResult) n c :
  int64 (sr_Hits r) ->
  repaired (doc_ID (sr_Document r)) n -> repaired (doc_Raw (sr_Document r)) c ->
  json_text (result_json n c (sr_Hits r)) (MarshalJSON r).
Proof.
  intros Hz (ln & Hn & En) (lc & Hc & Ec). unfold result_json. rewrite En, Ec.
  by apply MarshalJSON_text.
Qed.

(** Reading back what was written: whatever [valid] and whatever the previous
    value of the variable. *)
Theorem C54_round_trip valid (r v : SearchResult) n c :
  int64 (sr_Hits r) ->
  repaired (doc_ID (sr_Document r)) n -> repaired (doc_Raw (sr_Document r)) c ->
  UnmarshalJSON valid (MarshalJSON r) v = (MkSR (MkDoc n c) (sr_Hits r), false).
Proof.
  intros Hz Hn Hc. pose proof (C54_marshal_is_json r n c Hz Hn Hc) as Ht.
  pose proof (unmarshal_text valid _ _ v Ht) as H. unfold result_json in H.
  assert (Hd : decoded (result_json n c (sr_Hits r)) v = Some (MkSR (MkDoc n c) (sr_Hits r))).
  { unfold result_json. set (md := [(bytes_str "id", JStr (bytes_str n)); (bytes_str "raw", JStr (bytes_str c))]).
    set (m := [(bytes_str "doc", JObj md); (bytes_str "hits", JNum (Some (sr_Hits r)))]).
    cbn [decoded]. unfold result_value.
    assert (E1 : supplied (bytes_str "doc") m = [JObj md]) by reflexivity.
    assert (E2 : field as_int64 (bytes_str "hits") m (sr_Hits v) = Some (sr_Hits r)).
    { unfold field. assert (E : supplied (bytes_str "hits") m = [JNum (Some (sr_Hits r))]) by reflexivity.
      rewrite E. cbn [mapM as_int64]. rewrite decide_True by exact Hz. reflexivity. }
    assert (E3 : forall old, doc_value md old = Some (MkDoc n c)).
    { intros old. unfold doc_value, field.
      assert (E : supplied (bytes_str "id") md = [JStr (bytes_str n)]) by reflexivity.
      assert (E' : supplied (bytes_str "raw") md = [JStr (bytes_str c)]) by reflexivity.
      rewrite E, E'. cbn [mapM as_string mbind option_bind mret option_ret default last].
      by rewrite !string_of_list_ascii_of_string. }
    rewrite E1, E2. cbn [mapM as_object mbind option_bind mret option_ret foldl]. rewrite E3. done. }
  unfold result_json in Hd. rewrite Hd in H. apply H.
  assert (Hdoc : Forall (fun x => ok_doc valid x.1 x.2)
            [(bytes_str "id", JStr (bytes_str n)); (bytes_str "raw", JStr (bytes_str c))]).
  { apply Forall_cons_2; [right; by left|]. apply Forall_cons_2; [right; by right|done]. }
  apply Forall_cons_2; [right; by right|]. apply Forall_cons_2; [right; by left|done].
Qed.

(** In particular a result with well-formed strings is restored. *)
Theorem C54_round_trip_exact valid (r v : SearchResult) :
  int64 (sr_Hits r) -> valid_utf8 (doc_ID (sr_Document r)) -> valid_utf8 (doc_Raw (sr_Document r)) ->
  UnmarshalJSON valid (MarshalJSON r) v = (r, false).
Proof.
  intros Hz Hn Hc. destruct r as [[n c] z].
  by apply C54_round_trip; [|apply repaired_valid|apply repaired_valid].
Qed.

(** Two results are written alike exactly if they agree up to malformed bytes. *)
Theorem C54_same_text (r r' : SearchResult) n c n' c' :
  int64 (sr_Hits r) -> int64 (sr_Hits r') ->
  repaired (doc_ID (sr_Document r)) n -> repaired (doc_Raw (sr_Document r)) c ->
  repaired (doc_ID (sr_Document r')) n' -> repaired (doc_Raw (sr_Document r')) c' ->
  MarshalJSON r = MarshalJSON r' -> n = n' /\ c = c' /\ sr_Hits r = sr_Hits r'.
Proof.
  intros Hz Hz' Hn Hc Hn' Hc' He.
  pose proof (C54_round_trip (fun _ => true) r r n c Hz Hn Hc) as H.
  rewrite He, (C54_round_trip (fun _ => true) r' r n' c' Hz' Hn' Hc') in H. by injection H as -> -> ->.
Qed.

(** Malformed bytes are not restored. *)
Theorem C54_restores_everything_refuted :
  exists r v, int64 (sr_Hits r) /\ forall valid, exists r',
    UnmarshalJSON valid (MarshalJSON r) v = (r', false) /\ r' <> r.
Proof.
  exists (MkSR (MkDoc (String "255" "") "x") 1), (MkSR (MkDoc "" "") 0). split; [done|].
  intros valid. exists (MkSR (MkDoc (String "239" (String "191" (String "189" ""))) "x") 1).
  split; [|done]. vm_compute. reflexivity.
Qed.

Example C54_example :
  let name := (String "034" (String "010" (String "060" "año"))) in
  let r := MkSR (MkDoc name (String "226" (String "128" (String "168" (String "255" "z"))))) (-42) in
  let r' := MkSR (MkDoc name (String "226" (String "128" (String "168" (String "239" (String "191" (String "189" "z"))))))) (-42) in
  MarshalJSON r = bytes_str "{""doc"":{""id"":""\""\n\u003caño"",""raw"":""\u2028\ufffdz""},""hits"":-42}" /\
  UnmarshalJSON (fun _ => true) (MarshalJSON r) (MkSR (MkDoc "p" "q") 7) = (r', false) /\
  valid_utf8 name.
Proof.
  cbv zeta. split; [vm_compute; reflexivity|]. split; [vm_compute; reflexivity|].
  exists [34; 10; 60; 97; 241; 111]. split; [|vm_compute; reflexivity].
  repeat constructor; unfold scalar; lia.
Qed.

(** ** C55 *)

(** Reading any JSON text (any white space, escapes, member order): the result
    is the one described by [decoded] in SpecJson.v, and there is an error
    exactly if a supplied field has the wrong type. *)
Theorem C55_unmarshal valid j t v :
  accepts_json valid -> (depth j <= max_depth)%nat -> json_text j t ->
  match decoded j v with
  | Some v' => UnmarshalJSON valid t v = (v', false)
  | None => exists v', UnmarshalJSON valid t v = (v', true)
  end.
Proof.
  intros Hv Hdp Ht. apply unmarshal_text; [done|]. destruct j as [| | | | |m]; try done.
  assert (Hm : forall j m, (depth (JObj m) <= max_depth)%nat -> forall k, (k, j) ∈ m ->
            (depth j <= max_depth)%nat /\ forall t, value j t -> valid t = true).
  { intros j' m' Hd k Hk. apply depth_member in Hk. cbn [snd] in Hk.
    split; [lia|]. intros t' Ht'. apply (Hv j'); [done|lia]. }
  apply Forall_forall. intros [k j] Hk. cbn [fst snd].
  destruct (Hm _ _ Hdp _ Hk) as [Hj Hval].
  destruct (decide (k = key_doc)) as [->|Hne]; [|by left].
  right. right. split; [done|]. destruct j as [| | | | |m']; try done.
  apply Forall_forall. intros [k' j'] Hk'. left. by eapply Hm.
Qed.

(** Members other than [doc] and [hits], and null members, have no influence,
    nor has the place of [hits] among the [doc] members. *)
Theorem C55_only_known_fields valid m m' t t' v :
  accepts_json valid -> json_text (JObj m) t -> json_text (JObj m') t' ->
  (depth (JObj m) <= max_depth)%nat -> (depth (JObj m') <= max_depth)%nat ->
  supplied (bytes_str "doc") m = supplied (bytes_str "doc") m' ->
  supplied (bytes_str "hits") m = supplied (bytes_str "hits") m' ->
  (UnmarshalJSON valid t v).2 = (UnmarshalJSON valid t' v).2 /\
  ((UnmarshalJSON valid t v).2 = false -> UnmarshalJSON valid t v = UnmarshalJSON valid t' v).
Proof.
  intros Hv Ht Ht' Hdp Hdp' Hd Hh.
  pose proof (C55_unmarshal valid _ t v Hv Hdp Ht) as H. pose proof (C55_unmarshal valid _ t' v Hv Hdp' Ht') as H'.
  assert (He : decoded (JObj m) v = decoded (JObj m') v).
  { cbn [decoded]. unfold result_value, field. by rewrite Hd, Hh. }
  rewrite He in H. destruct (decoded (JObj m') v) as [v'|].
  - by rewrite H, H'.
  - destruct H as [v1 ->], H' as [v2 ->]. done.
Qed.

(** The values of the fields afterwards. *)
Theorem C55_fields valid m t v v' :
  accepts_json valid -> (depth (JObj m) <= max_depth)%nat -> json_text (JObj m) t ->
  UnmarshalJSON valid t v = (v', false) ->
  (** hits: the last value given, else the old one *)
  (forall z, last (supplied (bytes_str "hits") m) = Some (JNum (Some z)) -> sr_Hits v' = z) /\
  (supplied (bytes_str "hits") m = [] -> sr_Hits v' = sr_Hits v) /\
  (** doc: unchanged if absent *)
  (supplied (bytes_str "doc") m = [] -> sr_Document v' = sr_Document v) /\
  (** doc given once: its fields likewise *)
  (forall md, supplied (bytes_str "doc") m = [JObj md] ->
     (forall s, last (supplied (bytes_str "id") md) = Some (JStr s) -> doc_ID (sr_Document v') = str_bytes s) /\
     (supplied (bytes_str "id") md = [] -> doc_ID (sr_Document v') = doc_ID (sr_Document v)) /\
     (forall s, last (supplied (bytes_str "raw") md) = Some (JStr s) -> doc_Raw (sr_Document v') = str_bytes s) /\
     (supplied (bytes_str "raw") md = [] -> doc_Raw (sr_Document v') = doc_Raw (sr_Document v))).
Proof.
  intros Hv Hdp Ht Hu. pose proof (C55_unmarshal valid _ t v Hv Hdp Ht) as H.
  assert (Hlast : forall {A} (f : json -> option A) n m old a j b, field f n m old = Some a ->
            last (supplied n m) = Some j -> f j = Some b -> a = b).
  { intros A f n mm old a j b Hf Hl Hj. unfold field in Hf.
    destruct (mapM f (supplied n mm)) as [vs|] eqn:Em; [|done]. cbn in Hf. injection Hf as <-.
    apply mapM_Some in Em. rewrite last_lookup in Hl.
    destruct (Forall2_lookup_l _ _ _ _ _ Em Hl) as (b' & Hb' & He). rewrite Hj in He. injection He as <-.
    rewrite last_lookup, <- (Forall2_length _ _ _ Em), Hb'. done. }
  assert (Hnone : forall {A} (f : json -> option A) n m old a, field f n m old = Some a -> supplied n m = [] -> a = old).
  { intros A f n mm old a Hf Hs. unfold field in Hf. rewrite Hs in Hf. cbn in Hf. by injection Hf as <-. }
  destruct (decoded (JObj m) v) as [v1|] eqn:Hd; [|destruct H as [v1 H]; congruence].
  rewrite Hu in H. injection H as <-. cbn [decoded] in Hd. unfold result_value in Hd.
  destruct (mapM as_object (supplied (bytes_str "doc") m)) as [docs|] eqn:Edocs; [|done].
  cbn [mbind option_bind] in Hd.
  destruct (foldl _ _ docs) as [doc|] eqn:Edoc; [|done]. cbn [mbind option_bind] in Hd.
  destruct (field as_int64 (bytes_str "hits") m (sr_Hits v)) as [hits|] eqn:Ehits; [|done].
  cbn [mbind option_bind] in Hd. injection Hd as <-. cbn [sr_Hits sr_Document].
  split; [|split; [|split]].
  - intros z Hz. 
    assert (Hi : as_int64 (JNum (Some z)) = Some z \/ as_int64 (JNum (Some z)) = None) by (cbn; case_decide; eauto).
    destruct Hi as [Hi|Hi]; [by eapply Hlast|]. exfalso.
    unfold field in Ehits. destruct (mapM as_int64 _) as [vs|] eqn:Em; [|done].
    apply mapM_Some in Em. rewrite last_lookup in Hz.
    destruct (Forall2_lookup_l _ _ _ _ _ Em Hz) as (b' & _ & He). congruence.
  - intros Hs; exact (Hnone _ _ _ _ _ _ Ehits Hs).
  - intros Hs. rewrite Hs in Edocs. cbn in Edocs. injection Edocs as <-. cbn in Edoc. by injection Edoc as <-.
  - intros md Hs. rewrite Hs in Edocs. cbn in Edocs. injection Edocs as <-. cbn [foldl mbind option_bind] in Edoc.
    unfold doc_value in Edoc.
    destruct (field as_string (bytes_str "id") md _) as [id|] eqn:Eid; [|done]. cbn [mbind option_bind] in Edoc.
    destruct (field as_string (bytes_str "raw") md _) as [raw|] eqn:Eraw; [|done]. cbn [mbind option_bind] in Edoc.
    injection Edoc as <-. unfold doc_ID, doc_Raw. cbn [doc_Name doc_Content].
    repeat split; intros; first [by eapply Hlast|by eapply Hnone].
Qed.

(** The reader also accepts texts that are not JSON. *)
Lemma json_no_control :
  (forall j t, value j t -> Forall (fun c => space c \/ 0x20 <= bN c) t) /\
  (forall j t, json_text j t -> Forall (fun c => space c \/ 0x20 <= bN c) t).
Proof.
  set (P := fun t => Forall (fun c => space c \/ 0x20 <= bN c) t).
  assert (Hsp : forall w, spaces w -> P w).
  { intros w H. eapply Forall_impl; [exact H|]. by left. }
  assert (Happ : forall a b, P a -> P b -> P (a ++ b)) by (intros; by apply Forall_app).
  assert (Hone : forall c, 0x20 <= bN c -> P [c]) by (intros; apply Forall_cons_2; [by right|apply Forall_nil_2]).
  assert (Hdig : forall ds, Forall digit ds -> P ds).
  { intros ds H. eapply Forall_impl; [exact H|]. intros c Hc. right. unfold digit in Hc. lia. }
  assert (Hint : forall z t, int_text z t -> P t).
  { assert (Hnat : forall n t, nat_text n t -> P t).
    { intros n t Hn. apply nat_text_shape in Hn as (c & ds & -> & Hc & Hds & _). apply Hdig. by constructor. }
    intros z t [n t' Hn|n t' Hn]; [by eapply Hnat|].
    change ("-"%char :: t') with (["-"%char] ++ t'). apply Happ; [by apply Hone|by eapply Hnat]. }
  assert (Hfrac : forall t, frac_text t -> P t).
  { intros t (ds & [_ Hds] & ->). change ("."%char :: ds) with (["."%char] ++ ds). apply Happ; [by apply Hone|auto]. }
  assert (Hexp : forall t, exp_text t -> P t).
  { intros t (e & sg & ds & He & Hs & [_ Hds] & ->). change (e :: sg ++ ds) with ([e] ++ sg ++ ds).
    apply Happ; [|apply Happ; [|auto]].
    - apply Hone. apply elem_of_list_In in He. destruct He as [<-|[<-|[]]]; done.
    - apply elem_of_list_In in Hs. destruct Hs as [<-|[<-|[<-|[]]]]; [constructor|by apply Hone|by apply Hone]. }
  assert (Hpiece : forall p t, piece_text p t -> P t).
  { intros p t Hp. assert (Hhex : forall a v, (a, v) ∈ hex_digits -> 0x20 <= bN a).
    { intros a v H. apply elem_of_list_In in H. cbn [hex_digits In] in H.
      repeat (destruct H as [[= <- <-]|H]; [done|]). done. }
    destruct Hp as [b Hb _ _|e n He|a1 a2 a3 a4 v1 v2 v3 v4 H1 H2 H3 H4].
    - by apply Hone.
    - apply Forall_cons_2; [by right|]. apply Hone. apply elem_of_list_In in He. cbn [simple_escapes In] in He.
      repeat (destruct He as [[= <- <-]|He]; [done|]). done.
    - repeat (apply Forall_cons_2; [right; first [done|by eapply Hhex]|]). apply Forall_nil_2. }
  assert (Hstr : forall s t, string_text s t -> P t).
  { intros s t [ps t' Hp]. apply Happ; [by apply Hone|]. apply Happ; [|by apply Hone].
    induction Hp; [constructor|]. apply Happ; [by eapply Hpiece|done]. }
  assert (Hval : forall j t, value j t -> P t).
  { apply (value_mind (fun _ t => P t) (fun _ t => P t) (fun _ t => P t)); intros;
      repeat match goal with |- P (_ ++ _) => apply Happ end; eauto;
      repeat (apply Forall_cons_2; [by right|]); apply Forall_nil_2. }
  split; [exact Hval|]. intros j t [w1 j' t' w2 H1 H H2]. apply Happ; [auto|]. apply Happ; [eauto|auto].
Qed.

Theorem C55_accepts_only_json_refuted :
  exists t v v', (forall valid, UnmarshalJSON valid t v = (v', false)) /\ forall j, ~ json_text j t.
Proof.
  exists (bytes_str "{""doc"":{""id"":""" ++ ["001"%char] ++ bytes_str """}}"), (MkSR (MkDoc "" "") 0),
    (MkSR (MkDoc (String "001" "") "") 0).
  split; [intros valid; vm_compute; reflexivity|].
  intros j H. apply json_no_control in H. rewrite Forall_forall in H.
  destruct (H "001"%char) as [Hs|Hs]; [set_solver| |done].
  revert Hs. apply (bool_decide_unpack _). vm_compute. exact I.
Qed.

(** A text with white space, escapes, a surrogate pair, unknown members holding
    brackets in strings, a null, a repeated field and a second [doc]. *)
Definition example_text : bytes := bytes_str
  "{ ""x"" : [1, {""y"": ""}]\""""}], ""doc"":{""id"":""a"",""\u0072aw"":""\ud83d\ude00"",""id"":null} ,
    ""hits"":1,""doc"":{""id"":""b""},""hits"":-7 } ".
Example C55_example :
  exists j, json_text j example_text /\
    decoded j (MkSR (MkDoc "old" "old") 0) = Some (MkSR (MkDoc "b" "😀") (-7)) /\
    UnmarshalJSON (fun _ => true) example_text (MkSR (MkDoc "old" "old") 0) = (MkSR (MkDoc "b" "😀") (-7), false) /\
    (UnmarshalJSON (fun _ => true) (bytes_str "{""hits"":9223372036854775808}") (MkSR (MkDoc "" "") 0)).2 = true.
Proof.
  exists (JObj [(bytes_str "x", JArr [JNum (Some 1%Z); JObj [(bytes_str "y", JStr (bytes_str "}]"""))]]);
                (bytes_str "doc", JObj [(bytes_str "id", JStr (bytes_str "a")); (bytes_str "raw", JStr (bytes_str "😀"));
                                        (bytes_str "id", JNull)]);
                (bytes_str "hits", JNum (Some 1%Z));
                (bytes_str "doc", JObj [(bytes_str "id", JStr (bytes_str "b"))]);
                (bytes_str "hits", JNum (Some (-7)%Z))]).
  split; [|split; [|split]]; [|vm_compute; reflexivity..].
  assert (Hraw : forall ps ts b, pieces_text ps ts -> 0x20 <= bN b -> b <> """"%char -> b <> "\"%char ->
                   pieces_text (PByte b :: ps) (b :: ts)).
  { intros ps ts b H H1 H2 H3. apply (pieces_cons (PByte b) [b]); [by apply text_raw|done]. }
  assert (Hesc : forall ps ts e n, pieces_text ps ts -> (e, n) ∈ simple_escapes ->
                   pieces_text (PByte (Nb n) :: ps) ("\"%char :: e :: ts)).
  { intros ps ts e n H He. apply (pieces_cons _ ["\"%char; e]); [by apply text_escape|done]. }
  assert (Hunit : forall ps ts a1 a2 a3 a4 v1 v2 v3 v4, pieces_text ps ts ->
     (a1, v1) ∈ hex_digits -> (a2, v2) ∈ hex_digits -> (a3, v3) ∈ hex_digits -> (a4, v4) ∈ hex_digits ->
     pieces_text (PUnit (v1 * 4096 + v2 * 256 + v3 * 16 + v4) :: ps) ("\"%char :: "u"%char :: a1 :: a2 :: a3 :: a4 :: ts)).
  { intros ps ts a1 a2 a3 a4 v1 v2 v3 v4 H H1 H2 H3 H4.
    apply (pieces_cons _ ["\"%char; "u"%char; a1; a2; a3; a4]); [by apply text_unit|done]. }
  assert (Hplain : forall k, forallb (fun b => (0x20 <=? bN b) && negb (b =c """") && negb (b =c "\")) k = true ->
                     string_text k (""""%char :: k ++ [""""%char])).
  { intros k Hk. replace k with (pieces_val (map PByte k)) at 1.
    - apply string_quoted. induction k as [|b k IH]; [constructor|]. cbn [forallb] in Hk.
      apply andb_prop in Hk as [Hb Hk]. apply andb_prop in Hb as [Hb H3]. apply andb_prop in Hb as [H1 H2].
      cbn [map]. apply Hraw; [by apply IH|by apply N.leb_le|..].
      + apply negb_true_iff, Ascii.eqb_neq in H2. done.
      + apply negb_true_iff, Ascii.eqb_neq in H3. done.
    - clear. induction k as [|b k IH]; [done|]. cbn [map pieces_val]. by rewrite IH. }
  assert (Hs : forall w, forallb is_ws w = true -> spaces w).
  { intros w H. rewrite forallb_forall in H. unfold spaces. apply Forall_forall. intros c Hc.
    apply elem_of_list_In, H in Hc. revert Hc. clear. exhaust c. }
  assert (Hn : forall c n, digit c -> n = bN c - 48 -> c <> "0"%char -> nat_text n [c]).
  { intros c n Hc -> Hz. replace (bN c - 48) with (decimal [c]); [by apply nat_digits|].
    unfold decimal. cbn [fold_left]. lia. }
  assert (H1 : value (JNum (Some 1%Z)) ["1"%char]).
  { apply v_int. apply (int_pos 1). apply Hn; [unfold digit|..]; done. }
  assert (H7 : value (JNum (Some (-7)%Z)) ["-"; "7"]%char).
  { apply v_int. apply (int_neg 7). apply Hn; [unfold digit|..]; done. }
  assert (Hy : value (JObj [(bytes_str "y", JStr (bytes_str "}]"""))]) (bytes_str "{""y"": ""}]\""""}")).
  { apply (v_object _ (bytes_str """y"": ""}]\""""")).
    apply (m_one [] (bytes_str "y") (bytes_str """y""") [] [" "%char] _ (bytes_str """}]\""""") []);
      [by apply Hs|by apply Hplain|by apply Hs|by apply Hs| |by apply Hs].
    apply v_string. apply (string_quoted [PByte "}"; PByte "]"; PByte (Nb 34)] (bytes_str "}]\""")).
    apply Hraw; [|done..]. apply Hraw; [|done..]. apply Hesc; [constructor|]. left. }
  assert (Hx : value (JArr [JNum (Some 1%Z); JObj [(bytes_str "y", JStr (bytes_str "}]"""))]])
                 (bytes_str "[1, {""y"": ""}]\""""}]")).
  { apply (v_array _ (bytes_str "1, {""y"": ""}]\""""}")).
    apply (e_more [] _ ["1"%char] [] _ (bytes_str " {""y"": ""}]\""""}")); [by apply Hs|done|by apply Hs|].
    apply (e_one [" "%char] _ (bytes_str "{""y"": ""}]\""""}") []); [by apply Hs|done|by apply Hs]. }
  assert (Hraw' : string_text (bytes_str "raw") (bytes_str """\u0072aw""")).
  { apply (string_quoted [PUnit (0 * 4096 + 0 * 256 + 7 * 16 + 2); PByte "a"; PByte "w"] (bytes_str "\u0072aw")).
    apply Hunit; [|by apply (bool_decide_unpack _)..].
    apply Hraw; [|done..]. apply Hraw; [constructor|done..]. }
  assert (Hsmile : string_text (bytes_str "😀") (bytes_str """\ud83d\ude00""")).
  { apply (string_quoted [PUnit (13 * 4096 + 8 * 256 + 3 * 16 + 13); PUnit (13 * 4096 + 14 * 256 + 0 * 16 + 0)]
             (bytes_str "\ud83d\ude00")).
    apply Hunit; [|by apply (bool_decide_unpack _)..]. apply Hunit; [constructor|by apply (bool_decide_unpack _)..]. }
  assert (Hd1 : value (JObj [(bytes_str "id", JStr (bytes_str "a")); (bytes_str "raw", JStr (bytes_str "😀"));
                             (bytes_str "id", JNull)])
                  (bytes_str "{""id"":""a"",""\u0072aw"":""\ud83d\ude00"",""id"":null}")).
  { apply (v_object _ (bytes_str """id"":""a"",""\u0072aw"":""\ud83d\ude00"",""id"":null")).
    apply (m_more [] _ (bytes_str """id""") [] [] _ (bytes_str """a""") [] _
             (bytes_str """\u0072aw"":""\ud83d\ude00"",""id"":null"));
      [by apply Hs|by apply Hplain|by apply Hs|by apply Hs|by apply v_string, Hplain|by apply Hs|].
    apply (m_more [] _ (bytes_str """\u0072aw""") [] [] _ (bytes_str """\ud83d\ude00""") [] _ (bytes_str """id"":null"));
      [by apply Hs|done|by apply Hs|by apply Hs|by apply v_string|by apply Hs|].
    apply (m_one [] _ (bytes_str """id""") [] [] _ (bytes_str "null") []);
      [by apply Hs|by apply Hplain|by apply Hs|by apply Hs|constructor|by apply Hs]. }
  assert (Hd2 : value (JObj [(bytes_str "id", JStr (bytes_str "b"))]) (bytes_str "{""id"":""b""}")).
  { apply (v_object _ (bytes_str """id"":""b""")).
    apply (m_one [] _ (bytes_str """id""") [] [] _ (bytes_str """b""") []);
      [by apply Hs|by apply Hplain|by apply Hs|by apply Hs|by apply v_string, Hplain|by apply Hs]. }
  set (nl := "010"%char).
  set (t5 := bytes_str """hits"":-7 ").
  set (t4 := bytes_str """doc"":{""id"":""b""}," ++ t5).
  set (t3 := nl :: bytes_str "    ""hits"":1," ++ t4).
  set (t2 := bytes_str " ""doc"":{""id"":""a"",""\u0072aw"":""\ud83d\ude00"",""id"":null} ," ++ t3).
  assert (M5 : members [(bytes_str "hits", JNum (Some (-7)%Z))] t5).
  { apply (m_one [] _ (bytes_str """hits""") [] [] _ (bytes_str "-7") [" "%char]);
      [by apply Hs|by apply Hplain|by apply Hs|by apply Hs|done|by apply Hs]. }
  assert (M4 : members [(bytes_str "doc", JObj [(bytes_str "id", JStr (bytes_str "b"))]);
                        (bytes_str "hits", JNum (Some (-7)%Z))] t4).
  { apply (m_more [] _ (bytes_str """doc""") [] [] _ (bytes_str "{""id"":""b""}") []);
      [by apply Hs|by apply Hplain|by apply Hs|by apply Hs|done|by apply Hs|done]. }
  eassert (M3 : members ((bytes_str "hits", JNum (Some 1%Z)) :: _) t3).
  { apply (m_more (nl :: bytes_str "    ") _ (bytes_str """hits""") [] [] _ (bytes_str "1") []);
      [by apply Hs|by apply Hplain|by apply Hs|by apply Hs|done|by apply Hs|exact M4]. }
  eassert (M2 : members ((bytes_str "doc", _) :: _) t2).
  { apply (m_more [" "%char] _ (bytes_str """doc""") [] [] _
      (bytes_str "{""id"":""a"",""\u0072aw"":""\ud83d\ude00"",""id"":null}") [" "%char]);
      [by apply Hs|by apply Hplain|by apply Hs|by apply Hs|exact Hd1|by apply Hs|exact M3]. }
  apply (json_value [] _ (["{"%char] ++ (bytes_str " ""x"" : [1, {""y"": ""}]\""""}]," ++ t2) ++ ["}"%char]) [" "%char]);
    [by apply Hs| |by apply Hs].
  apply v_object.
  apply (m_more [" "%char] _ (bytes_str """x""") [" "%char] [" "%char] _ (bytes_str "[1, {""y"": ""}]\""""}]") []);
    [by apply Hs|by apply Hplain|by apply Hs|by apply Hs|exact Hx|by apply Hs|exact M2].
Qed.

(** ** C59 *)

(** A character that may stand on one line inside an HTML document, a script
    element or a JavaScript string: no control character, none of the
    characters markup starts or ends with, no JavaScript line end. *)
Definition harmless (r : N) : Prop :=
  scalar r /\ 0x20 <= r /\ r ∉ [38 (* & *); 60 (* < *); 62 (* > *); 0x2028; 0x2029].
Definition harmless_text (t : bytes) : Prop :=
  exists rs, t = concat (map utf8 rs) /\ Forall harmless rs.

Lemma harmless_app t t' : harmless_text t -> harmless_text t' -> harmless_text (t ++ t').
Proof.
  intros (rs & -> & H) (rs' & -> & H'). exists (rs ++ rs').
  split; [by rewrite map_app, concat_app|by apply Forall_app].
Qed.

Lemma harmless_ascii t :
  Forall (fun c => 0x20 <= bN c < 0x80 /\ bN c ∉ [38; 60; 62]) t -> harmless_text t.
Proof.
  induction 1 as [|c t [Hr Hc] _ IH]; [exists []; split; [done|constructor]|].
  change (c :: t) with ([c] ++ t). apply harmless_app; [|done].
  exists [bN c]. split.
  - cbn [map concat]. unfold utf8. rewrite (proj2 (N.ltb_lt (bN c) 0x80)) by lia. cbn [map app]. by rewrite Nb_bN.
  - apply Forall_cons_2; [|by apply Forall_nil_2]. unfold harmless, scalar.
    rewrite !not_elem_of_cons in *. split; [lia|]. split; [lia|]. repeat split; try tauto; try lia.
Qed.

Definition plainb (c : ascii) : bool :=
  (0x20 <=? bN c) && (bN c <? 0x80) && negb (bN c =? 38) && negb (bN c =? 60) && negb (bN c =? 62).
Lemma harmless_plain t : forallb plainb t = true -> harmless_text t.
Proof.
  intros H. apply harmless_ascii. apply Forall_forall. intros c Hc.
  rewrite forallb_forall in H. apply elem_of_list_In, H in Hc. revert Hc. clear.
  unfold plainb. rewrite !andb_true_iff, !negb_true_iff, !N.eqb_neq, N.leb_le, N.ltb_lt. set_solver.
Qed.

Lemma plain_escape c :
  implb (bN c <? 0x80) (forallb plainb (if no_escape (bN c) then [c] else escape (bN c))) = true.
Proof.
  revert c.
  refine (ascii_all (fun c => implb (bN c <? 0x80) (forallb plainb (if no_escape (bN c) then [c] else escape (bN c)))) _).
  vm_compute. reflexivity.
Qed.

Lemma harmless_char x : char_ok x -> harmless_text (esc_char x).
Proof.
  destruct x as [r bs]. intros [[Hr Hbs]|[Hr Hl]]; cbn [fst snd] in *.
  - subst bs. unfold esc_char. destruct (N.ltb_spec r 0x80) as [Hlt|Hge].
    + assert (Hu : utf8 r = [Nb r]).
      { unfold utf8. by rewrite (proj2 (N.ltb_lt r 0x80)). }
      rewrite Hu. rewrite <- (bN_Nb r) in Hlt |- * by lia. rewrite Nb_bN. apply harmless_plain.
      apply N.ltb_lt in Hlt. pose proof (plain_escape (Nb r)) as H. by rewrite Hlt in H.
    + destruct ((r =? RuneError) && _); [by apply harmless_plain|].
      destruct (N.eqb_spec r 0x2028) as [->|H1]; [by apply harmless_plain|].
      destruct (N.eqb_spec r 0x2029) as [->|H2]; [by apply harmless_plain|]. cbn [orb].
      exists [r]. split; [cbn [map concat]; by rewrite app_nil_r|].
      apply Forall_cons_2; [|by apply Forall_nil_2]. split; [done|]. split; [lia|].
      rewrite !not_elem_of_cons. repeat split; try lia. apply not_elem_of_nil.
  - subst r. unfold esc_char. rewrite Hl. by apply harmless_plain.
Qed.

Lemma harmless_string s : harmless_text (w_String s).
Proof.
  destruct (chars_total s) as [l Hl]. unfold w_String. rewrite (write_chars s l Hl) by done. cbn [app].
  change (""""%char :: ?t) with ([""""%char] ++ t).
  apply harmless_app; [by apply harmless_plain|]. apply harmless_app; [|by apply harmless_plain].
  apply chars_ok in Hl. induction Hl as [|x l Hx _ IH]; [by apply harmless_plain|].
  cbn [map concat]. apply harmless_app; [by apply harmless_char|done].
Qed.

Lemma harmless_digits fuel u acc : forallb plainb acc = true -> forallb plainb (digits_loop fuel u acc) = true.
Proof.
  revert u acc. induction fuel as [|fuel IH]; intros u acc H; [done|]. cbn [digits_loop].
  assert (H' : forallb plainb (Nb (48 + u mod 10) :: acc) = true).
  { cbn [forallb]. rewrite H, andb_true_r. pose proof (N.mod_lt u 10 ltac:(done)) as Hm.
    unfold plainb. rewrite bN_Nb by lia.
    rewrite !andb_true_iff, !negb_true_iff, !N.eqb_neq, N.leb_le, N.ltb_lt. lia. }
  destruct (u <? 10); [done|]. by apply IH.
Qed.

(** Whatever the document's strings contain, malformed UTF-8 included. *)
Theorem C59_harmless (r : SearchResult) : harmless_text (MarshalJSON r).
Proof.
  unfold MarshalJSON, encode_result, encode_doc.
  repeat match goal with |- harmless_text (_ ++ _) => apply harmless_app end; try (by apply harmless_plain); try apply harmless_string.
  apply harmless_plain. unfold AppendInt. destruct (sr_Hits r <? 0)%Z; [|by apply harmless_digits].
  change (plainb "-" && forallb plainb (digits_loop 20 (Z.to_N (- sr_Hits r)) []) = true).
  by rewrite harmless_digits.
Qed.

(** In terms of bytes. *)
Theorem C59_no_markup (r : SearchResult) c :
  c ∈ MarshalJSON r -> 0x20 <= bN c /\ c <> "<"%char /\ c <> ">"%char /\ c <> "&"%char.
Proof.
  destruct (C59_harmless r) as (rs & -> & H). intros Hc.
  induction H as [|x rs (Hs & Hx & Hm) _ IH]; [by apply elem_of_nil in Hc|].
  cbn [map concat] in Hc. apply elem_of_app in Hc as [Hc|Hc]; [|by apply IH].
  rewrite !not_elem_of_cons in Hm. unfold scalar in Hs.
  destruct (N.ltb_spec x 0x80) as [Hlt|Hge].
  - unfold utf8 in Hc. rewrite (proj2 (N.ltb_lt x 0x80)) in Hc by done. cbn [map] in Hc.
    apply elem_of_list_singleton in Hc as ->. rewrite bN_Nb by lia. split; [done|].
    repeat split; intros He; apply (f_equal bN) in He; rewrite bN_Nb in He by lia; vm_compute in He; tauto.
  - assert (Hb : 0x80 <= bN c).
    { unfold utf8 in Hc. rewrite (proj2 (N.ltb_ge x 0x80)) in Hc by done.
      destruct (N.ltb_spec x 0x800); [|destruct (N.ltb_spec x 0x10000)]; cbn [map] in Hc;
        repeat (apply elem_of_cons in Hc as [->|Hc]; [rewrite bN_Nb; lia|]); by apply elem_of_nil in Hc. }
    split; [lia|]. repeat split; intros ->; by vm_compute in Hb.
Qed.

Example C59_example :
  MarshalJSON (MkSR (MkDoc "</script>" (String "010" (String "255" "&"))) 0) =
    bytes_str "{""doc"":{""id"":""\u003c/script\u003e"",""raw"":""\n\ufffd\u0026""},""hits"":0}".
Proof. vm_compute. reflexivity. Qed.

(** ** C60 *)

(** Reading any byte string ends: the number of iterations of the reader's two
    loops that are followed in the model, [S (length data)], is never used up,
    since with any larger number the outcome is the same. *)
Theorem C60_terminates valid data v fuel :
  (length data < fuel)%nat ->
  UnmarshalJSON valid data v =
    (let '(r, v') := decode_result valid fuel (NewLexer data) v in (v', lx_err r)).
Proof.
  intros H. unfold UnmarshalJSON.
  by rewrite (decode_result_fuel valid (S (length data)) fuel) by (unfold left; cbn; lia).
Qed.

(** Nor does writing depend on its bound. *)
Theorem C60_writing_terminates s fuel :
  (length s <= fuel)%nat -> w_String s = [""""%char] ++ write_loop fuel [] [] s ++ [""""%char].
Proof.
  intros H. destruct (chars_total s) as [l Hl]. unfold w_String. by rewrite !(write_chars s l Hl).
Qed.

(** An unfinished text: the reader stops with an error, having read two fields. *)
Example C60_example :
  UnmarshalJSON (fun _ => false) (bytes_str "{""hits"":3,""doc"":{""id"":""a"",""raw""") (MkSR (MkDoc "" "") 0)
    = (MkSR (MkDoc "a" "") 3, true) /\
  decode_result (fun _ => false) 2 (NewLexer (bytes_str "{""hits"":3,""doc"":{}}")) (MkSR (MkDoc "" "") 0)
    <> decode_result (fun _ => false) 3 (NewLexer (bytes_str "{""hits"":3,""doc"":{}}")) (MkSR (MkDoc "" "") 0).
Proof. split; vm_compute; [reflexivity|discriminate]. Qed.

Print Assumptions C54_marshal_is_json.
Print Assumptions C54_round_trip.
Print Assumptions C54_round_trip_exact.
Print Assumptions C54_same_text.
Print Assumptions C54_restores_everything_refuted.
Print Assumptions C55_unmarshal.
Print Assumptions C55_only_known_fields.
Print Assumptions C55_fields.
Print Assumptions C55_accepts_only_json_refuted.
Print Assumptions C59_harmless.
Print Assumptions C59_no_markup.
Print Assumptions C60_terminates.
Print Assumptions C60_writing_terminates.
