(** * Proofs about the JSON reader and writer: the lexer on JSON texts, the
    decoders, and the text produced by the encoders. *)
From stdpp Require Import prelude strings list.
From Verif Require Import Entities Utf8 SpecUtf8 ProofUtf8 Json SpecJson SpecAccept.
Open Scope N_scope.
Open Scope list_scope.

(** ** Characters, by exhaustion *)
Definition all_ascii : list ascii := map ascii_of_nat (seq 0 256).
Lemma ascii_all (P : ascii -> bool) : forallb P all_ascii = true -> forall c, P c = true.
Proof.
  intros H c. rewrite forallb_forall in H. apply H. unfold all_ascii.
  rewrite in_map_iff. exists (nat_of_ascii c). split; [apply ascii_nat_embedding|].
  apply in_seq. pose proof (nat_ascii_bounded c). lia.
Qed.
Ltac exhaust c :=
  revert c;
  match goal with
  | |- forall c : ascii, @?P c =>
      refine (fun c => bool_decide_unpack (P c) _);
      apply Is_true_true_2; revert c; refine (ascii_all (fun c => bool_decide (P c)) _); vm_compute; reflexivity
  end.

Definition special (c : ascii) : bool :=
  (c =c """") || (c =c "\") || (c =c "{") || (c =c "}") || (c =c "[") || (c =c "]").

Lemma special_eq c x : special x = true -> special c = false -> (c =c x) = false.
Proof. intros Hx Hc. apply Ascii.eqb_neq. intros ->. congruence. Qed.

Global Instance digit_dec c : Decision (digit c).
Proof. unfold digit. apply _. Defined.
Global Instance space_dec c : Decision (space c).
Proof. unfold space. apply _. Defined.

Lemma digit_facts c :
  digit c -> in_rng 48 57 (bN c) = true /\ special c = false /\ is_ws c = false /\
             (c =c ":") = false /\ (c =c ",") = false /\ (c =c "-") = false /\ (c =c "+") = false.
Proof. exhaust c. Qed.

Lemma space_facts c :
  space c -> is_ws c = true /\ special c = false /\ (c =c ":") = false /\ (c =c ",") = false /\ isTokenEnd c = true.
Proof. exhaust c. Qed.

Lemma token_end_not_number c :
  isTokenEnd c = true ->
  in_rng 48 57 (bN c) = false /\ (c =c ".") = false /\ (c =c "e") = false /\ (c =c "E") = false /\
  (c =c "+") = false /\ (c =c "-") = false.
Proof. exhaust c. Qed.

(** ** Escapes *)
Lemma hex_facts a v :
  (a, v) ∈ hex_digits -> hex_val a = Some v /\ special a = false /\ v < 16.
Proof.
  intros H. apply elem_of_list_In in H. cbn [hex_digits In] in H.
  repeat (destruct H as [[= <- <-]|H]; [vm_compute; done|]). done.
Qed.

Lemma simple_facts e n :
  (e, n) ∈ simple_escapes ->
  (e =c "u") = false /\ EncodeRune n = [Nb n] /\
  (forall d, decodeEscape ("\"%char :: e :: d) = Some (n, 2%nat)).
Proof.
  intros H. apply elem_of_list_In in H. cbn [simple_escapes In] in H.
  repeat (destruct H as [[= <- <-]|H]; [vm_compute; done|]). done.
Qed.

(** The three shapes of a piece. *)
Inductive loose_case : piece -> bytes -> Prop :=
| lc_raw b : b <> """"%char -> b <> "\"%char -> loose_case (PByte b) [b]
| lc_escape e n : (e, n) ∈ simple_escapes -> loose_case (PByte (Nb n)) ["\"%char; e]
| lc_unit a1 a2 a3 a4 v1 v2 v3 v4 :
    (a1, v1) ∈ hex_digits -> (a2, v2) ∈ hex_digits ->
    (a3, v3) ∈ hex_digits -> (a4, v4) ∈ hex_digits ->
    loose_case (PUnit (v1 * 4096 + v2 * 256 + v3 * 16 + v4)) ["\"%char; "u"%char; a1; a2; a3; a4].
Lemma loose_cases p t : loose_piece p t -> loose_case p t.
Proof. intros [|? ? []]; by constructor. Qed.

Lemma pieces_loose ps t : pieces_text ps t -> loose_pieces ps t.
Proof. induction 1; constructor; [by apply loose_other|done]. Qed.

Lemma loose_quoted_text ps t : loose_pieces ps t -> quoted t.
Proof.
  induction 1 as [|p t ps ts Hp _ IH]; [constructor|].
  apply loose_cases in Hp.
  destruct Hp as [b Hq Hs|e n He|a1 a2 a3 a4 v1 v2 v3 v4 H1 H2 H3 H4]; cbn [app].
  - by constructor.
  - by constructor.
  - apply hex_facts in H1 as (_ & H1 & _), H2 as (_ & H2 & _), H3 as (_ & H3 & _), H4 as (_ & H4 & _).
    apply quoted_pair. repeat (apply quoted_raw; [by intros ->|by intros ->|]). done.
Qed.

Lemma find_string_quoted u acc rest :
  quoted u -> find_string false acc (u ++ """"%char :: rest) = Some (acc ++ u, rest).
Proof.
  intros H. revert acc. induction H as [|b t Hq Hs _ IH|e t _ IH]; intros acc; cbn [app].
  - cbn. by rewrite app_nil_r.
  - cbn [find_string]. apply Ascii.eqb_neq in Hq, Hs. rewrite Hq, Hs, IH. by rewrite <- app_assoc.
  - cbn [find_string]. change ("\" =c """") with false. change ("\" =c "\") with true. cbn iota. cbn [negb].
    destruct (e =c """") eqn:E1; [|destruct (e =c "\") eqn:E2]; cbn [negb]; rewrite IH, <- !app_assoc; done.
Qed.

Lemma find_string_pieces ps t acc rest :
  pieces_text ps t -> find_string false acc (t ++ """"%char :: rest) = Some (acc ++ t, rest).
Proof. intros H. eapply find_string_quoted, loose_quoted_text, pieces_loose, H. Qed.

Lemma getu4_unit a1 a2 a3 a4 v1 v2 v3 v4 d :
  (a1, v1) ∈ hex_digits -> (a2, v2) ∈ hex_digits -> (a3, v3) ∈ hex_digits -> (a4, v4) ∈ hex_digits ->
  getu4 ("\"%char :: "u"%char :: a1 :: a2 :: a3 :: a4 :: d) = Some (v1 * 4096 + v2 * 256 + v3 * 16 + v4).
Proof.
  intros H1 H2 H3 H4.
  apply hex_facts in H1 as (H1 & _), H2 as (H2 & _), H3 as (H3 & _), H4 as (H4 & _).
  cbn [getu4]. change (("\" =c "\") && ("u" =c "u")) with true. cbn iota. rewrite H1, H2, H3, H4. f_equal. lia.
Qed.

Lemma getu4_pieces ps t :
  loose_pieces ps t -> getu4 t = match ps with PUnit v :: _ => Some v | _ => None end.
Proof.
  intros [|p t' ps' ts Hp Hps]; [done|].
  apply loose_cases in Hp. inversion Hp as [b Hq Hs|e n He|a1 a2 a3 a4 v1 v2 v3 v4 H1 H2 H3 H4]; subst; cbn [app].
  - unfold getu4. apply Ascii.eqb_neq in Hs. rewrite Hs. by do 5 (destruct ts; [done|]).
  - apply simple_facts in He as (He & _). unfold getu4. rewrite He. cbn [andb].
    by do 4 (destruct ts; [done|]).
  - by apply getu4_unit.
Qed.

Lemma unit_bound a1 a2 a3 a4 v1 v2 v3 v4 :
  (a1, v1) ∈ hex_digits -> (a2, v2) ∈ hex_digits -> (a3, v3) ∈ hex_digits -> (a4, v4) ∈ hex_digits ->
  v1 * 4096 + v2 * 256 + v3 * 16 + v4 < 0x10000.
Proof.
  intros H1 H2 H3 H4.
  apply hex_facts in H1 as (_ & _ & H1), H2 as (_ & _ & H2), H3 as (_ & _ & H3), H4 as (_ & _ & H4). lia.
Qed.

Lemma unescape_loose ps t fuel :
  loose_pieces ps t -> (length t <= fuel)%nat -> unescape fuel t = Some (pieces_val ps).
Proof.
  remember (length ps) as n eqn:En. assert (Hn : (length ps <= n)%nat) by lia. clear En.
  revert ps t fuel Hn. induction n as [|n IH]; intros ps t fuel Hn H Hf.
  { destruct ps; [|cbn in Hn; lia]. inversion H; subst. by destruct fuel. }
  inversion H as [|p t' ps' ts Hp Hps]; subst; [by destruct fuel|]. cbn [length] in Hn.
  apply loose_cases in Hp. inversion Hp as [b Hq Hs|e m He|a1 a2 a3 a4 v1 v2 v3 v4 H1 H2 H3 H4]; subst;
    cbn [app] in *; cbn [length] in Hf; (destruct fuel as [|fuel]; [lia|]); cbn [unescape].
  - apply Ascii.eqb_neq in Hs. rewrite Hs. rewrite (IH ps' ts) by (done || lia). done.
  - change ("\" =c "\") with true. cbn iota. apply simple_facts in He as (_ & He & Hd). rewrite Hd.
    cbn [drop]. rewrite (IH ps' ts) by (done || lia). rewrite He. done.
  - change ("\" =c "\") with true. cbn iota.
    assert (Hg := getu4_unit _ _ _ _ _ _ _ _ ts H1 H2 H3 H4).
    assert (Hb := unit_bound _ _ _ _ _ _ _ _ H1 H2 H3 H4).
    set (u := v1 * 4096 + v2 * 256 + v3 * 16 + v4) in *.
    assert (Hdec : decodeEscape ("\"%char :: "u"%char :: a1 :: a2 :: a3 :: a4 :: ts) =
      if IsSurrogate u then
        match getu4 ts with
        | Some rr1 => let dec := DecodeSurrogates u rr1 in
                      if dec =? RuneError then Some (RuneError, 6%nat) else Some (dec, 12%nat)
        | None => Some (RuneError, 6%nat)
        end
      else Some (u, 6%nat)).
    { unfold decodeEscape. rewrite Hg. reflexivity. }
    rewrite Hdec. clear Hdec. rewrite (getu4_pieces ps' ts Hps).
    cbn [pieces_val]. unfold IsSurrogate.
    destruct (in_rng 0xD800 0xDFFF u) eqn:Es; [apply in_rng_true in Es|apply in_rng_false in Es].
    + assert (Hfffd : unescape fuel ts = Some (pieces_val ps') ->
         match unescape fuel (drop 6 ("\"%char :: "u"%char :: a1 :: a2 :: a3 :: a4 :: ts)) with
         | Some s => Some (EncodeRune RuneError ++ s) | None => None end
         = Some (utf8 0xFFFD ++ pieces_val ps')).
      { intros Hu. change (drop 6 ("\"%char :: "u"%char :: a1 :: a2 :: a3 :: a4 :: ts)) with ts. rewrite Hu. rewrite EncodeRune_utf8 by (unfold scalar, RuneError; lia). done. }
      assert (Hrec : unescape fuel ts = Some (pieces_val ps')) by (apply IH; [lia|done|lia]).
      destruct (decide (high u)) as [Hh|Hh].
      * destruct ps' as [|[b|v] ps'']; [by apply Hfffd..|].
        unfold DecodeSurrogates. unfold high in Hh.
        rewrite (proj2 (in_rng_true 0xD800 0xDBFF u)) by lia.
        inversion Hps as [|p t'' ps3 ts' Hp' Hps']; subst.
        apply loose_cases in Hp'. inversion Hp' as [| |b1 b2 b3 b4 w1 w2 w3 w4 J1 J2 J3 J4]; subst.
        set (v := w1 * 4096 + w2 * 256 + w3 * 16 + w4) in *.
        destruct (in_rng 0xDC00 0xDFFF v) eqn:Ev; [apply in_rng_true in Ev|apply in_rng_false in Ev]; cbn [andb].
        -- cbv zeta. destruct (N.eqb_spec ((u - 55296) * 1024 + (v - 56320) + 65536) RuneError) as [E|_];
             [unfold RuneError in E; lia|].
           cbn [drop app]. cbn [app length] in Hf. rewrite (IH ps'' ts') by (done || (cbn [length] in Hn; lia)).
           rewrite decide_True by (unfold low; lia).
           rewrite EncodeRune_utf8 by (unfold scalar; lia). do 3 f_equal. lia.
        -- cbv zeta. change (RuneError =? RuneError) with true. cbn iota.
           rewrite decide_False by (unfold low; lia). by apply Hfffd.
      * rewrite decide_True by (unfold high, low in *; lia).
        destruct ps' as [|[b|v] ps'']; [by apply Hfffd..|]. unfold DecodeSurrogates. unfold high in Hh.
        rewrite (proj2 (in_rng_false 0xD800 0xDBFF u)) by lia. cbn [andb]. cbv zeta.
        change (RuneError =? RuneError) with true. by apply Hfffd.
    + rewrite !decide_False by (unfold high, low; lia).
      cbn [drop]. rewrite (IH ps' ts) by (done || lia).
      rewrite EncodeRune_utf8 by (unfold scalar; lia). done.
Qed.

Lemma unescape_pieces ps t fuel :
  pieces_text ps t -> (length t <= fuel)%nat -> unescape fuel t = Some (pieces_val ps).
Proof. intros H. by apply unescape_loose, pieces_loose. Qed.

(** ** Numbers *)
Definition follow (rest : bytes) : Prop :=
  match rest with [] => True | c :: _ => isTokenEnd c = true end.

Lemma number_digits hasE aE hasDot acc ds rest :
  digits1 ds -> number_loop hasE aE hasDot acc (ds ++ rest) = number_loop hasE false hasDot (acc ++ ds) rest.
Proof.
  intros [Hne H]. revert aE acc Hne. induction H as [|c ds Hc Hds IH]; intros aE acc Hne; [done|].
  cbn [app number_loop]. apply digit_facts in Hc as (-> & _).
  destruct ds as [|d ds]; [cbn [app]; done|].
  rewrite IH by done. by rewrite <- app_assoc.
Qed.

Lemma number_end hasE aE hasDot acc rest :
  follow rest -> number_loop hasE aE hasDot acc rest = (acc, rest, true).
Proof.
  destruct rest as [|c rest]; [done|]. cbn [follow number_loop]. intros H.
  rewrite H. apply token_end_not_number in H as (-> & -> & -> & -> & -> & ->). done.
Qed.

Lemma nat_text_shape n t :
  nat_text n t -> exists c ds, t = c :: ds /\ digit c /\ Forall digit ds /\ digits_val 0 t = Some n.
Proof.
  assert (Hv : forall ds a, Forall digit ds ->
     digits_val a ds = Some (fold_left (fun a c => 10 * a + (bN c - 48)) ds a)).
  { induction ds as [|c ds IH]; intros a H; [done|]. apply Forall_cons in H as [Hc Hds].
    cbn [digits_val fold_left]. apply digit_facts in Hc as (-> & _). rewrite IH by done. do 2 f_equal. lia. }
  intros [|c ds Hc Hz Hds].
  - exists "0"%char, []. repeat split; try done.
  - exists c, ds. repeat split; try done; [apply Hc|apply Hc|]. apply Hv. by constructor.
Qed.

(** A number literal: [-] or a digit first, then what the loop eats. *)
Lemma number_int z t acc0 f :
  int_text z t ->
  exists c ds, t = c :: ds /\ (digit c \/ c = "-"%char) /\
    (forall rest, number_loop false false false (acc0 ++ [c]) (ds ++ f ++ rest)
                  = number_loop false false false (acc0 ++ t) (f ++ rest)).
Proof.
  intros H. inversion H as [n t' Hn|n t' Hn]; subst; apply nat_text_shape in Hn as (c & ds & -> & Hc & Hds & _).
  - exists c, ds. split; [done|]. split; [by left|]. intros rest.
    destruct ds as [|d ds]; [done|]. rewrite number_digits by done. by rewrite <- app_assoc.
  - exists "-"%char, (c :: ds). split; [done|]. split; [by right|]. intros rest.
    rewrite number_digits by (split; [done|by constructor]). by rewrite <- app_assoc.
Qed.

Lemma number_frac acc f rest :
  frac_text f ->
  number_loop false false false acc (f ++ rest) = number_loop false false true (acc ++ f) rest.
Proof.
  intros (ds & Hds & ->). cbn [app number_loop]. change (in_rng 48 57 (bN ".")) with false.
  change (("." =c ".") && negb false) with true. cbn iota. rewrite number_digits by done.
  by rewrite <- app_assoc.
Qed.

Lemma number_exp hasDot acc e rest :
  exp_text e ->
  number_loop false false hasDot acc (e ++ rest) = number_loop true false true (acc ++ e) rest.
Proof.
  intros (c & sign & ds & Hc & Hs & Hds & ->). cbn [app number_loop].
  assert (Hce : in_rng 48 57 (bN c) = false /\ (c =c ".") = false /\ ((c =c "e") || (c =c "E")) = true).
  { apply elem_of_list_In in Hc. destruct Hc as [<-|[<-|[]]]; done. }
  destruct Hce as (-> & -> & ->). cbn [andb negb]. cbn iota. rewrite <- app_assoc.
  assert (Hsign : number_loop true true true (acc ++ [c]) (sign ++ ds ++ rest) =
                  number_loop true false true (acc ++ c :: sign ++ ds) rest).
  { apply elem_of_list_In in Hs. destruct Hs as [<-|[<-|[<-|[]]]]; cbn [app].
    - rewrite number_digits by done. by rewrite <- app_assoc.
    - cbn [number_loop]. change (in_rng 48 57 (bN "+")) with false. cbn iota.
      change (number_loop true false true ((acc ++ [c]) ++ ["+"%char]) (ds ++ rest) =
              number_loop true false true (acc ++ [c; "+"%char] ++ ds) rest).
      rewrite number_digits by done. by rewrite <- !app_assoc.
    - cbn [number_loop]. change (in_rng 48 57 (bN "-")) with false. cbn iota.
      change (number_loop true false true ((acc ++ [c]) ++ ["-"%char]) (ds ++ rest) =
              number_loop true false true (acc ++ [c; "-"%char] ++ ds) rest).
      rewrite number_digits by done. by rewrite <- !app_assoc. }
  exact Hsign.
Qed.

Lemma ParseInt_int z t :
  int_text z t ->
  ParseInt t = if in_int64 z then (z, false) else (if (z <? 0)%Z then min_int64 else max_int64, true).
Proof.
  intros H. inversion H as [n t' Hn|n t' Hn]; subst; apply nat_text_shape in Hn as (c & ds & -> & Hc & Hds & Hv).
  - unfold ParseInt. pose proof (digit_facts c Hc) as (_ & _ & _ & _ & _ & -> & ->).
    cbn [ParseUint]. rewrite Hv. destruct (in_int64 (Z.of_N n)) eqn:E; [done|].
    destruct (Z.ltb_spec (Z.of_N n) 0); [lia|]. done.
  - unfold ParseInt. change ("-" =c "-") with true. cbn iota. cbn [ParseUint]. rewrite Hv.
    destruct (in_int64 (- Z.of_N n)) eqn:E; [done|].
    destruct (Z.ltb_spec (- Z.of_N n) 0); [done|].
    assert (n = 0) as -> by lia. done.
Qed.

Lemma digits_val_bad ds c u a :
  Forall digit ds -> in_rng 48 57 (bN c) = false -> digits_val a (ds ++ c :: u) = None.
Proof.
  intros H Hc. revert a. induction H as [|d ds Hd _ IH]; intros a; cbn [app digits_val].
  - by rewrite Hc.
  - apply digit_facts in Hd as (-> & _). apply IH.
Qed.

Lemma ParseInt_bad z t c u :
  int_text z t -> in_rng 48 57 (bN c) = false -> (ParseInt (t ++ c :: u)).2 = true.
Proof.
  intros H Hbad. inversion H as [n t' Hn|n t' Hn]; subst; apply nat_text_shape in Hn as (d & ds & -> & Hd & Hds & Hv).
  - cbn [app]. unfold ParseInt. pose proof (digit_facts d Hd) as (_ & _ & _ & _ & _ & -> & ->).
    cbn [ParseUint]. change (d :: ds ++ c :: u) with ((d :: ds) ++ c :: u).
    rewrite digits_val_bad by (done || by constructor). done.
  - cbn [app]. unfold ParseInt. change ("-" =c "-") with true. cbn iota. cbn [ParseUint].
    change (d :: ds ++ c :: u) with ((d :: ds) ++ c :: u).
    rewrite digits_val_bad by (done || by constructor). done.
Qed.

(** ** Fetching tokens *)
Lemma fetch_spaces l sep w t : spaces w -> fetch_loop l sep (w ++ t) = fetch_loop l sep t.
Proof.
  induction 1 as [|c w Hc _ IH]; [done|]. cbn [app fetch_loop].
  apply space_facts in Hc as (-> & _ & -> & -> & _). exact IH.
Qed.

Lemma fetch_sep l sep w t :
  spaces w -> sep = ":"%char \/ sep = ","%char -> fetch_loop l sep (w ++ sep :: t) = fetch_loop l c0 t.
Proof. intros Hw Hs. rewrite fetch_spaces by done. by destruct Hs as [-> | ->]. Qed.

(** The first token of a value, and what is left after it. *)
Definition first_token (l : lexer) (j : json) (t rest : bytes) : lexer :=
  match j with
  | JNull => token l KNull [] rest
  | JBool _ => token l KBool [] rest
  | JNum _ => token l KNumber t rest
  | JStr _ => token l KString (removelast (tail t)) rest
  | JArr _ => open_token l "[" (tail t ++ rest)
  | JObj _ => open_token l "{" (tail t ++ rest)
  end.

Lemma fetch_string l s t rest :
  string_text s t ->
  fetch_loop l c0 (t ++ rest) = token l KString (removelast (tail t)) rest /\
  unescape (length (removelast (tail t))) (removelast (tail t)) = Some s.
Proof.
  intros [ps t' Hp]. cbn [app tail].
  assert (Hr : removelast (t' ++ [""""%char]) = t').
  { rewrite removelast_app by done. cbn. by rewrite app_nil_r. }
  rewrite Hr. split; [|by apply unescape_pieces].
  rewrite <- app_assoc. cbn [app]. 
  change (fetch_loop l c0 (""""%char :: t' ++ """"%char :: rest)) with
    (match find_string false [] (t' ++ """"%char :: rest) with
     | Some (s, t'') => token l KString s t'' | None => err l end).
  by rewrite (find_string_pieces ps).
Qed.

Lemma fetch_number l c ds rest n :
  digit c \/ c = "-"%char ->
  number_loop false false false [c] (ds ++ rest) = (n, rest, true) ->
  fetch_loop l c0 (c :: ds ++ rest) = token l KNumber n rest.
Proof.
  intros Hc Hn. cbn [fetch_loop].
  assert (Hf : (c =c ":") = false /\ (c =c ",") = false /\ is_ws c = false /\ special c = false /\
               (in_rng 48 57 (bN c) || (c =c "-")) = true).
  { destruct Hc as [Hc| ->]; [|done]. apply digit_facts in Hc as (-> & -> & -> & -> & -> & -> & _). done. }
  destruct Hf as (-> & -> & -> & Hs & ->). cbn [orb].
  rewrite (special_eq c "}"), (special_eq c "]"), (special_eq c """"), (special_eq c "{"), (special_eq c "[") by done.
  change (negb (c0 =c c0)) with false. cbn [orb]. cbn iota. by rewrite Hn.
Qed.

Lemma fetch_value l j t rest :
  value j t -> follow rest -> fetch_loop l c0 (t ++ rest) = first_token l j t rest.
Proof.
  assert (Hword : forall word rest, follow rest -> fetch_word word (word ++ rest) = Some rest).
  { induction word as [|w word IH]; intros r Hf; cbn [app fetch_word].
    - destruct r as [|c r]; [done|]. cbn in Hf. by rewrite Hf.
    - rewrite Ascii.eqb_refl. by apply IH. }
  intros H Hf. inversion H; subst; cbn [first_token].
  - change (fetch_loop l c0 (["n"; "u"; "l"; "l"]%char ++ rest)) with
      (word_token l KNull (fetch_word ["n"; "u"; "l"; "l"]%char (["n"; "u"; "l"; "l"]%char ++ rest))).
    by rewrite Hword.
  - change (fetch_loop l c0 (["t"; "r"; "u"; "e"]%char ++ rest)) with
      (word_token l KBool (fetch_word ["t"; "r"; "u"; "e"]%char (["t"; "r"; "u"; "e"]%char ++ rest))).
    by rewrite Hword.
  - change (fetch_loop l c0 (["f"; "a"; "l"; "s"; "e"]%char ++ rest)) with
      (word_token l KBool (fetch_word ["f"; "a"; "l"; "s"; "e"]%char (["f"; "a"; "l"; "s"; "e"]%char ++ rest))).
    by rewrite Hword.
  - match goal with Hi : int_text _ _ |- _ => destruct (number_int _ _ [] [] Hi) as (c & ds & -> & Hc & Hl) end.
    cbn [app]. apply fetch_number; [done|]. cbn [app] in Hl. rewrite Hl. by apply number_end.
  - match goal with Hi : int_text _ _ |- _ => destruct (number_int _ _ [] f Hi) as (c & ds & -> & Hc & Hl) end.
    cbn [app]. rewrite (fetch_number l c (ds ++ f) rest (c :: ds ++ f)); [done|done|].
    cbn [app] in Hl. rewrite <- app_assoc. rewrite Hl.
    rewrite number_frac by done. cbn [app]. by apply number_end.
  - match goal with Hi : int_text _ _ |- _ => destruct (number_int _ _ [] e Hi) as (c & ds & -> & Hc & Hl) end.
    cbn [app]. rewrite (fetch_number l c (ds ++ e) rest (c :: ds ++ e)); [done|done|].
    cbn [app] in Hl. rewrite <- app_assoc. rewrite Hl.
    rewrite number_exp by done. cbn [app]. by apply number_end.
  - match goal with Hi : int_text _ _ |- _ => destruct (number_int _ _ [] (f ++ e) Hi) as (c & ds & -> & Hc & Hl) end.
    cbn [app]. rewrite (fetch_number l c (ds ++ f ++ e) rest (c :: ds ++ f ++ e)); [done|done|].
    cbn [app] in Hl. rewrite <- app_assoc. rewrite Hl, <- app_assoc.
    rewrite number_frac, number_exp by done. cbn [app]. rewrite <- app_assoc. by apply number_end.
  - by apply (fetch_string l s).
  - done.
  - done.
  - done.
  - done.
Qed.

(** ** Skipping a value *)
Definition brackets (s e : ascii) : Prop :=
  (s = "{"%char /\ e = "}"%char) \/ (s = "["%char /\ e = "]"%char).

Section skip.
  Variables (s e : ascii).
  Hypothesis Hse : brackets s e.

  Definition skips (t : bytes) : Prop :=
    forall k done rest, skip_loop s e (S k) false false done (t ++ rest) = skip_loop s e (S k) false false (done ++ t) rest.

  Lemma skips_nil : skips [].
  Proof. intros k d r. by rewrite app_nil_r. Qed.

  Lemma skips_app t t' : skips t -> skips t' -> skips (t ++ t').
  Proof. intros H H' k d r. rewrite <- app_assoc, H, H'. by rewrite app_assoc. Qed.

  Lemma skips_plain t : Forall (fun c => special c = false) t -> skips t.
  Proof.
    induction 1 as [|c t Hc _ IH]; [apply skips_nil|].
    intros k d r. cbn [app skip_loop].
    rewrite (special_eq c s), (special_eq c e), (special_eq c """"), (special_eq c "\")
      by (done || (destruct Hse as [[-> ->]|[-> ->]]; done)).
    cbn [andb]. rewrite IH. by rewrite <- app_assoc.
  Qed.

  (** inside a string literal *)
  Lemma skip_pieces ps t k done rest :
    pieces_text ps t ->
    skip_loop s e (S k) true false done (t ++ rest) = skip_loop s e (S k) true false (done ++ t) rest.
  Proof.
    intros H. revert done. induction H as [|p t ps ts Hp _ IH]; intros dn.
    { by rewrite app_nil_r. }
    assert (Hplain : forall c dn d w, (c =c """") = false -> (c =c "\") = false ->
              skip_loop s e (S k) true w dn (c :: d) = skip_loop s e (S k) true false (dn ++ [c]) d).
    { intros c a d w Hq Hb. cbn [skip_loop]. cbn [negb]. rewrite !andb_false_r, !andb_true_r, Hq, Hb. done. }
    assert (Hback : forall dn d w,
              skip_loop s e (S k) true w dn ("\"%char :: d) = skip_loop s e (S k) true (negb w) (dn ++ ["\"%char]) d).
    { intros a d w. cbn [skip_loop]. cbn [negb]. rewrite !andb_false_r. done. }
    assert (Hquote : forall dn d w,
              skip_loop s e (S k) true w dn (""""%char :: d) = skip_loop s e (S k) w false (dn ++ [""""%char]) d).
    { intros a d w. cbn [skip_loop]. cbn [negb]. rewrite !andb_false_r. done. }
    inversion Hp as [b Hb Hq Hs|c n He|a1 a2 a3 a4 v1 v2 v3 v4 H1 H2 H3 H4]; subst; cbn [app].
    - apply Ascii.eqb_neq in Hq, Hs. rewrite Hplain by done. rewrite IH. by rewrite <- app_assoc.
    - rewrite Hback. cbn [negb].
      destruct (c =c """") eqn:E1; [|destruct (c =c "\") eqn:E2].
      + apply Ascii.eqb_eq in E1 as ->. rewrite Hquote, IH, <- !app_assoc. done.
      + apply Ascii.eqb_eq in E2 as ->. rewrite Hback. cbn [negb]. rewrite IH, <- !app_assoc. done.
      + rewrite Hplain by done. rewrite IH, <- !app_assoc. done.
    - apply hex_facts in H1 as (_ & H1 & _), H2 as (_ & H2 & _), H3 as (_ & H3 & _), H4 as (_ & H4 & _).
      rewrite Hback. cbn [negb].
      rewrite (Hplain "u"%char) by done.
      rewrite (Hplain a1), (Hplain a2), (Hplain a3), (Hplain a4) by (by apply special_eq).
      rewrite IH, <- !app_assoc. done.
  Qed.

  Lemma skips_string v t : string_text v t -> skips t.
  Proof.
    intros [ps t' Hp] k d r. cbn [app]. rewrite <- app_assoc.
    cbn [skip_loop]. replace ((""""%char =c s) && negb false) with false by (destruct Hse as [[-> ->]|[-> ->]]; done).
    replace ((""""%char =c e) && negb false) with false by (destruct Hse as [[-> ->]|[-> ->]]; done).
    change ((""""%char =c "\") && false) with false. change ((""""%char =c """") && false) with false.
    change (""""%char =c """") with true. cbn iota.
    rewrite (skip_pieces ps) by done. cbn [app skip_loop]. cbn [negb]. rewrite !andb_false_r.
    change ((""""%char =c "\") && true) with false. change ((""""%char =c """") && true) with true. cbn iota.
    by rewrite <- !app_assoc.
  Qed.

  Lemma skips_wrap o c t : brackets o c -> skips t -> skips ([o] ++ t ++ [c]).
  Proof.
    intros Hoc Ht k d r. unfold skips in Ht.
    destruct Hoc as [[-> ->]|[-> ->]], Hse as [[Es Ee]|[Es Ee]]; rewrite Es, Ee in *; clear Es Ee; cbn [app].
    - rewrite <- app_assoc.
      change (skip_loop "{" "}" (S k) false false d ("{"%char :: t ++ ["}"%char] ++ r))
        with (skip_loop "{" "}" (S (S k)) false false (d ++ ["{"%char]) (t ++ ["}"%char] ++ r)).
      rewrite Ht. 
      change (skip_loop "{" "}" (S (S k)) false false ((d ++ ["{"%char]) ++ t) (["}"%char] ++ r))
        with (skip_loop "{" "}" (S k) false false (((d ++ ["{"%char]) ++ t) ++ ["}"%char]) r).
      by rewrite <- !app_assoc.
    - rewrite <- app_assoc.
      change (skip_loop "[" "]" (S k) false false d ("{"%char :: t ++ ["}"%char] ++ r))
        with (skip_loop "[" "]" (S k) false false (d ++ ["{"%char]) (t ++ ["}"%char] ++ r)).
      rewrite Ht. 
      change (skip_loop "[" "]" (S k) false false ((d ++ ["{"%char]) ++ t) (["}"%char] ++ r))
        with (skip_loop "[" "]" (S k) false false (((d ++ ["{"%char]) ++ t) ++ ["}"%char]) r).
      by rewrite <- !app_assoc.
    - rewrite <- app_assoc.
      change (skip_loop "{" "}" (S k) false false d ("["%char :: t ++ ["]"%char] ++ r))
        with (skip_loop "{" "}" (S k) false false (d ++ ["["%char]) (t ++ ["]"%char] ++ r)).
      rewrite Ht. 
      change (skip_loop "{" "}" (S k) false false ((d ++ ["["%char]) ++ t) (["]"%char] ++ r))
        with (skip_loop "{" "}" (S k) false false (((d ++ ["["%char]) ++ t) ++ ["]"%char]) r).
      by rewrite <- !app_assoc.
    - rewrite <- app_assoc.
      change (skip_loop "[" "]" (S k) false false d ("["%char :: t ++ ["]"%char] ++ r))
        with (skip_loop "[" "]" (S (S k)) false false (d ++ ["["%char]) (t ++ ["]"%char] ++ r)).
      rewrite Ht. 
      change (skip_loop "[" "]" (S (S k)) false false ((d ++ ["["%char]) ++ t) (["]"%char] ++ r))
        with (skip_loop "[" "]" (S k) false false (((d ++ ["["%char]) ++ t) ++ ["]"%char]) r).
      by rewrite <- !app_assoc.
  Qed.

  Lemma skips_spaces w : spaces w -> skips w.
  Proof.
    intros H. apply skips_plain. eapply Forall_impl; [exact H|]. intros c Hc.
    by apply space_facts in Hc as (_ & -> & _).
  Qed.

  Lemma digits_plain ds : Forall digit ds -> Forall (fun c => special c = false) ds.
  Proof. intros H. eapply Forall_impl; [exact H|]. intros c Hc. by apply digit_facts in Hc as (_ & -> & _). Qed.

  Lemma skips_int z t : int_text z t -> skips t.
  Proof.
    intros H. apply skips_plain. inversion H as [n t' Hn|n t' Hn]; subst;
      apply nat_text_shape in Hn as (c & ds & -> & Hc & Hds & _); repeat constructor;
      try (apply digits_plain; done); by apply digit_facts in Hc as (_ & -> & _).
  Qed.
  Lemma skips_frac t : frac_text t -> skips t.
  Proof.
    intros (ds & [_ Hds] & ->). apply skips_plain. constructor; [done|]. by apply digits_plain.
  Qed.
  Lemma skips_exp t : exp_text t -> skips t.
  Proof.
    intros (c & sign & ds & Hc & Hs & [_ Hds] & ->). apply skips_plain. constructor.
    { apply elem_of_list_In in Hc. destruct Hc as [<-|[<-|[]]]; done. }
    apply Forall_app. split; [|by apply digits_plain].
    apply elem_of_list_In in Hs. destruct Hs as [<-|[<-|[<-|[]]]]; repeat constructor.
  Qed.

  Lemma skips_mutual :
    (forall j t, value j t -> skips t) /\ (forall l t, elements l t -> skips t) /\
    (forall m t, members m t -> skips t).
  Proof.
    assert (Hc : forall c, special c = false -> skips [c]) by (intros c Hc; apply skips_plain; repeat constructor; done).
    assert (H : forall j t, value j t -> skips t).
    { apply (value_mind (fun _ t => skips t) (fun _ t => skips t) (fun _ t => skips t)); intros;
        repeat match goal with
               | |- skips ([_] ++ _ ++ [_]) => apply skips_wrap
               | |- skips (_ ++ _) => apply skips_app
               end; unfold brackets;
        eauto using skips_int, skips_frac, skips_exp, skips_spaces, skips_string;
        apply skips_plain; repeat constructor. }
    assert (He : forall l t, elements l t -> skips t).
    { induction 1; repeat apply skips_app; eauto using skips_spaces. }
    split; [done|]. split; [done|].
    induction 1; repeat apply skips_app; eauto using skips_spaces, skips_string.
  Qed.

  (** the scan from inside the brackets to the closing one *)
  Lemma skip_close t rest :
    skips t -> skip_loop s e 1 false false [] (t ++ e :: rest) = Some (t ++ [e], rest).
  Proof.
    intros Ht. rewrite Ht. cbn [app skip_loop].
    destruct Hse as [[-> ->]|[-> ->]]; done.
  Qed.
End skip.

(** ** Decoding an object *)

(** the lexer between two tokens *)
Definition At (d t : bytes) (first : bool) (sep : ascii) : lexer := MkLexer d t KUndef [] c0 first sep false.
(** the lexer that has just read the first token of the value [j] of text [t] *)
Definition Read (d : bytes) (first : bool) (j : json) (t rest : bytes) : lexer :=
  first_token (At d [] first c0) j t rest.

Lemma scan_err l : lx_err l = true -> scanToken l = l.
Proof. unfold scanToken. intros ->. by destruct (lx_kind l). Qed.

Lemma value_nonempty j t : value j t -> t <> [].
Proof.
  intros H. inversion H; subst; try done;
    try (match goal with Hi : int_text _ _ |- _ => destruct (number_int _ _ [] [] Hi) as (c & ds & -> & _) end; done).
  by match goal with Hs : string_text _ _ |- _ => destruct Hs end.
Qed.

Lemma first_token_read l d first j t rest :
  lx_Data l = d -> lx_first l = first -> lx_err l = false -> first_token l j t rest = Read d first j t rest.
Proof. intros <- <- He. destruct j; unfold Read, first_token, token, open_token; rewrite He; reflexivity. Qed.

Lemma scan_read d first j t rest : scanToken (Read d first j t rest) = Read d first j t rest.
Proof. by destruct j. Qed.

Lemma read_err d first j t rest : lx_err (Read d first j t rest) = false.
Proof. by destruct j. Qed.

Lemma read_rest d first j t rest :
  value j t -> (length (t ++ rest) <= length d)%nat ->
  (length (lx_rest (Read d first j t rest)) < length d)%nat.
Proof.
  intros H. pose proof (value_nonempty j t H) as Hne. destruct t as [|c t]; [done|].
  cbn [app length]. rewrite app_length. intros Hl.
  destruct j; cbn [Read first_token token open_token lx_rest tail]; rewrite ?app_length; lia.
Qed.

Definition is_null (j : json) : bool := match j with JNull => true | _ => false end.

Lemma read_null d first j t rest : IsNull (Read d first j t rest) = (Read d first j t rest, is_null j).
Proof. unfold IsNull. rewrite scan_read, read_err. by destruct j. Qed.

Lemma read_string d first j t rest :
  value j t ->
  match j with
  | JStr s => lx_String (Read d first j t rest) = (At d rest first c0, s)
  | _ => lx_String (Read d first j t rest) = (err (Read d first j t rest), [])
  end.
Proof.
  intros H. unfold lx_String. rewrite scan_read, read_err. destruct j; try done.
  assert (Hs : string_text s t) by (inversion H; done).
  apply (fetch_string (At d [] first c0) _ _ []) in Hs as [_ Hs].
  cbn [Read first_token token lx_kind lx_bytes]. by rewrite Hs.
Qed.

Lemma in_int64_spec z : in_int64 z = bool_decide (- 2 ^ 63 <= z < 2 ^ 63)%Z.
Proof.
  unfold in_int64, min_int64, max_int64. apply eq_bool_prop_intro.
  rewrite andb_True, !Is_true_true, !Z.leb_le, bool_decide_eq_true. lia.
Qed.

Lemma read_int d first j t rest :
  value j t ->
  match as_int64 j with
  | Some z => lx_Int (Read d first j t rest) = (At d rest first c0, z)
  | None => exists l' z, lx_Int (Read d first j t rest) = (l', z) /\ lx_err l' = true
  end.
Proof.
  intros H. unfold lx_Int. rewrite scan_read, read_err.
  assert (Hbad : (ParseInt t).2 = true ->
     exists l' z, (let '(z, e) := ParseInt t in
       (if e then err (consume (token (At d [] first c0) KNumber t rest))
        else consume (token (At d [] first c0) KNumber t rest), z)) = (l', z) /\ lx_err l' = true).
  { destruct (ParseInt t) as [z e]. cbn [snd]. intros ->. by eexists _, _. }
  destruct j as [|b|o|s|l|m]; cbn [as_int64]; try by eexists _, _.
  cbn [Read first_token lx_kind token].
  inversion H as [| | |z t' Hi|z t' f Hi Hf|z t' e Hi He|z t' f e Hi Hf He| | | | |]; subst;
    cbn [lx_bytes token].
  - pose proof (ParseInt_int z t Hi) as Hp. rewrite in_int64_spec in Hp. 
    destruct (decide (- 2 ^ 63 <= z < 2 ^ 63)%Z) as [Hz|Hz].
    + rewrite bool_decide_eq_true_2 in Hp by done. rewrite Hp. done.
    + rewrite bool_decide_eq_false_2 in Hp by done. apply Hbad. by rewrite Hp.
  - apply Hbad. destruct Hf as (ds & Hds & ->). by apply (ParseInt_bad z).
  - apply Hbad. destruct He as (c & sg & ds & Hc & Hs & Hds & ->). apply (ParseInt_bad z); [done|].
    apply elem_of_list_In in Hc. destruct Hc as [<-|[<-|[]]]; done.
  - apply Hbad. destruct Hf as (ds & Hds & ->). by apply (ParseInt_bad z).
Qed.

Lemma read_skip valid d first j t rest :
  valid t = true -> value j t ->
  exists first', SkipRecursive valid (Read d first j t rest) = At d rest first' c0.
Proof.
  intros Hv H. unfold SkipRecursive. rewrite scan_read.
  destruct j as [|b|o|s|l|m]; try (exists first; reflexivity); exists true.
  - assert (Hi : exists u, t = ["["%char] ++ u ++ ["]"%char] /\ skips "[" "]" u).
    { assert (Hb : brackets "[" "]") by by right.
      inversion H; subst; eexists; (split; [reflexivity|]); [by apply skips_spaces|].
      destruct (skips_mutual "[" "]" Hb) as (_ & He & _). by eapply He. }
    destruct Hi as (u & -> & Hu). cbn [Read first_token open_token lx_delim lx_rest app tail].
    change ("[" =c "{") with false. change ("[" =c "[") with true. cbn iota.
    rewrite <- app_assoc. cbn [app]. rewrite skip_close by (done || by right).
    cbn [app] in Hv |- *. rewrite Hv. done.
  - assert (Hi : exists u, t = ["{"%char] ++ u ++ ["}"%char] /\ skips "{" "}" u).
    { assert (Hb : brackets "{" "}") by by left.
      inversion H; subst; eexists; (split; [reflexivity|]); [by apply skips_spaces|].
      destruct (skips_mutual "{" "}" Hb) as (_ & _ & He). by eapply He. }
    destruct Hi as (u & -> & Hu). cbn [Read first_token open_token lx_delim lx_rest app tail].
    change ("{" =c "{") with true. cbn iota.
    rewrite <- app_assoc. cbn [app]. rewrite skip_close by (done || by left).
    cbn [app] in Hv |- *. rewrite Hv. done.
Qed.

Lemma members_length m t : members m t -> (length m <= length t)%nat.
Proof.
  induction 1; subst; repeat rewrite app_length; cbn [length];
    match goal with Hv : value _ _ |- _ => apply value_nonempty in Hv end;
    match goal with Hv : ?t <> [] |- _ => destruct t; [done|cbn [length]; lia] end.
Qed.

Section decode.
  Context {A : Type} (field : bytes -> lexer -> A -> lexer * A).
  (** what the field [key] makes of a value other than null *)
  Variable step : bytes -> json -> A -> option A.
  Variable ok : bytes -> json -> Prop.
  Variable bound : nat.
  Hypothesis Hfield : forall k j t d rest out,
    (length d < bound)%nat -> value j t -> is_null j = false -> follow rest -> (length (t ++ rest) <= length d)%nat -> ok k j ->
    match step k j out with
    | Some out' => exists f, field k (Read d false j t rest) out = (At d rest f c0, out')
    | None => exists l' out', field k (Read d false j t rest) out = (l', out') /\ lx_err l' = true
    end.

  Fixpoint fold_members (m : list (bytes * json)) (out : A) : option A :=
    match m with
    | [] => Some out
    | (k, j) :: m' =>
        match (if is_null j then Some out else step k j out) with
        | Some out' => fold_members m' out'
        | None => None
        end
    end.

  Definition Closed (d rest : bytes) (first : bool) : lexer := MkLexer d rest KDelim [] "}" first c0 false.

  Lemma loop_err fuel l out : lx_err l = true -> exists l', decode_loop field fuel l out = (l', out) /\ lx_err l' = true.
  Proof.
    intros H. destruct fuel as [|fuel]; cbn [decode_loop]; [by exists (err l)|].
    unfold IsDelim. rewrite scan_err, H by done. cbn [orb]. by exists l.
  Qed.

  Lemma loop_close fuel l out d rest first :
    scanToken l = Closed d rest first -> (0 < fuel)%nat ->
    decode_loop field fuel l out = (Closed d rest first, out).
  Proof. intros H Hf. destruct fuel; [lia|]. cbn [decode_loop]. unfold IsDelim. rewrite H. done. Qed.

  (** one member: [rest] starts with what follows its value *)
  Lemma loop_member fuel l d out w1 k kt w2 w3 j t rest :
    (length d < bound)%nat -> lx_Data l = d -> lx_kind l = KUndef -> lx_err l = false ->
    spaces w1 -> string_text k kt -> spaces w2 -> spaces w3 -> value j t -> follow rest ->
    (length (t ++ rest) <= length d)%nat -> ok k j ->
    fetch_loop l (lx_sep l) (lx_rest l) = fetch_loop l c0 (w1 ++ kt ++ w2 ++ [":"%char] ++ w3 ++ t ++ rest) ->
    match (if is_null j then Some out else step k j out) with
    | Some out' => decode_loop field (S fuel) l out = decode_loop field fuel (At d rest false ",") out'
    | None => exists l' out', decode_loop field (S fuel) l out = (l', out') /\ lx_err l' = true
    end.
  Proof.
    intros Hbd Hd Hk He Hw1 Hkt Hw2 Hw3 Hv Hfo Hlen Hok Hfetch.
    rewrite fetch_spaces in Hfetch by done.
    set (after := w2 ++ [":"%char] ++ w3 ++ t ++ rest) in *.
    destruct (fetch_string l k kt after Hkt) as [Hs Hu]. rewrite Hs in Hfetch. clear Hs.
    assert (Hscan : scanToken l = MkLexer d after KString (removelast (tail kt)) c0 (lx_first l) c0 false).
    { unfold scanToken. rewrite Hk, He. unfold FetchToken. rewrite Hfetch. unfold token. by rewrite Hd, He. }
    cbn [decode_loop]. unfold IsDelim. rewrite Hscan. cbn [lx_err lx_delim]. change (false || (c0 =c "}")) with false.
    cbn iota. unfold lx_String. cbn [scanToken lx_kind lx_err lx_bytes]. rewrite Hu.
    change (WantColon (consume (MkLexer d after KString (removelast (tail kt)) c0 (lx_first l) c0 false)))
      with (At d after false ":").
    assert (Hread : IsNull (At d after false ":") = (Read d false j t rest, is_null j)).
    { assert (Hs : scanToken (At d after false ":") = Read d false j t rest).
      { change (scanToken (At d after false ":")) with
          (fetch_loop (At d after false ":") ":" (w2 ++ ":"%char :: w3 ++ t ++ rest)).
        rewrite (fetch_sep _ ":") by (done || by left). rewrite fetch_spaces by done.
        rewrite (fetch_value _ j t rest) by done. by rewrite (first_token_read _ d false). }
      unfold IsNull. rewrite Hs, read_err. by destruct j. }
    rewrite Hread. destruct (is_null j) eqn:En.
    - destruct j; try done. 
    - pose proof (Hfield k j t d rest out Hbd Hv En Hfo Hlen Hok) as Hf.
      destruct (step k j out) as [out'|].
      + destruct Hf as [f ->]. done.
      + destruct Hf as (l' & out' & -> & Hl').
        destruct (loop_err fuel (WantComma l') out') as (l'' & -> & Hl''); [done|]. eauto.
  Qed.

  Lemma loop_members m t : members m t -> forall fuel l d out rest,
    (length d < bound)%nat -> lx_Data l = d -> lx_kind l = KUndef -> lx_err l = false ->
    (length m < fuel)%nat -> (length (t ++ rest) < length d)%nat -> Forall (fun x => ok x.1 x.2) m ->
    fetch_loop l (lx_sep l) (lx_rest l) = fetch_loop l c0 (t ++ "}"%char :: rest) ->
    match fold_members m out with
    | Some out' => decode_loop field fuel l out = (Closed d rest false, out')
    | None => exists l' out', decode_loop field fuel l out = (l', out') /\ lx_err l' = true
    end.
  Proof.
    assert (Hfollow : forall w c r, spaces w -> isTokenEnd c = true -> follow (w ++ c :: r)).
    { intros w c r Hw Hc. destruct w as [|x w]; [done|]. cbn [app follow].
      apply Forall_cons in Hw as [Hx _]. by apply space_facts in Hx as (_ & _ & _ & _ & ->). }
    induction 1 as [w1 k kt w2 w3 j t w4 Hw1 Hkt Hw2 Hw3 Hv Hw4
                   |w1 k kt w2 w3 j t w4 m ts Hw1 Hkt Hw2 Hw3 Hv Hw4 Hm IH];
      intros fuel l d out rest Hbd Hd Hk He Hfu Hlen Hok Hfetch;
      (destruct fuel as [|fuel]; [lia|]); cbn [length] in Hfu.
    - apply Forall_cons in Hok as [Hok _]. cbn [fst snd] in Hok.
      rewrite <- !app_assoc in Hfetch.
      repeat rewrite app_length in Hlen. cbn [length] in Hlen.
      pose proof (loop_member fuel l d out w1 k kt w2 w3 j t (w4 ++ "}"%char :: rest) Hbd Hd Hk He Hw1 Hkt Hw2 Hw3 Hv
                    ltac:(by apply Hfollow) ltac:(rewrite !app_length; cbn [length]; lia) Hok Hfetch) as Hm.
      cbn [fold_members].
      destruct (if is_null j then Some out else step k j out) as [out'|]; [|done].
      rewrite Hm. apply loop_close; [|lia].
      change (fetch_loop (At d (w4 ++ "}"%char :: rest) false ",") "," (w4 ++ "}"%char :: rest) = Closed d rest false).
      rewrite fetch_spaces by done. done.
    - apply Forall_cons in Hok as [Hok Hoks]. cbn [fst snd] in Hok.
      rewrite <- !app_assoc in Hfetch.
      repeat rewrite app_length in Hlen. cbn [length] in Hlen.
      pose proof (loop_member fuel l d out w1 k kt w2 w3 j t (w4 ++ ","%char :: ts ++ "}"%char :: rest) Hbd Hd Hk He Hw1 Hkt Hw2 Hw3 Hv
                    ltac:(by apply Hfollow)
                    ltac:(repeat (rewrite app_length; cbn [length]); lia) Hok Hfetch) as Hm'.
      cbn [fold_members].
      destruct (if is_null j then Some out else step k j out) as [out'|]; [|done].
      rewrite Hm'. apply IH; try done; [lia|rewrite app_length; lia|].
      cbn [At lx_sep lx_rest]. by apply fetch_sep; [|right].
  Qed.

  Lemma object_inner m t :
    value (JObj m) t ->
    exists u, t = "{"%char :: u ++ ["}"%char] /\ (m = [] /\ spaces u \/ members m u).
  Proof. intros H. inversion H; subst; eexists; (split; [reflexivity|]); eauto. Qed.

  Lemma loop_object fuel d m u out rest :
    (length d < bound)%nat -> m = [] /\ spaces u \/ members m u ->
    (length m < fuel)%nat -> (length (u ++ rest) < length d)%nat -> Forall (fun x => ok x.1 x.2) m ->
    match fold_members m out with
    | Some out' => exists f, decode_loop field fuel (At d (u ++ "}"%char :: rest) true c0) out = (Closed d rest f, out')
    | None => exists l' out', decode_loop field fuel (At d (u ++ "}"%char :: rest) true c0) out = (l', out') /\ lx_err l' = true
    end.
  Proof.
    intros Hbd [[-> Hu]|Hm] Hfu Hlen Hok.
    - cbn [fold_members]. exists true. apply loop_close; [|done].
      change (fetch_loop (At d (u ++ "}"%char :: rest) true c0) c0 (u ++ "}"%char :: rest) = Closed d rest true).
      rewrite fetch_spaces by done. done.
    - pose proof (loop_members m u Hm fuel (At d (u ++ "}"%char :: rest) true c0) d out rest Hbd
                    eq_refl eq_refl eq_refl Hfu Hlen Hok eq_refl) as H.
      destruct (fold_members m out); eauto.
  Qed.

  (** the struct decoder on a value whose first token has been read, inside
      another value *)
  Lemma decode_nested fuel d first j t rest out :
    (length d < fuel)%nat -> (length d < bound)%nat -> value j t -> is_null j = false -> (length (t ++ rest) <= length d)%nat ->
    match j with JObj m => Forall (fun x => ok x.1 x.2) m | _ => True end ->
    match (match j with JObj m => fold_members m out | _ => None end) with
    | Some out' => exists f, decode_object field fuel (Read d first j t rest) out = (At d rest f c0, out')
    | None => exists l' out', decode_object field fuel (Read d first j t rest) out = (l', out') /\ lx_err l' = true
    end.
  Proof.
    intros Hfuel Hbd Hv Hn Hlen Hok. unfold decode_object. rewrite read_null, Hn.
    assert (Htop : IsStart (Read d first j t rest) = false).
    { unfold IsStart. apply Nat.eqb_neq. pose proof (read_rest d first j t rest Hv Hlen) as Hr.
      replace (lx_Data (Read d first j t rest)) with d by (by destruct j). lia. }
    rewrite Htop.
    assert (Hbad : lx_err (Delim "{" (Read d first j t rest)) = true ->
      exists l' out', (let '(in_, out0) :=
         decode_loop field fuel (Delim "{" (Read d first j t rest)) out in
         (Delim "}" in_, out0)) = (l', out') /\ lx_err l' = true).
    { intros He. destruct (loop_err fuel
                             (Delim "{" (Read d first j t rest)) out He) as (l' & -> & Hl').
      eexists _, _. split; [reflexivity|]. unfold Delim. rewrite scan_err, Hl' by done. done. }
    destruct j as [|b|o|s|l|m]; try (apply Hbad; done).
    apply object_inner in Hv as (u & -> & Hu).
    assert (HD : Delim "{" (Read d first (JObj m) ("{"%char :: u ++ ["}"%char]) rest) = At d (u ++ "}"%char :: rest) true c0).
    { unfold Delim. rewrite scan_read, read_err. unfold Read, first_token, open_token. cbn [lx_delim orb tail].
      change (negb ("{" =c "{")) with false. cbn iota. unfold consume. cbn. by rewrite <- app_assoc. }
    rewrite HD in *. cbn [lx_rest At].
    cbn [app length] in Hlen. rewrite !app_length in Hlen. cbn [length] in Hlen.
    pose proof (loop_object fuel d m u out rest Hbd Hu) as Hloop.
    assert (Hml : (length m <= length u)%nat).
    { destruct Hu as [[-> _]|Hm]; [cbn; lia|by apply members_length]. }
    specialize (Hloop ltac:(lia) ltac:(rewrite app_length; lia) Hok).
    destruct (fold_members m out) as [out'|].
    - destruct Hloop as [f ->]. by exists f.
    - destruct Hloop as (l' & out' & -> & Hl'). eexists _, _. split; [reflexivity|].
      unfold Delim. rewrite scan_err, Hl' by done. done.
  Qed.

  (** the struct decoder on a whole text *)
  Lemma decode_top fuel j t out :
    (length t < fuel)%nat -> (length t < bound)%nat -> json_text j t ->
    match j with JObj m => Forall (fun x => ok x.1 x.2) m | _ => True end ->
    match (match j with JNull => Some out | JObj m => fold_members m out | _ => None end) with
    | Some out' => exists l', decode_object field fuel (NewLexer t) out = (l', out') /\ lx_err l' = false
    | None => exists l' out', decode_object field fuel (NewLexer t) out = (l', out') /\ lx_err l' = true
    end.
  Proof.
    intros Hfuel Hbd Hjt Hok. destruct Hjt as [w1 j' t' w2 Hw1 Hv Hw2]. unfold decode_object.
    set (d := w1 ++ t' ++ w2) in *.
    assert (Htop : IsStart (NewLexer d) = true) by (unfold IsStart; apply Nat.eqb_refl).
    assert (Hf2 : follow w2).
    { destruct w2 as [|x w2]; [done|]. cbn [follow]. apply Forall_cons in Hw2 as [Hx _].
      by apply space_facts in Hx as (_ & _ & _ & _ & ->). }
    assert (Hcons : forall k b dl f, Consumed (MkLexer d w2 k b dl f c0 false) = MkLexer d w2 k b dl f c0 false).
    { assert (Hw : forallb is_ws w2 = true).
      { apply forallb_forall. intros c Hc. rewrite <- elem_of_list_In in Hc.
        unfold spaces in Hw2. rewrite Forall_forall in Hw2. apply Hw2 in Hc.
        by apply space_facts in Hc as (-> & _). }
      intros k b dl f. unfold Consumed. cbn [lx_err lx_rest]. rewrite Hw. done. }
    assert (Hread : IsNull (NewLexer d) = (Read d false j' t' w2, is_null j')).
    { assert (Hs : scanToken (NewLexer d) = Read d false j' t' w2).
      { change (scanToken (NewLexer d)) with (fetch_loop (NewLexer d) c0 (w1 ++ t' ++ w2)).
        rewrite fetch_spaces by done. rewrite (fetch_value _ j' t' w2) by done.
        by rewrite (first_token_read _ d false). }
      unfold IsNull. rewrite Hs, read_err. by destruct j'. }
    rewrite Htop, Hread.
    assert (Hbad : lx_err (Delim "{" (Read d false j' t' w2)) = true ->
      exists l' out', (let '(in_, out0) :=
         decode_loop field fuel (Delim "{" (Read d false j' t' w2)) out in
         (Consumed (Delim "}" in_), out0)) = (l', out') /\ lx_err l' = true).
    { intros He. destruct (loop_err fuel
                             (Delim "{" (Read d false j' t' w2)) out He) as (l' & -> & Hl').
      eexists _, _. split; [reflexivity|]. unfold Delim. rewrite scan_err, Hl' by done. done. }
    destruct j' as [|b|o|s|l|m]; cbn [is_null]; try (apply Hbad; done).
    - eexists. split; [reflexivity|].
      unfold Read, first_token, token. cbn [At lx_Data lx_first lx_err]. by rewrite Hcons.
    - apply object_inner in Hv as (u & -> & Hu).
      assert (HD : Delim "{" (Read d false (JObj m) ("{"%char :: u ++ ["}"%char]) w2) = At d (u ++ "}"%char :: w2) true c0).
      { unfold Delim. rewrite scan_read, read_err. unfold Read, first_token, open_token. cbn [lx_delim orb tail].
        change (negb ("{" =c "{")) with false. cbn iota. unfold consume. cbn. by rewrite <- app_assoc. }
      rewrite HD in *. cbn [lx_rest At].
      pose proof (loop_object fuel d m u out w2 Hbd Hu) as Hloop.
      assert (Hml : (length m <= length u)%nat).
      { destruct Hu as [[-> _]|Hm]; [cbn; lia|by apply members_length]. }
      specialize (Hloop ltac:(unfold d in Hfuel; repeat (rewrite app_length in Hfuel; cbn [length] in Hfuel); lia)
        ltac:(unfold d; repeat (rewrite app_length; cbn [length]); lia) Hok).
      destruct (fold_members m out) as [out'|].
      + destruct Hloop as [f ->]. eexists. split; [reflexivity|].
        change (Delim "}" (Closed d w2 f)) with (At d w2 f c0). unfold At. by rewrite Hcons.
      + destruct Hloop as (l' & out' & -> & Hl'). eexists _, _. split; [reflexivity|].
        unfold Delim. rewrite scan_err, Hl' by done. done.
  Qed.
End decode.

(** ** The two decoders *)
Definition key_id : bytes := bytes_str "id".
Definition key_raw : bytes := bytes_str "raw".
Definition key_doc : bytes := bytes_str "doc".
Definition key_hits : bytes := bytes_str "hits".

Definition step_doc (k : bytes) (j : json) (out : Doc) : option Doc :=
  if decide (k = key_id) then s ← as_string j; Some (MkDoc s (doc_Content out))
  else if decide (k = key_raw) then s ← as_string j; Some (MkDoc (doc_Name out) s)
  else Some out.

Definition step_result (k : bytes) (j : json) (out : SearchResult) : option SearchResult :=
  if decide (k = key_doc) then
    d ← match j with JObj m => fold_members step_doc m (sr_Document out) | _ => None end;
    Some (MkSR d (sr_Hits out))
  else if decide (k = key_hits) then z ← as_int64 j; Some (MkSR (sr_Document out) z)
  else Some out.

(** What [json.Valid] is needed for: skipping the values of other fields. *)
Definition ok_doc (valid : bytes -> bool) (k : bytes) (j : json) : Prop :=
  (forall t, value j t -> valid t = true) \/ k = key_id \/ k = key_raw.
Definition ok_result (valid : bytes -> bool) (k : bytes) (j : json) : Prop :=
  (k <> key_doc /\ forall t, value j t -> valid t = true) \/ k = key_hits \/
  (k = key_doc /\ match j with JObj m => Forall (fun x => ok_doc valid x.1 x.2) m | _ => True end).

Lemma doc_field_ok valid fuel k j t d rest out :
  (length d < fuel)%nat -> value j t -> is_null j = false -> follow rest -> (length (t ++ rest) <= length d)%nat -> ok_doc valid k j ->
  match step_doc k j out with
  | Some out' => exists f, doc_field valid k (Read d false j t rest) out = (At d rest f c0, out')
  | None => exists l' out', doc_field valid k (Read d false j t rest) out = (l', out') /\ lx_err l' = true
  end.
Proof.
  intros _ Hv Hn Hf Hl Hok. unfold step_doc, doc_field. fold key_id key_raw.
  pose proof (read_string d false j t rest Hv) as Hs.
  destruct (decide (k = key_id)) as [->|H1].
  { rewrite bool_decide_eq_true_2 by done. destruct j; cbn [as_string mbind option_bind]; rewrite Hs; by eauto. }
  rewrite bool_decide_eq_false_2 by done.
  destruct (decide (k = key_raw)) as [->|H2].
  { rewrite bool_decide_eq_true_2 by done. destruct j; cbn [as_string mbind option_bind]; rewrite Hs; by eauto. }
  rewrite bool_decide_eq_false_2 by done.
  destruct Hok as [Hc|[?|?]]; [|done|done].
  destruct (read_skip valid d false j t rest (Hc t Hv) Hv) as [f ->]. by exists f.
Qed.

Lemma result_field_ok valid fuel k j t d rest out :
  (length d < fuel)%nat -> value j t -> is_null j = false -> follow rest -> (length (t ++ rest) <= length d)%nat -> ok_result valid k j ->
  match step_result k j out with
  | Some out' => exists f, result_field valid fuel k (Read d false j t rest) out = (At d rest f c0, out')
  | None => exists l' out', result_field valid fuel k (Read d false j t rest) out = (l', out') /\ lx_err l' = true
  end.
Proof.
  intros Hfuel Hv Hn Hf Hl Hok. unfold step_result, result_field. fold key_doc key_hits.
  destruct (decide (k = key_doc)) as [->|H1].
  { rewrite bool_decide_eq_true_2 by done.
    pose proof (decode_nested (doc_field valid) step_doc (ok_doc valid) fuel (doc_field_ok valid fuel)
                  fuel d false j t rest (sr_Document out) Hfuel Hfuel Hv Hn Hl) as H.
    unfold decode_doc.
    assert (Hoks : match j with JObj m => Forall (fun x => ok_doc valid x.1 x.2) m | _ => True end).
    { by destruct Hok as [[? _]|[?|[_ Hok]]]. }
    specialize (H Hoks).
    destruct (match j with JObj m => fold_members step_doc m (sr_Document out) | _ => None end) as [o|];
      cbn [mbind option_bind].
    - destruct H as [f ->]. by exists f.
    - destruct H as (l' & out' & -> & H). eauto. }
  rewrite bool_decide_eq_false_2 by done.
  destruct (decide (k = key_hits)) as [->|H2].
  { rewrite bool_decide_eq_true_2 by done. pose proof (read_int d false j t rest Hv) as H.
    destruct (as_int64 j) as [z|]; cbn [mbind option_bind].
    - rewrite H. eauto.
    - destruct H as (l' & z & -> & H). eauto. }
  rewrite bool_decide_eq_false_2 by done.
  destruct Hok as [[_ Hc]|[?|[? _]]]; [|done|done].
  destruct (read_skip valid d false j t rest (Hc t Hv) Hv) as [f ->]. by exists f.
Qed.

(** ** The fold over the members is the independent reading of the object *)
Lemma field_cons {A} (f : json -> option A) n k j m old :
  field f n ((k, j) :: m) old =
  if decide (k = n) then if is_null j then field f n m old else a ← f j; field f n m a
  else field f n m old.
Proof.
  unfold field, supplied. cbn [omap list_omap].
  destruct (decide (k = n)) as [->|]; [|done].
  destruct j; cbn [is_null]; try done; cbn [mapM];
    (destruct (f _) as [a|]; cbn [mbind option_bind mret option_ret]; [|done]);
    (match goal with |- context [mapM f ?l] => destruct (mapM f l) as [vs|] end; cbn [mbind option_bind mret option_ret]; [|done]);
    rewrite last_cons; by destruct (last vs).
Qed.

Lemma fold_doc m out : fold_members step_doc m out = doc_value m out.
Proof.
  revert out. induction m as [|[k j] m IH]; intros [nm ct]; [done|]. cbn [fold_members].
  unfold doc_value. fold key_id key_raw. rewrite !field_cons.
  unfold step_doc. cbn [doc_Name doc_Content].
  destruct (is_null j) eqn:En.
  { rewrite IH. unfold doc_value. cbn [doc_Name doc_Content]. fold key_id key_raw. by do 2 case_decide. }
  destruct (decide (k = key_id)) as [->|H1].
  { rewrite decide_False by done. destruct (as_string j) as [s|]; cbn [mbind option_bind mret option_ret]; [|done].
    rewrite IH. done. }
  destruct (decide (k = key_raw)) as [->|H2].
  { destruct (as_string j) as [s|]; cbn [mbind option_bind mret option_ret].
    - rewrite IH. done.
    - by destruct (field as_string key_id m nm). }
  rewrite IH. done.
Qed.

Lemma foldl_none {A B} (f : B -> A -> option A) l :
  foldl (fun d m => d ≫= f m) None l = None.
Proof. induction l; done. Qed.

Lemma fold_result m out : fold_members step_result m out = result_value m out.
Proof.
  revert out. induction m as [|[k j] m IH]; intros [dc ht]; [done|]. cbn [fold_members].
  unfold result_value. fold key_doc key_hits. rewrite !field_cons. unfold supplied. cbn [omap list_omap].
  unfold step_result. cbn [sr_Document sr_Hits].
  destruct (is_null j) eqn:En.
  { destruct j; try done. rewrite IH. unfold result_value, supplied. cbn [sr_Document sr_Hits]. fold key_doc key_hits.
    by do 2 case_decide. }
  destruct (decide (k = key_doc)) as [->|H1].
  { rewrite decide_False by done.
    destruct j as [|b|o|s|l|m']; cbn [mapM as_object mbind option_bind mret option_ret]; try done.
    rewrite fold_doc.
    destruct (doc_value m' dc) as [dc'|] eqn:E; cbn [mbind option_bind mret option_ret].
    - rewrite IH. unfold result_value, supplied. cbn [sr_Document sr_Hits]. fold key_doc key_hits.
      destruct (mapM as_object _) as [docs|]; cbn [mbind option_bind mret option_ret]; [|done].
      cbn [foldl mbind option_bind mret option_ret]. by rewrite E.
    - destruct (mapM as_object _) as [docs|]; cbn [mbind option_bind mret option_ret]; [|done].
      cbn [foldl mbind option_bind mret option_ret]. rewrite E, foldl_none. done. }
  destruct (decide (k = key_hits)) as [->|H2].
  { destruct (as_int64 j) as [z|]; cbn [mbind option_bind mret option_ret].
    - rewrite IH. done.
    - destruct (mapM as_object _) as [docs|]; cbn [mbind option_bind mret option_ret]; [|done].
      by destruct (foldl _ _ _). }
  rewrite IH. done.
Qed.

Lemma unmarshal_text valid j t v :
  json_text j t ->
  match j with JObj m => Forall (fun x => ok_result valid x.1 x.2) m | _ => True end ->
  match decoded j v with
  | Some v' => UnmarshalJSON valid t v = (v', false)
  | None => exists v', UnmarshalJSON valid t v = (v', true)
  end.
Proof.
  intros Ht Hok. unfold UnmarshalJSON, decode_result.
  pose proof (decode_top (result_field valid (S (length t))) step_result (ok_result valid) (S (length t)) (result_field_ok valid (S (length t))) (S (length t)) j t v ltac:(lia) ltac:(lia) Ht Hok) as H.
  unfold decoded. destruct j as [|b|o|s|l|m]; try rewrite fold_result in H;
    try (destruct H as (l' & v' & -> & ->); eauto).
  - destruct H as (l' & -> & ->). done.
  - destruct (result_value m v).
    + destruct H as (l' & -> & ->). done.
    + destruct H as (l' & v' & -> & ->). eauto.
Qed.

(** ** Writing strings *)
(** What becomes of one character, and the pieces it is written as. *)
Definition esc_char (x : N * bytes) : bytes :=
  let '(r, bs) := x in
  if r <? 0x80 then if no_escape r then bs else escape r
  else if (r =? RuneError) && (length bs =? 1)%nat then ["\"; "u"; "f"; "f"; "f"; "d"]%char
  else if (r =? 0x2028) || (r =? 0x2029) then ["\"; "u"; "2"; "0"; "2"]%char ++ [hex_char (N.land r 0xF)]
  else bs.

Lemma write_chars s l : chars s l -> forall fuel out pend,
  (length s <= fuel)%nat -> write_loop fuel out pend s = out ++ pend ++ concat (map esc_char l).
Proof.
  induction 1 as [|r s l Hr Hc IH|b s l Hb Hc IH]; intros fuel out pend Hf.
  - cbn [map concat]. rewrite app_nil_r. by destruct fuel.
  - destruct (utf8 r) as [|c u] eqn:Eu; [by apply utf8_nonempty in Eu|].
    cbn [app length] in Hf. destruct fuel as [|fuel]; [lia|]. cbn [app].
    assert (Hdec : DecodeRune (c :: u ++ s) = (r, length (c :: u))).
    { pose proof (Decode_utf8 r s Hr) as H. rewrite Eu in H. exact H. }
    cbn [write_loop map concat].
    destruct (N.ltb_spec r 0x80) as [Hlt|Hge].
    + assert (Hc1 : u = [] /\ bN c = r).
      { unfold utf8 in Eu. rewrite (proj2 (N.ltb_lt r 0x80)) in Eu by done. cbn [map] in Eu.
        injection Eu as <- <-. split; [done|]. apply bN_Nb. lia. }
      destruct Hc1 as [-> Hc1]. rewrite Hc1. unfold RuneSelf. rewrite (proj2 (N.ltb_lt r 0x80)) by done.
      assert (Hesc : esc_char (r, [c]) = if no_escape r then [c] else escape r).
      { unfold esc_char. by rewrite (proj2 (N.ltb_lt r 0x80)). }
      cbn [app] in *. rewrite Hesc.
      destruct (no_escape r); rewrite IH by lia; cbn [app]; by rewrite <- ?app_assoc.
    + assert (Hc1 : 0x80 <= bN c).
      { unfold utf8 in Eu. unfold scalar in Hr. rewrite (proj2 (N.ltb_ge r 0x80)) in Eu by done.
        destruct (N.ltb_spec r 0x800); [|destruct (N.ltb_spec r 0x10000)]; cbn [map] in Eu;
          injection Eu as <- _; rewrite bN_Nb; lia. }
      unfold RuneSelf. rewrite (proj2 (N.ltb_ge (bN c) 0x80)) by done. rewrite Hdec.
      assert (Hw : (r =? RuneError) && (length (c :: u) =? 1)%nat = false).
      { destruct (N.eqb_spec r RuneError) as [->|]; [|done]. 
        pose proof utf8_bad_not_width1 as Hl. rewrite Eu in Hl. by rewrite Hl. }
      assert (Hesc : esc_char (r, c :: u) =
         if (r =? 0x2028) || (r =? 0x2029) then ["\"; "u"; "2"; "0"; "2"]%char ++ [hex_char (N.land r 0xF)] else c :: u).
      { unfold esc_char. rewrite (proj2 (N.ltb_ge r 0x80)) by done. by rewrite Hw. }
      rewrite Hw, Hesc.
      assert (Hdrop : drop (length (c :: u)) (c :: u ++ s) = s) by (apply (drop_app (c :: u) s)).
      assert (Htake : take (length (c :: u)) (c :: u ++ s) = c :: u) by (apply (take_app (c :: u) s)).
      rewrite Hdrop, Htake.
      destruct ((r =? 0x2028) || (r =? 0x2029));
        rewrite IH by (rewrite app_length in Hf; lia); cbn [app]; by rewrite <- ?app_assoc.
  - cbn [length] in Hf. destruct fuel as [|fuel]; [lia|]. cbn [write_loop map concat].
    assert (Hlow : 0x80 <= bN b).
    { apply N.le_ngt. intros Hlt. apply (Hb (bN b)); [by apply scalar_ascii|].
      rewrite utf8_1 by done. by exists s. }
    unfold RuneSelf. rewrite (proj2 (N.ltb_ge (bN b) 0x80)) by done.
    assert (Hdec : DecodeRune (b :: s) = (RuneError, 1%nat)).
    { destruct (Decode_cases (b :: s)) as [(r & s' & Hr & He & _)|[Hd _]]; [done| |done].
      exfalso. apply (Hb r Hr). rewrite He. by apply prefix_app_r. }
    rewrite Hdec. change (esc_char (0xFFFD, [b])) with ["\"; "u"; "f"; "f"; "f"; "d"]%char. change ((RuneError =? RuneError) && (1 =? 1)%nat) with true. cbn iota.
    rewrite IH by lia. cbn [app]. by rewrite <- ?app_assoc.
Qed.

Definition char_pieces (x : N * bytes) : list piece :=
  let '(r, bs) := x in
  if r <? 0x80 then
    if no_escape r then map PByte bs
    else if (r =? 9) || (r =? 13) || (r =? 10) || (r =? 92) || (r =? 34) then [PByte (Nb r)] else [PUnit r]
  else if (r =? RuneError) && (length bs =? 1)%nat then [PUnit 0xFFFD]
  else if (r =? 0x2028) || (r =? 0x2029) then [PUnit r]
  else map PByte bs.

Lemma pieces_app ps t ps' t' : pieces_text ps t -> pieces_text ps' t' -> pieces_text (ps ++ ps') (t ++ t').
Proof.
  induction 1 as [|p u ps ts Hp _ IH]; intros H; [done|]. cbn [app]. rewrite <- app_assoc.
  constructor; [done|]. by apply IH.
Qed.

Lemma pieces_one p t : piece_text p t -> pieces_text [p] t.
Proof. intros H. rewrite <- (app_nil_r t). repeat constructor. done. Qed.

Lemma ascii_pieces c :
  bN c < 0x80 ->
  forall r, r = bN c ->
  pieces_text (char_pieces (r, [c])) (esc_char (r, [c])) /\
  forall ps, pieces_val (char_pieces (r, [c]) ++ ps) = c :: pieces_val ps.
Proof.
  intros Hc r ->. unfold char_pieces, esc_char. rewrite (proj2 (N.ltb_lt (bN c) 0x80)) by done.
  destruct (no_escape (bN c)) eqn:En.
  - split; [|done]. apply pieces_one. apply text_raw.
    + revert En. clear Hc. exhaust c.
    + intros ->. done.
    + intros ->. done.
  - assert (Hcases : bN c < 32 \/ bN c ∈ [34; 38; 60; 62; 92]).
    { revert En. clear Hc. exhaust c. }
    destruct ((bN c =? 9) || (bN c =? 13) || (bN c =? 10) || (bN c =? 92) || (bN c =? 34)) eqn:E5.
    + split; [|intros; cbn [app pieces_val]; by rewrite Nb_bN].
      apply pieces_one.
      assert (Hx : bN c ∈ [9; 13; 10; 92; 34]).
      { revert E5. clear. exhaust c. }
      apply elem_of_list_In in Hx. cbn [In] in Hx.
      repeat (destruct Hx as [<-|Hx]; [apply text_escape; by apply (bool_decide_unpack _)|]). done.
    + split.
      * apply pieces_one. unfold escape.
        assert (Hx : (bN c =? 9) = false /\ (bN c =? 13) = false /\ (bN c =? 10) = false /\
                     (bN c =? 92) = false /\ (bN c =? 34) = false).
        { revert E5. clear. exhaust c. }
        destruct Hx as (-> & -> & -> & -> & ->).
        assert (Hh : exists v3 v4, (hex_char (N.shiftr (bN c) 4), v3) ∈ hex_digits /\
                       (hex_char (N.land (bN c) 15), v4) ∈ hex_digits /\ bN c = 0 * 4096 + 0 * 256 + v3 * 16 + v4).
        { exists (N.shiftr (bN c) 4), (N.land (bN c) 15). revert Hc. clear. exhaust c. }
        destruct Hh as (v3 & v4 & H3 & H4 & Heq). rewrite Heq at 1.
        apply text_unit; try done; by apply (bool_decide_unpack _).
      * intros ps. cbn [app pieces_val]. rewrite !decide_False by (unfold high, low; lia).
        by rewrite utf8_1.
Qed.

Lemma raw_pieces bs :
  Forall (fun b => 0x80 <= bN b) bs ->
  pieces_text (map PByte bs) bs /\ forall ps, pieces_val (map PByte bs ++ ps) = bs ++ pieces_val ps.
Proof.
  induction 1 as [|b bs Hb _ [IH IHv]]; [split; [constructor|done]|]. split.
  - change (b :: bs) with ([b] ++ bs) at 2. cbn [map]. constructor; [|done]. apply text_raw; [lia|intros ->; done|intros ->; done].
  - intros ps. cbn [map app pieces_val]. by rewrite IHv.
Qed.

Lemma char_written x :
  char_ok x ->
  pieces_text (char_pieces x) (esc_char x) /\
  forall ps, pieces_val (char_pieces x ++ ps) = utf8 x.1 ++ pieces_val ps.
Proof.
  assert (Hfffd : pieces_text [PUnit 0xFFFD] ["\"; "u"; "f"; "f"; "f"; "d"]%char).
  { apply pieces_one. apply (text_unit "f" "f" "f" "d" 15 15 15 13); by apply (bool_decide_unpack _). }
  destruct x as [r bs]. intros [[Hr Hbs]|[Hr Hl]]; cbn [fst snd] in *.
  - subst bs. destruct (N.ltb_spec r 0x80) as [Hlt|Hge].
    + assert (Hu : utf8 r = [Nb r]).
      { unfold utf8. by rewrite (proj2 (N.ltb_lt r 0x80)). }
      rewrite Hu. apply ascii_pieces; rewrite bN_Nb; lia.
    + unfold char_pieces, esc_char. rewrite (proj2 (N.ltb_ge r 0x80)) by done.
      assert (Hw : (r =? RuneError) && (length (utf8 r) =? 1)%nat = false).
      { destruct (N.eqb_spec r RuneError) as [->|]; done. }
      rewrite Hw. destruct (N.eqb_spec r 0x2028) as [->|]; [|destruct (N.eqb_spec r 0x2029) as [->|]]; cbn [orb].
      * split; [|done]. apply pieces_one.
        apply (text_unit "2" "0" "2" "8" 2 0 2 8); by apply (bool_decide_unpack _).
      * split; [|done]. apply pieces_one.
        apply (text_unit "2" "0" "2" "9" 2 0 2 9); by apply (bool_decide_unpack _).
      * apply raw_pieces. unfold utf8. unfold scalar in Hr. rewrite (proj2 (N.ltb_ge r 0x80)) by done.
        destruct (N.ltb_spec r 0x800); [|destruct (N.ltb_spec r 0x10000)]; cbn [map];
          repeat constructor; rewrite bN_Nb; lia.
  - subst r. unfold char_pieces, esc_char. rewrite Hl. split; [done|]. done.
Qed.

(** The text of a written string, and its meaning: every character replaced by
    its encoding. *)
Lemma w_String_text s l :
  chars s l -> string_text (concat (map (fun x => utf8 x.1) l)) (w_String s).
Proof.
  intros H. unfold w_String. rewrite (write_chars s l H) by done. cbn [app].
  apply chars_ok in H.
  assert (Hp : exists ps, pieces_text ps (concat (map esc_char l)) /\ pieces_val ps = concat (map (fun x => utf8 x.1) l)).
  { induction H as [|x l Hx _ (ps & Hps & Hv)]; [exists []; split; [constructor|done]|].
    destruct (char_written x Hx) as [Ht Hx']. exists (char_pieces x ++ ps). cbn [map concat]. split.
    - by apply pieces_app.
    - by rewrite Hx', Hv. }
  destruct Hp as (ps & Hps & <-). by apply (string_quoted ps).
Qed.

(** ** Writing integers *)
Lemma digits_loop_app fuel u acc : digits_loop fuel u acc = digits_loop fuel u [] ++ acc.
Proof.
  revert u acc. induction fuel as [|fuel IH]; intros u acc; [done|]. cbn [digits_loop].
  destruct (u <? 10); [done|]. rewrite IH, (IH _ [_]). by rewrite <- app_assoc.
Qed.

Lemma digits_text fuel u :
  u < 10 ^ N.of_nat (S fuel) -> nat_text u (digits_loop (S fuel) u []).
Proof.
  revert u. induction fuel as [|fuel IH]; intros u Hu.
  - cbn [digits_loop]. change (10 ^ N.of_nat 1) with 10 in Hu. rewrite (proj2 (N.ltb_lt u 10)) by done.
    rewrite N.mod_small by done.
    destruct (decide (u = 0)) as [->|Hz]; [constructor|].
    replace u with (decimal [Nb (48 + u)]) at 1 by (unfold decimal; cbn [fold_left]; rewrite bN_Nb; lia).
    apply nat_digits; [unfold digit; rewrite bN_Nb; lia| |constructor].
    intros He. apply (f_equal bN) in He. rewrite bN_Nb in He by lia. change (bN "0") with 48 in He. lia.
  - change (digits_loop (S (S fuel)) u []) with
      (let acc := [Nb (48 + u mod 10)] in if u <? 10 then acc else digits_loop (S fuel) (u / 10) acc).
    cbv zeta. destruct (N.ltb_spec u 10) as [Hlt|Hge].
    + rewrite N.mod_small by done.
      destruct (decide (u = 0)) as [->|Hz]; [constructor|].
      replace u with (decimal [Nb (48 + u)]) at 1 by (unfold decimal; cbn [fold_left]; rewrite bN_Nb; lia).
      apply nat_digits; [unfold digit; rewrite bN_Nb; lia| |constructor].
      intros He. apply (f_equal bN) in He. rewrite bN_Nb in He by lia. change (bN "0") with 48 in He. lia.
    + rewrite digits_loop_app.
      assert (Hd : u / 10 < 10 ^ N.of_nat (S fuel)).
      { apply N.div_lt_upper_bound; [done|]. rewrite <- N.pow_succ_r'. by rewrite <- Nat2N.inj_succ. }
      apply IH in Hd. remember (u / 10) as q eqn:Eq.
      assert (Hq : 1 <= q) by (subst q; apply N.div_le_lower_bound; lia).
      assert (Hu10 : u = 10 * q + u mod 10) by (subst q; apply N.div_mod'; lia).
      pose proof (N.mod_lt u 10 ltac:(done)) as Hm. remember (u mod 10) as r eqn:Er. clear Eq Er IH Hu.
      remember (digits_loop (S fuel) q []) as ts eqn:Ets. clear Ets.
      inversion Hd as [E1 E2|c ds Hc Hz Hds E1 E2].
      { subst q. lia. }
      cbn [app]. replace u with (decimal (c :: ds ++ [Nb (48 + r)])).
      * apply nat_digits; [done|done|]. apply Forall_app. split; [done|]. repeat constructor; rewrite bN_Nb; lia.
      * unfold decimal in *. change (c :: ds ++ [Nb (48 + r)]) with ((c :: ds) ++ [Nb (48 + r)]).
        rewrite fold_left_app, E1. cbn [fold_left]. rewrite bN_Nb by lia. lia.
Qed.

Lemma AppendInt_text z : (- 2 ^ 63 <= z < 2 ^ 63)%Z -> int_text z (AppendInt z).
Proof.
  intros Hz. unfold AppendInt. destruct (Z.ltb_spec z 0).
  - replace z with (- Z.of_N (Z.to_N (- z)))%Z at 1 by lia. apply int_neg. apply digits_text.
    change (10 ^ N.of_nat 20) with 100000000000000000000. lia.
  - replace z with (Z.of_N (Z.to_N z))%Z at 1 by lia. apply int_pos. apply digits_text.
    change (10 ^ N.of_nat 20) with 100000000000000000000. lia.
Qed.

Lemma MarshalJSON_text r ln lc :
  chars (bytes_str (doc_Name (sr_Document r))) ln ->
  chars (bytes_str (doc_Content (sr_Document r))) lc ->
  (- 2 ^ 63 <= sr_Hits r < 2 ^ 63)%Z ->
  json_text
    (JObj [(key_doc, JObj [(key_id, JStr (concat (map (fun x => utf8 x.1) ln)));
                           (key_raw, JStr (concat (map (fun x => utf8 x.1) lc)))]);
           (key_hits, JNum (Some (sr_Hits r)))])
    (MarshalJSON r).
Proof.
  intros Hn Hc Hz.
  assert (Hsp : spaces []) by constructor.
  assert (Hkey : forall k t, k ∈ [key_id; key_raw; key_doc; key_hits] -> t = [""""%char] ++ k ++ [""""%char] -> string_text k t).
  { intros k t Hk ->. replace k with (pieces_val (map PByte k)) at 1.
    - apply string_quoted. apply elem_of_list_In in Hk. cbn [In] in Hk.
      repeat (destruct Hk as [<-|Hk]; [cbn; repeat (eapply (pieces_cons _ [_]); [apply text_raw; [done|done|done]|]); constructor|]). done.
    - clear. induction k as [|c k IH]; [done|]. cbn [map pieces_val]. by rewrite IH. }
  assert (Hdoc : value (JObj [(key_id, JStr (concat (map (fun x => utf8 x.1) ln)));
                              (key_raw, JStr (concat (map (fun x => utf8 x.1) lc)))]) (encode_doc (sr_Document r))).
  { unfold encode_doc.
    pose proof (m_one [] key_raw _ [] [] _ _ [] Hsp (Hkey key_raw _ ltac:(set_solver) eq_refl) Hsp Hsp
                  (v_string _ _ (w_String_text _ _ Hc)) Hsp) as H1.
    pose proof (m_more [] key_id _ [] [] _ _ [] _ _ Hsp (Hkey key_id _ ltac:(set_solver) eq_refl) Hsp Hsp
                  (v_string _ _ (w_String_text _ _ Hn)) Hsp H1) as H2.
    apply v_object in H2. revert H2. generalize (w_String (bytes_str (doc_Name (sr_Document r)))).
    generalize (w_String (bytes_str (doc_Content (sr_Document r)))). intros b1 b2 H2.
    cbn in H2 |- *. rewrite app_nil_r, <- app_assoc in H2. exact H2. }
  pose proof (m_one [] key_hits _ [] [] _ _ [] Hsp (Hkey key_hits _ ltac:(set_solver) eq_refl) Hsp Hsp
                (v_int _ _ (AppendInt_text _ Hz)) Hsp) as H1.
  pose proof (m_more [] key_doc _ [] [] _ _ [] _ _ Hsp (Hkey key_doc _ ltac:(set_solver) eq_refl) Hsp Hsp
                Hdoc Hsp H1) as H2.
  apply v_object in H2.
  pose proof (json_value [] _ _ [] Hsp H2 Hsp) as H3. revert H3. unfold MarshalJSON, encode_result.
  generalize (encode_doc (sr_Document r)) (AppendInt (sr_Hits r)). intros b1 b2 H3.
  cbn in H3 |- *. rewrite !app_nil_r, <- app_assoc in H3. exact H3.
Qed.

(** ** The decoders make progress on any input *)
Definition left (l : lexer) : nat := length (lx_rest l).
(** between tokens, unless there is an error *)
Definition idle (l : lexer) : Prop := lx_err l = true \/ lx_kind l = KUndef.

Lemma find_string_left odd acc data s t :
  find_string odd acc data = Some (s, t) -> (length t < length data)%nat.
Proof.
  revert odd acc. induction data as [|c data IH]; intros odd acc; [done|]. cbn [find_string length].
  destruct (c =c """"); [destruct odd|destruct (c =c "\")]; intros H;
    try (apply IH in H; lia). injection H as <- <-. lia.
Qed.

Lemma number_left hasE aE hasDot acc data s t ok :
  number_loop hasE aE hasDot acc data = (s, t, ok) -> (length t <= length data)%nat.
Proof.
  revert hasE aE hasDot acc. induction data as [|c data IH]; intros hasE aE hasDot acc; cbn [number_loop length].
  - intros [= <- <- <-]. done.
  - repeat case_match; intros Hx; try (apply IH in Hx; lia); injection Hx as <- <- <-; cbn [length]; lia.
Qed.

Lemma fetch_word_left word data t : fetch_word word data = Some t -> (length t <= length data)%nat.
Proof.
  revert data. induction word as [|w word IH]; intros [|c data]; cbn [fetch_word]; try done.
  - by intros [= <-].
  - case_match; [|done]. by intros [= <-].
  - case_match; [|done]. intros H'. apply IH in H'. cbn [length]. lia.
Qed.

Lemma fetch_left rest l sep :
  lx_err (fetch_loop l sep rest) = true \/
  lx_kind (fetch_loop l sep rest) <> KUndef /\ (left (fetch_loop l sep rest) < length rest)%nat.
Proof.
  revert l sep. induction rest as [|c rest IH]; intros l sep; [by left|]. cbn [fetch_loop length].
  assert (Hrec : forall sep', lx_err (fetch_loop l sep' rest) = true \/
     lx_kind (fetch_loop l sep' rest) <> KUndef /\ (left (fetch_loop l sep' rest) < S (length rest))%nat).
  { intros sep'. destruct (IH l sep') as [?|[? ?]]; [by left|right; split; [done|lia]]. }
  assert (Hw : forall k word, k <> KUndef ->
     lx_err (word_token l k (fetch_word (c :: word) (c :: rest))) = true \/
     lx_kind (word_token l k (fetch_word (c :: word) (c :: rest))) <> KUndef /\
     (left (word_token l k (fetch_word (c :: word) (c :: rest))) < S (length rest))%nat).
  { intros k word Hk. cbn [fetch_word]. rewrite Ascii.eqb_refl.
    destruct (fetch_word word rest) as [t|] eqn:E; cbn [word_token]; [|by left].
    right. split; [done|]. unfold left. cbn. apply fetch_word_left in E. lia. }
  repeat match goal with
  | |- context [if ?b then _ else _] => destruct b eqn:?
  | |- context [match find_string ?o ?a ?t with _ => _ end] => destruct (find_string o a t) as [[? ?]|] eqn:Ef
  | |- context [number_loop ?a ?b ?c ?d ?e] => destruct (number_loop a b c d e) as [[? ?] ?] eqn:En
  end; try (by left); try apply Hrec.
  - right. split; [done|]. unfold left. cbn. lia.
  - apply find_string_left in Ef. right. split; [done|]. unfold left. cbn. lia.
  - right. split; [done|]. unfold left. cbn. lia.
  - apply number_left in En. right. split; [done|]. unfold left. cbn. lia.
  - assert (c = "n"%char) as -> by by apply Ascii.eqb_eq. by apply Hw.
  - assert (c = "t"%char) as -> by by apply Ascii.eqb_eq. by apply Hw.
  - assert (c = "f"%char) as -> by by apply Ascii.eqb_eq. by apply Hw.
Qed.

Lemma fetch_le rest l sep :
  (length rest <= left l)%nat -> (left (fetch_loop l sep rest) <= left l)%nat.
Proof.
  revert l sep. induction rest as [|c rest IH]; intros l sep Hl; [done|]. cbn [fetch_loop]. cbn [length] in Hl.
  assert (Hrec : forall sep', (left (fetch_loop l sep' rest) <= left l)%nat) by (intros; apply IH; lia).
  assert (Hw : forall k word, (left (word_token l k (fetch_word word (c :: rest))) <= left l)%nat).
  { intros k word. destruct (fetch_word word (c :: rest)) as [t|] eqn:E; cbn [word_token]; [|done].
    apply fetch_word_left in E. cbn [length] in E. unfold left in *. cbn. lia. }
  repeat match goal with
  | |- context [if ?b then _ else _] => destruct b eqn:?
  | |- context [match find_string ?o ?a ?t with _ => _ end] => destruct (find_string o a t) as [[? ?]|] eqn:Ef
  | |- context [number_loop ?a ?b ?c ?d ?e] => destruct (number_loop a b c d e) as [[? ?] ?] eqn:En
  end; try apply Hrec; try apply Hw; try done.
  - unfold left in *. cbn. lia.
  - apply find_string_left in Ef. unfold left in *. cbn. lia.
  - unfold left in *. cbn. lia.
  - apply number_left in En. unfold left in *. cbn. lia.
Qed.

Lemma scan_le l : (left (scanToken l) <= left l)%nat.
Proof.
  unfold scanToken, FetchToken. destruct (lx_kind l); try done. destruct (lx_err l); [done|].
  by apply fetch_le.
Qed.

Lemma scan_progress l :
  lx_kind l = KUndef -> lx_err (scanToken l) = true \/
    lx_kind (scanToken l) <> KUndef /\ (left (scanToken l) < left l)%nat.
Proof.
  intros H. unfold scanToken. rewrite H. destruct (lx_err l) eqn:E; [by left|]. apply fetch_left.
Qed.

Lemma scan_busy l : lx_kind l <> KUndef -> scanToken l = l.
Proof. unfold scanToken. by destruct (lx_kind l). Qed.

(** a lexer operation *)
Definition shrinks (l l' : lexer) : Prop := (left l' <= left l)%nat /\ idle l'.

Lemma string_shrinks l : shrinks l (lx_String l).1.
Proof.
  unfold lx_String, shrinks. pose proof (scan_le l) as H.
  destruct (lx_err (scanToken l)) eqn:E; [split; [done|by left]|].
  destruct (lx_kind (scanToken l)); try (split; [done|by left]).
  destruct (unescape _ _); split; try done; [by right|by left].
Qed.

Lemma int_shrinks l : shrinks l (lx_Int l).1.
Proof.
  unfold lx_Int, shrinks. pose proof (scan_le l) as H.
  destruct (lx_err (scanToken l)) eqn:E; [split; [done|by left]|].
  destruct (lx_kind (scanToken l)); try (split; [done|by left]).
  destruct (ParseInt _) as [z []]; split; try done; [by left|by right].
Qed.

Lemma skip_left s e level q w done data sk t :
  skip_loop s e level q w done data = Some (sk, t) -> (length t <= length data)%nat.
Proof.
  revert level q w done. induction data as [|c data IH]; intros level q w dn; [done|]. cbn [skip_loop length].
  repeat case_match; intros H'; try (apply IH in H'; lia); injection H' as <- <-; lia.
Qed.

Lemma skip_shrinks valid l : shrinks l (SkipRecursive valid l).
Proof.
  unfold SkipRecursive, shrinks. pose proof (scan_le l) as H.
  set (l1 := scanToken l) in *.
  destruct (if lx_delim l1 =c "{" then _ else _) as [e|]; [|split; [done|by right]].
  destruct (skip_loop _ _ _ _ _ _ _) as [[sk t]|] eqn:E; [|split; [done|by left]].
  apply skip_left in E.
  destruct (valid _); (split; [unfold left in *; cbn; lia|]); [by right|by left].
Qed.

Section progress.
  Context {A : Type}.
  Implicit Types f : bytes -> lexer -> A -> lexer * A.

  Lemma delim_shrinks c l : shrinks l (Delim c l).
  Proof.
    unfold Delim, shrinks. pose proof (scan_le l) as H.
    destruct (lx_err (scanToken l) || negb (lx_delim (scanToken l) =c c)); split; try done; [by left|by right].
  Qed.

  Lemma loop_left f fuel l out :
    (forall k l out, shrinks l (f k l out).1) -> (left (decode_loop f fuel l out).1 <= left l)%nat.
  Proof.
    intros Hf. revert l out. induction fuel as [|fuel IH]; intros l out; [done|].
    cbn [decode_loop]. unfold IsDelim. pose proof (scan_le l) as H0.
    destruct (lx_err (scanToken l) || _); [done|].
    pose proof (string_shrinks (scanToken l)) as [H1 _].
    destruct (lx_String (scanToken l)) as [l1 key]. cbn [fst] in H1.
    unfold IsNull. pose proof (scan_le (WantColon l1)) as H2. change (left (WantColon l1)) with (left l1) in H2.
    destruct (negb _ && _).
    - etrans; [apply IH|]. change (left (WantComma (Skip ?x))) with (left (scanToken x)).
      pose proof (scan_le (scanToken (WantColon l1))). unfold WantComma, want, Skip, consume, left in *. cbn in *. lia.
    - pose proof (Hf key (scanToken (WantColon l1)) out) as [H3 _].
      destruct (f key (scanToken (WantColon l1)) out) as [l2 out']. cbn [fst] in H3.
      etrans; [apply IH|]. change (left (WantComma l2)) with (left l2). lia.
  Qed.

  Lemma object_shrinks f fuel l out :
    (forall k l out, shrinks l (f k l out).1) -> shrinks l (decode_object f fuel l out).1.
  Proof.
    intros Hf. unfold decode_object, IsNull. pose proof (scan_le l) as H0.
    assert (Hc : forall l, left (Consumed l) = left l).
    { intros l'. unfold Consumed. destruct (lx_err l'); [done|]. by destruct (forallb _ _). }
    assert (Hci : forall l, idle l -> idle (Consumed l)).
    { intros l' H. unfold Consumed. destruct (lx_err l') eqn:?; [by left|]. destruct (forallb _ _); [done|by left]. }
    destruct (negb _ && _); cbn [fst].
    - split; [|by right]. 
      pose proof (scan_le (if IsStart l then Consumed (scanToken l) else scanToken l)) as H1.
      change (left (Skip ?x)) with (left (scanToken x)).
      etrans; [exact H1|]. destruct (IsStart l); rewrite ?Hc; done.
    - pose proof (delim_shrinks "{" (scanToken l)) as [H1 _].
      pose proof (loop_left f fuel (Delim "{" (scanToken l)) out Hf) as H2.
      destruct (decode_loop f fuel (Delim "{" (scanToken l)) out) as [l2 out']. cbn [fst] in *.
      pose proof (delim_shrinks "}" l2) as [H3 H4].
      destruct (IsStart l); (split; [rewrite ?Hc; lia|]); [by apply Hci|done].
  Qed.

  (** Two loops whose field functions agree on what is left of the input do the
      same, whatever their fuel. *)
  Lemma loop_fuel f f' n :
    (forall k l out, shrinks l (f k l out).1) ->
    (forall k l out, (left l < n)%nat -> f k l out = f' k l out) ->
    forall fuel fuel' l out,
      idle l -> (left l < n)%nat -> (left l < fuel)%nat -> (left l < fuel')%nat ->
      decode_loop f fuel l out = decode_loop f' fuel' l out.
  Proof.
    intros Hf Hff. induction fuel as [|fuel IH]; intros fuel' l out Hi Hn H1 H2; [lia|].
    destruct fuel' as [|fuel']; [lia|]. cbn [decode_loop]. unfold IsDelim.
    destruct (lx_err (scanToken l)) eqn:E; [done|].
    assert (Hs : (left (scanToken l) < left l)%nat).
    { destruct Hi as [Hi|Hi]; [rewrite scan_err in E by done; congruence|].
      destruct (scan_progress l Hi) as [?|[_ ?]]; [congruence|done]. }
    destruct (false || _); [done|].
    pose proof (string_shrinks (scanToken l)) as [H3 _].
    destruct (lx_String (scanToken l)) as [l1 key]. cbn [fst] in H3.
    unfold IsNull. pose proof (scan_le (WantColon l1)) as H4. change (left (WantColon l1)) with (left l1) in H4.
    destruct (negb _ && _).
    - assert (H5 : (left (WantComma (Skip (scanToken (WantColon l1)))) < left l)%nat).
      { pose proof (scan_le (scanToken (WantColon l1))). unfold WantComma, want, Skip, consume, left in *. cbn in *. lia. }
      apply IH; [by right|lia..].
    - rewrite <- (Hff key (scanToken (WantColon l1)) out) by lia.
      pose proof (Hf key (scanToken (WantColon l1)) out) as [H5 H6].
      destruct (f key (scanToken (WantColon l1)) out) as [l2 out']. cbn [fst] in *.
      apply IH; [exact H6|..]; change (left (WantComma l2)) with (left l2); lia.
  Qed.

  Lemma object_fuel f f' n fuel fuel' l out :
    (forall k l out, shrinks l (f k l out).1) ->
    (forall k l out, (left l < n)%nat -> f k l out = f' k l out) ->
    (left l < n)%nat -> (left l < fuel)%nat -> (left l < fuel')%nat ->
    decode_object f fuel l out = decode_object f' fuel' l out.
  Proof.
    intros Hf Hff Hn H1 H2. unfold decode_object, IsNull. pose proof (scan_le l) as H0.
    destruct (negb _ && _); [done|].
    pose proof (delim_shrinks "{" (scanToken l)) as [H3 H4].
    rewrite (loop_fuel f f' n Hf Hff fuel fuel'); [done|done|lia..].
  Qed.
End progress.

Lemma doc_field_shrinks valid k l out : shrinks l (doc_field valid k l out).1.
Proof.
  unfold doc_field. pose proof (string_shrinks l) as H.
  case_bool_decide; [by destruct (lx_String l)|]. case_bool_decide; [by destruct (lx_String l)|].
  apply skip_shrinks.
Qed.

Lemma result_field_shrinks valid fuel k l out : shrinks l (result_field valid fuel k l out).1.
Proof.
  unfold result_field. case_bool_decide.
  { pose proof (object_shrinks (doc_field valid) fuel l (sr_Document out) (doc_field_shrinks valid)) as H'.
    unfold decode_doc. by destruct (decode_object (doc_field valid) fuel l (sr_Document out)). }
  case_bool_decide; [|apply skip_shrinks].
  pose proof (int_shrinks l) as H'. by destruct (lx_Int l).
Qed.

Lemma decode_result_fuel valid fuel fuel' l out :
  (left l < fuel)%nat -> (left l < fuel')%nat ->
  decode_result valid fuel l out = decode_result valid fuel' l out.
Proof.
  intros H1 H2. unfold decode_result.
  apply (object_fuel _ _ (S (left l))); [apply result_field_shrinks| |lia..].
  intros k l' out' Hl. unfold result_field. case_bool_decide; [|done].
  unfold decode_doc. 
  rewrite (object_fuel (doc_field valid) (doc_field valid) (S (left l)) fuel fuel'); [done|..]; try lia; try done.
  apply doc_field_shrinks.
Qed.
