(** * The reader accepts exactly the texts of SpecAccept.v. *)
From stdpp Require Import prelude strings list.
From Verif Require Import Entities Utf8 SpecUtf8 ProofUtf8 Json SpecJson SpecAccept ProofJson.
Open Scope N_scope.
Open Scope list_scope.

Ltac mem := apply elem_of_list_In; cbn [In]; by auto 10.

(** ** Strings *)
Lemma find_string_inv data : forall odd acc s t,
  find_string odd acc data = Some (s, t) ->
  exists u, s = acc ++ u /\ data = u ++ """"%char :: t /\
    if odd then exists e u', u = e :: u' /\ quoted u' else quoted u.
Proof.
  induction data as [|c data IH]; intros odd acc s t H; [done|]. cbn [find_string] in H.
  destruct (c =c """") eqn:Eq; [apply Ascii.eqb_eq in Eq as ->|].
  - destruct odd.
    + apply IH in H as (u & -> & -> & Hu). exists (""""%char :: u). rewrite <- app_assoc. eauto 10.
    + injection H as <- <-. exists []. rewrite app_nil_r. split; [done|]. split; [done|]. constructor.
  - destruct (c =c "\") eqn:Eb; [apply Ascii.eqb_eq in Eb as ->|].
    + apply IH in H as (u & -> & -> & Hu). exists ("\"%char :: u). rewrite <- app_assoc.
      split; [done|]. split; [done|]. destruct odd; cbn [negb] in Hu; [eauto|].
      destruct Hu as (e & u' & -> & Hu). by constructor.
    + apply IH in H as (u & -> & -> & Hu). exists (c :: u). rewrite <- app_assoc.
      split; [done|]. split; [done|]. destruct odd; [eauto|].
      apply Ascii.eqb_neq in Eq, Eb. by constructor.
Qed.

Lemma hex_val_inv a v : hex_val a = Some v -> (a, v) ∈ hex_digits.
Proof.
  intros H. assert (Ha : hex_val a = None \/ (a, default 0 (hex_val a)) ∈ hex_digits).
  { clear H. exhaust a. }
  rewrite H in Ha. by destruct Ha.
Qed.

Lemma getu4_inv data v :
  getu4 data = Some v ->
  exists a1 a2 a3 a4 d, data = "\"%char :: "u"%char :: a1 :: a2 :: a3 :: a4 :: d /\
    exists p, loose_piece p ["\"%char; "u"%char; a1; a2; a3; a4] /\
      Forall (fun c => special c = false) [a1; a2; a3; a4].
Proof.
  unfold getu4. intros H.
  destruct data as [|b [|u [|a1 [|a2 [|a3 [|a4 d]]]]]]; try done.
  destruct ((b =c "\") && (u =c "u")) eqn:E; [|done].
  apply andb_true_iff in E as [E1 E2]. apply Ascii.eqb_eq in E1 as ->, E2 as ->.
  destruct (hex_val a1) as [v1|] eqn:H1; [|done]. destruct (hex_val a2) as [v2|] eqn:H2; [|done].
  destruct (hex_val a3) as [v3|] eqn:H3; [|done]. destruct (hex_val a4) as [v4|] eqn:H4; [|done].
  apply hex_val_inv in H1, H2, H3, H4.
  exists a1, a2, a3, a4, d. split; [done|].
  exists (PUnit (v1 * 4096 + v2 * 256 + v3 * 16 + v4)). split.
  - by apply loose_other, text_unit.
  - repeat constructor; by eapply hex_facts.
Qed.

Lemma quoted_plain cs t : Forall (fun c => special c = false) cs -> quoted (cs ++ t) -> quoted t.
Proof.
  induction 1 as [|c cs Hc _ IH]; [done|]. cbn [app]. intros H. apply IH.
  inversion H; subst; [done|]. done.
Qed.

Lemma unescape_inv fuel : forall data s,
  quoted data -> unescape fuel data = Some s -> exists ps, loose_pieces ps data.
Proof.
  induction fuel as [|fuel IH]; intros data s Hq H.
  { destruct data; [|done]. exists []. constructor. }
  inversion Hq as [|b t Hb Hs Ht|e t Ht]; subst.
  { exists []. constructor. }
  - cbn [unescape] in H. apply Ascii.eqb_neq in Hs as Hs'. rewrite Hs' in H.
    destruct (unescape fuel t) as [s'|] eqn:E; [|done]. apply IH in E as [ps Hps]; [|done].
    exists (PByte b :: ps). apply (loose_cons (PByte b) [b]); [by constructor|done].
  - cbn [unescape] in H. change ("\" =c "\") with true in H. cbn iota in H.
    destruct (decodeEscape ("\"%char :: e :: t)) as [[r n]|] eqn:Ed; [|done].
    destruct (unescape fuel (drop n ("\"%char :: e :: t))) as [s'|] eqn:E; [|done]. clear H s.
    destruct (decide (e = "u"%char)) as [->|Hu].
    + unfold decodeEscape in Ed. change ("u" =c """") with false in Ed. change ("u" =c "/") with false in Ed.
      change ("u" =c "\") with false in Ed. change ("u" =c "b") with false in Ed. change ("u" =c "f") with false in Ed.
      change ("u" =c "n") with false in Ed. change ("u" =c "r") with false in Ed. change ("u" =c "t") with false in Ed.
      change ("u" =c "u") with true in Ed. cbn [orb] in Ed. cbn iota in Ed.
      destruct (getu4 ("\"%char :: "u"%char :: t)) as [rr|] eqn:Eg; [|done].
      apply getu4_inv in Eg as (a1 & a2 & a3 & a4 & d & [= ->] & p & Hp & Hsp).
      pose proof (quoted_plain _ _ Hsp Ht) as Hd.
      assert (Hone : n = 6%nat -> exists ps, loose_pieces ps ("\"%char :: "u"%char :: a1 :: a2 :: a3 :: a4 :: d)).
      { intros ->. cbn [drop] in E. rewrite ?drop_0 in E. apply IH in E as [ps Hps]; [|done].
        exists (p :: ps). by apply (loose_cons p ["\"%char; "u"%char; a1; a2; a3; a4]). }
      destruct (IsSurrogate rr); [|injection Ed as _ <-; by apply Hone].
      cbn [drop] in Ed. rewrite drop_0 in Ed.
      destruct (getu4 d) as [rr1|] eqn:Eg; [|injection Ed as _ <-; by apply Hone].
      destruct (DecodeSurrogates rr rr1 =? RuneError) eqn:Edec; [injection Ed as _ <-; by apply Hone|].
      injection Ed as _ <-.
      apply getu4_inv in Eg as (b1 & b2 & b3 & b4 & d' & -> & p' & Hp' & Hsp').
      inversion Hd as [|b t0 Hb Hs Ht0|e0 t0 Ht0]; subst; [done|].
      pose proof (quoted_plain _ _ Hsp' Ht0) as Hd'.
      cbn [drop] in E. rewrite ?drop_0 in E. apply IH in E as [ps Hps]; [|done].
      exists (p :: p' :: ps). apply (loose_cons p ["\"%char; "u"%char; a1; a2; a3; a4]); [done|].
      by apply (loose_cons p' ["\"%char; "u"%char; b1; b2; b3; b4]).
    + assert (He : exists m, (e, m) ∈ simple_escapes /\ n = 2%nat).
      { assert (Hc : (exists x, decodeEscape ("\"%char :: e :: t) = x) -> e = "u"%char \/ decodeEscape ("\"%char :: e :: t) = None \/
                  exists m, (e, m) ∈ simple_escapes).
        { intros _. unfold decodeEscape. 
          destruct (e =c """") eqn:E1; [apply Ascii.eqb_eq in E1 as ->; right; right; eexists; by apply elem_of_list_lookup; exists 0%nat|].
          destruct (e =c "/") eqn:E2; [apply Ascii.eqb_eq in E2 as ->; right; right; eexists; by apply elem_of_list_lookup; exists 2%nat|].
          destruct (e =c "\") eqn:E3; [apply Ascii.eqb_eq in E3 as ->; right; right; eexists; by apply elem_of_list_lookup; exists 1%nat|].
          cbn [orb].
          destruct (e =c "b") eqn:E4; [apply Ascii.eqb_eq in E4 as ->; right; right; eexists; by apply elem_of_list_lookup; exists 3%nat|].
          destruct (e =c "f") eqn:E5; [apply Ascii.eqb_eq in E5 as ->; right; right; eexists; by apply elem_of_list_lookup; exists 4%nat|].
          destruct (e =c "n") eqn:E6; [apply Ascii.eqb_eq in E6 as ->; right; right; eexists; by apply elem_of_list_lookup; exists 5%nat|].
          destruct (e =c "r") eqn:E7; [apply Ascii.eqb_eq in E7 as ->; right; right; eexists; by apply elem_of_list_lookup; exists 6%nat|].
          destruct (e =c "t") eqn:E8; [apply Ascii.eqb_eq in E8 as ->; right; right; eexists; by apply elem_of_list_lookup; exists 7%nat|].
          destruct (e =c "u") eqn:E9; [apply Ascii.eqb_eq in E9 as ->; by left|]. right; by left. }
        destruct (Hc ltac:(eauto)) as [?|[Hn|[m Hm]]]; [done|congruence|].
        exists m. split; [done|]. apply simple_facts in Hm as (_ & _ & Hm). rewrite Hm in Ed. by injection Ed. }
      destruct He as (m & Hm & ->). cbn [drop] in E. rewrite ?drop_0 in E. apply IH in E as [ps Hps]; [|done].
      exists (PByte (Nb m) :: ps). apply (loose_cons _ ["\"%char; e]); [by apply loose_other, text_escape|done].
Qed.

Lemma string_inv s v :
  quoted s -> unescape (length s) s = Some v -> loose_string v ([""""%char] ++ s ++ [""""%char]).
Proof.
  intros Hq Hu. destruct (unescape_inv _ _ _ Hq Hu) as [ps Hps].
  rewrite (unescape_loose ps s (length s)) in Hu by done. injection Hu as <-. by constructor.
Qed.

Lemma loose_string_inv v t :
  loose_string v t -> exists s, t = [""""%char] ++ s ++ [""""%char] /\ quoted s /\ unescape (length s) s = Some v.
Proof.
  intros [ps s Hps]. exists s. split; [done|]. split; [by eapply loose_quoted_text|]. by apply unescape_loose.
Qed.

(** ** Numbers *)

(** what the loop of fetchNumber eats, by its state *)
Inductive num_tail : bool -> bool -> bool -> bytes -> Prop :=
| nt_nil hE aE hD : num_tail hE aE hD []
| nt_digit hE aE hD c u : digit c -> num_tail hE false hD u -> num_tail hE aE hD (c :: u)
| nt_dot hE aE u : num_tail hE aE true u -> num_tail hE aE false ("."%char :: u)
| nt_e e aE hD u : e ∈ ["e"; "E"]%char -> num_tail true true true u -> num_tail false aE hD (e :: u)
| nt_sign c hE hD u : c ∈ ["+"; "-"]%char -> num_tail hE false hD u -> num_tail hE true hD (c :: u).

Lemma digit_inv c : in_rng 48 57 (bN c) = true -> digit c.
Proof. exhaust c. Qed.

Lemma number_loop_tail hE aE hD u acc rest :
  num_tail hE aE hD u -> follow rest -> number_loop hE aE hD acc (u ++ rest) = (acc ++ u, rest, true).
Proof.
  intros H Hf. revert acc. induction H as [hE aE hD|hE aE hD c u Hc _ IH|hE aE u _ IH|e aE hD u He _ IH|c hE hD u Hc _ IH];
    intros acc; cbn [app].
  - rewrite number_end by done. by rewrite app_nil_r.
  - cbn [number_loop]. apply digit_facts in Hc as (-> & _). rewrite IH. by rewrite <- app_assoc.
  - cbn [number_loop]. change (in_rng 48 57 (bN ".")) with false. change (("." =c ".") && negb false) with true. cbn iota.
    rewrite IH. by rewrite <- app_assoc.
  - cbn [number_loop].
    assert (Hce : in_rng 48 57 (bN e) = false /\ (e =c ".") = false /\ ((e =c "e") || (e =c "E")) = true).
    { apply elem_of_list_In in He. destruct He as [<-|[<-|[]]]; done. }
    destruct Hce as (-> & -> & ->). cbn [andb negb]. rewrite IH. by rewrite <- app_assoc.
  - cbn [number_loop].
    assert (Hce : in_rng 48 57 (bN c) = false /\ (c =c ".") = false /\ ((c =c "e") || (c =c "E")) = false /\
                  ((c =c "+") || (c =c "-")) = true).
    { apply elem_of_list_In in Hc. destruct Hc as [<-|[<-|[]]]; done. }
    destruct Hce as (-> & -> & -> & ->). cbn [andb negb]. rewrite IH. by rewrite <- app_assoc.
Qed.

Lemma number_loop_inv data : forall hE aE hD acc s t,
  number_loop hE aE hD acc data = (s, t, true) ->
  exists u, s = acc ++ u /\ data = u ++ t /\ num_tail hE aE hD u /\ follow t.
Proof.
  induction data as [|c data IH]; intros hE aE hD acc s t H; cbn [number_loop] in H.
  { injection H as <- <-. exists []. rewrite app_nil_r. repeat split. constructor. }
  destruct (in_rng 48 57 (bN c)) eqn:Ed.
  { apply IH in H as (u & -> & -> & Hu & Hf). exists (c :: u). rewrite <- app_assoc. repeat split; try done.
    constructor; [by apply digit_inv|done]. }
  destruct ((c =c ".") && negb hD) eqn:Edot.
  { apply andb_true_iff in Edot as [E1 E2]. apply Ascii.eqb_eq in E1 as ->. destruct hD; [done|].
    apply IH in H as (u & -> & -> & Hu & Hf). exists ("."%char :: u). rewrite <- app_assoc. repeat split; try done.
    by constructor. }
  destruct (((c =c "e") || (c =c "E")) && negb hE) eqn:Ee.
  { apply andb_true_iff in Ee as [E1 E2]. destruct hE; [done|].
    apply IH in H as (u & -> & -> & Hu & Hf). exists (c :: u). rewrite <- app_assoc. repeat split; try done.
    apply nt_e; [|done]. apply orb_true_iff in E1 as [E1|E1]; apply Ascii.eqb_eq in E1 as ->; mem. }
  destruct (((c =c "+") || (c =c "-")) && aE) eqn:Es.
  { apply andb_true_iff in Es as [E1 E2]. destruct aE; [|done].
    apply IH in H as (u & -> & -> & Hu & Hf). exists (c :: u). rewrite <- app_assoc. repeat split; try done.
    apply nt_sign; [|done]. apply orb_true_iff in E1 as [E1|E1]; apply Ascii.eqb_eq in E1 as ->; mem. }
  injection H as <- <- Ht. exists []. rewrite app_nil_r. repeat split; [constructor|done].
Qed.

Lemma num_tail_shape u :
  num_tail false false false u <->
  exists ds f x, Forall digit ds /\
    (f = [] \/ exists fs, Forall digit fs /\ f = "."%char :: fs) /\
    (x = [] \/ exists e sign es, e ∈ ["e"; "E"]%char /\ sign ∈ [[]; ["+"]; ["-"]]%char /\ Forall digit es /\
               x = e :: sign ++ es) /\
    u = ds ++ f ++ x.
Proof.
  split.
  - assert (Hd : forall hE hD aE u, num_tail hE aE hD u -> hE = true -> hD = true -> 
              exists sign es, sign ∈ (if aE then [[]; ["+"]; ["-"]]%char else [[]]) /\ Forall digit es /\ u = sign ++ es).
    { induction 1 as [hE aE hD|hE aE hD c u' Hc _ IH|hE aE u' _ IH|e aE hD u' He _ IH|c hE hD u' Hc _ IH]; intros E1 E2; subst.
      - exists [], []. split; [|done]. destruct aE; mem.
      - destruct (IH eq_refl eq_refl) as (sg & es & Hs & Hes & ->). apply elem_of_list_singleton in Hs as ->.
        exists [], (c :: es). split; [destruct aE; mem|]. split; [by constructor|done].
      - done.
      - done.
      - destruct (IH eq_refl eq_refl) as (sg & es & Hs & Hes & ->). apply elem_of_list_singleton in Hs as ->.
        exists [c], es. split; [|done]. apply elem_of_list_In in Hc. destruct Hc as [<-|[<-|[]]]; mem. }
    assert (Hx : forall hE hD aE u, num_tail hE aE hD u -> hE = false -> aE = false ->
              exists ds f x, Forall digit ds /\
                (f = [] \/ (hD = false /\ exists fs, Forall digit fs /\ f = "."%char :: fs)) /\
                (x = [] \/ exists e sign es, e ∈ ["e"; "E"]%char /\ sign ∈ [[]; ["+"]; ["-"]]%char /\ Forall digit es /\
                   x = e :: sign ++ es) /\ u = ds ++ f ++ x).
    { induction 1 as [hE aE hD|hE aE hD c u' Hc _ IH|hE aE u' _ IH|e aE hD u' He Hu' _|c hE hD u' Hc _ IH]; intros E1 E2; subst.
      - exists [], [], []. repeat split; eauto.
      - destruct (IH eq_refl eq_refl) as (ds & f & x & Hds & Hf & Hx & ->).
        exists (c :: ds), f, x. repeat split; [by constructor|done|done].
      - destruct (IH eq_refl eq_refl) as (ds & f & x & Hds & Hf & Hx & ->).
        destruct Hf as [->|[? _]]; [|done].
        exists [], ("."%char :: ds), x. repeat split; [constructor|right; split; [done|]; eauto|done].
      - apply Hd in Hu' as (sg & es & Hs & Hes & ->); [|done..].
        exists [], [], (e :: sg ++ es). repeat split; [constructor|by left|right; by exists e, sg, es].
      - done. }
    intros H. destruct (Hx _ _ _ _ H eq_refl eq_refl) as (ds & f & x & Hds & Hf & Hx' & ->).
    exists ds, f, x. repeat split; try done. destruct Hf as [->|[_ Hf]]; eauto.
  - intros (ds & f & x & Hds & Hf & Hx & ->).
    assert (Hdig : forall hE aE hD ds u, Forall digit ds -> num_tail hE false hD u -> num_tail hE aE hD u -> num_tail hE aE hD (ds ++ u)).
    { intros hE aE hD ds' u H Hu Hu'. destruct H as [|c ds' Hc H]; [done|]. cbn [app]. apply nt_digit; [done|].
      clear Hc c. induction H as [|c' ds' Hc' _ IH]; [done|]. cbn [app]. by apply nt_digit. }
    assert (Hex : forall hD, num_tail false false hD x).
    { intros hD. destruct Hx as [->|(e & sg & es & He & Hs & Hes & ->)]; [constructor|].
      apply nt_e; [done|].
      assert (Hes' : forall aE, num_tail true aE true es).
      { intros aE. rewrite <- (app_nil_r es). by apply Hdig; [|constructor|constructor]. }
      apply elem_of_list_In in Hs. destruct Hs as [<-|[<-|[<-|[]]]]; cbn [app]; [done|..]; (apply nt_sign; [mem|done]). }
    apply Hdig; [done| |]; (destruct Hf as [->|(fs & Hfs & ->)]; cbn [app]; [done|]; apply nt_dot; by apply Hdig).
Qed.

Lemma loose_number_tail t :
  loose_number t <-> exists c u, t = c :: u /\ (digit c \/ c = "-"%char) /\ num_tail false false false u.
Proof.
  split.
  - intros (c & ds & f & x & Hc & Hds & Hf & Hx & ->). exists c, (ds ++ f ++ x). split; [done|]. split; [done|].
    apply num_tail_shape. by exists ds, f, x.
  - intros (c & u & -> & Hc & Hu). apply num_tail_shape in Hu as (ds & f & x & Hds & Hf & Hx & ->).
    by exists c, ds, f, x.
Qed.

Lemma digits_val_spec a ds :
  digits_val a ds = if forallb (fun c => in_rng 48 57 (bN c)) ds
                    then Some (fold_left (fun a c => 10 * a + (bN c - 48)) ds a) else None.
Proof.
  revert a. induction ds as [|c ds IH]; intros a; [done|]. cbn [digits_val forallb fold_left].
  destruct (in_rng 48 57 (bN c)); [|done]. cbn [andb]. rewrite IH. destruct (forallb _ ds); [|done]. do 2 f_equal. lia.
Qed.

Lemma forallb_digits ds : forallb (fun c => in_rng 48 57 (bN c)) ds = true <-> Forall digit ds.
Proof.
  rewrite forallb_forall, Forall_forall. split; intros H c Hc.
  - apply digit_inv, H. by apply elem_of_list_In.
  - apply elem_of_list_In, H in Hc. by apply digit_facts in Hc as (-> & _).
Qed.

Lemma ParseInt_loose t z :
  (exists c u, t = c :: u /\ (digit c \/ c = "-"%char)) -> (ParseInt t = (z, false) <-> loose_int z t).
Proof.
  intros (c & u & -> & Hc). unfold ParseInt.
  assert (Hz : forall neg z', (let z := if neg : bool then (- Z.of_N z')%Z else Z.of_N z' in
      if in_int64 z then (z, false) else (if neg then min_int64 else max_int64, true)) = (z, false) <->
      z = (if neg then - Z.of_N z' else Z.of_N z')%Z /\ (- 2 ^ 63 <= z < 2 ^ 63)%Z).
  { intros neg z'. cbv zeta. rewrite in_int64_spec. case_bool_decide as Hin.
    - split; [intros [= <-]; done|intros [-> _]; done].
    - split; [done|]. intros [-> ?]. done. }
  destruct (c =c "-") eqn:E.
  - apply Ascii.eqb_eq in E as ->. unfold ParseUint.
    destruct u as [|d u].
    { split; [done|]. intros (ds & [Hne Hds] & Ht & _).
      destruct Ht as [[<- _]|[[= <-] _]]; [|done]. inversion Hds as [|? ? Hd _]; subst. vm_compute in Hd. by destruct Hd. }
    rewrite digits_val_spec. destruct (forallb _ (d :: u)) eqn:Ef.
    + apply forallb_digits in Ef. cbv zeta iota. rewrite (Hz true). split.
      * intros [-> Hr]. exists (d :: u). repeat split; try done; [by right|lia|lia].
      * intros (ds & [Hne Hds] & Ht & Hr). split; [|done].
        destruct Ht as [[<- _]|[[= <-] ->]]; [|done]. inversion Hds as [|? ? Hd _]; subst. vm_compute in Hd. by destruct Hd.
    + split; [done|]. intros (ds & [Hne Hds] & Ht & _). exfalso.
      destruct Ht as [[<- _]|[[= <-] _]].
      * inversion Hds as [|? ? Hd _]; subst. vm_compute in Hd. by destruct Hd.
      * apply forallb_digits in Hds. congruence.
  - apply Ascii.eqb_neq in E. destruct Hc as [Hc|]; [|done].
    pose proof (digit_facts c Hc) as (_ & _ & _ & _ & _ & _ & ->). unfold ParseUint.
    rewrite digits_val_spec. destruct (forallb _ (c :: u)) eqn:Ef.
    + apply forallb_digits in Ef. cbv zeta iota. rewrite (Hz false). split.
      * intros [-> Hr]. exists (c :: u). repeat split; try done; [by left|lia|lia].
      * intros (ds & [Hne Hds] & Ht & Hr). split; [|done]. by destruct Ht as [[<- ->]|[[= ? <-] _]].
    + split; [done|]. intros (ds & [Hne Hds] & Ht & _). exfalso.
      destruct Ht as [[<- _]|[[= ? <-] _]]; [|done]. apply forallb_digits in Hds. congruence.
Qed.

(** ** Fetching *)
Lemma fetch_word_inv word data rest : fetch_word word data = Some rest -> data = word ++ rest /\ follow rest.
Proof.
  revert data. induction word as [|w word IH]; intros data H; cbn [fetch_word app] in *.
  - destruct data as [|c data]; [by injection H as <-|].
    destruct (isTokenEnd c) eqn:E; [|done]. injection H as <-. done.
  - destruct data as [|c data]; [done|]. destruct (w =c c) eqn:E; [|done]. apply Ascii.eqb_eq in E as ->.
    apply IH in H as [-> Hf]. done.
Qed.
Lemma fetch_word_ok word rest : follow rest -> fetch_word word (word ++ rest) = Some rest.
Proof.
  intros Hf. induction word as [|w word IH]; cbn [app fetch_word].
  - destruct rest as [|c r]; [done|]. cbn in Hf. by rewrite Hf.
  - by rewrite Ascii.eqb_refl.
Qed.

(** the first token of a value of text [rest] *)
Inductive opens (d : bytes) (f : bool) : bytes -> lexer -> Prop :=
| op_string s t : quoted s -> opens d f ([""""%char] ++ s ++ [""""%char] ++ t) (MkLexer d t KString s c0 f c0 false)
| op_open c t : c ∈ ["{"; "["]%char -> opens d f (c :: t) (MkLexer d t KDelim [] c true c0 false)
| op_number n t : loose_number n -> follow t -> opens d f (n ++ t) (MkLexer d t KNumber n c0 f c0 false)
| op_null t : follow t -> opens d f (null_text ++ t) (MkLexer d t KNull [] c0 f c0 false)
| op_bool w t : bool_text w -> follow t -> opens d f (w ++ t) (MkLexer d t KBool [] c0 f c0 false).

Lemma space_inv c : is_ws c = true -> space c.
Proof. exhaust c. Qed.

Lemma fetch_opens l d f rest l1 :
  opens d f rest l1 -> lx_Data l = d -> lx_first l = f -> lx_err l = false -> fetch_loop l c0 rest = l1.
Proof.
  intros H Hd Hf He.
  assert (Htok : forall k bs t, token l k bs t = MkLexer d t k bs c0 f c0 false).
  { intros. unfold token. by rewrite Hd, Hf, He. }
  destruct H as [s t Hq|c t Hc|n t Hn Ht|t Ht|w t Hw Ht].
  - change (fetch_loop l c0 ([""""%char] ++ s ++ [""""%char] ++ t)) with
      (match find_string false [] (s ++ """"%char :: t) with
       | Some (s, t'') => token l KString s t'' | None => err l end).
    rewrite find_string_quoted by done. apply Htok.
  - assert (Ho : fetch_loop l c0 (c :: t) = open_token l c t).
    { apply elem_of_list_In in Hc. destruct Hc as [<-|[<-|[]]]; done. }
    rewrite Ho. unfold open_token. by rewrite Hd, He.
  - apply loose_number_tail in Hn as (c & u & -> & Hc & Hu). cbn [app].
    rewrite (fetch_number l c u t (c :: u)); [apply Htok|done|].
    by apply (number_loop_tail false false false u [c]).
  - change (fetch_loop l c0 (null_text ++ t)) with
      (word_token l KNull (fetch_word null_text (null_text ++ t))).
    rewrite fetch_word_ok by done. apply Htok.
  - destruct Hw as [-> | ->].
    + change (fetch_loop l c0 (["t"; "r"; "u"; "e"]%char ++ t)) with
        (word_token l KBool (fetch_word ["t"; "r"; "u"; "e"]%char (["t"; "r"; "u"; "e"]%char ++ t))).
      rewrite fetch_word_ok by done. apply Htok.
    + change (fetch_loop l c0 (["f"; "a"; "l"; "s"; "e"]%char ++ t)) with
        (word_token l KBool (fetch_word ["f"; "a"; "l"; "s"; "e"]%char (["f"; "a"; "l"; "s"; "e"]%char ++ t))).
      rewrite fetch_word_ok by done. apply Htok.
Qed.

Lemma opens_err d f rest l1 : opens d f rest l1 -> lx_err l1 = false.
Proof. by intros []. Qed.
Lemma opens_scan d f rest l1 : opens d f rest l1 -> scanToken l1 = l1.
Proof. by intros []. Qed.
Lemma opens_data d f rest l1 : opens d f rest l1 -> lx_Data l1 = d.
Proof. by intros []. Qed.
Lemma opens_rest d f rest l1 : opens d f rest l1 -> (length (lx_rest l1) < length rest)%nat.
Proof.
  intros [s t Hq|c t Hc|n t Hn Ht|t Ht|w t Hw Ht]; cbn [lx_rest]; rewrite ?app_length.
  - cbn [length]. lia.
  - cbn [length]. lia.
  - apply loose_number_tail in Hn as (c & u & -> & _). cbn [length]. lia.
  - unfold null_text. cbn [length]. lia.
  - destruct Hw as [-> | ->]; cbn [length]; lia.
Qed.

Lemma fetch_inv l d f sep rest :
  lx_Data l = d -> lx_first l = f -> lx_err l = false -> lx_err (fetch_loop l sep rest) = false ->
  exists w rest', spaces w /\ rest = w ++ rest' /\
    ((sep = c0 /\ opens d f rest' (fetch_loop l sep rest)) \/
     (exists t, sep ∈ [":"; ","]%char /\ rest' = sep :: t /\ fetch_loop l sep rest = fetch_loop l c0 t) \/
     (exists c t, c ∈ ["}"; "]"]%char /\ rest' = c :: t /\ (f = true \/ sep = ","%char) /\
        fetch_loop l sep rest = MkLexer d t KDelim [] c f c0 false)).
Proof.
  intros Hd Hf He. induction rest as [|c rest IH]; intros Hne; [done|].
  assert (Hop : forall l1, sep = c0 -> opens d f (c :: rest) l1 -> fetch_loop l sep (c :: rest) = l1 -> 
     exists w rest', spaces w /\ c :: rest = w ++ rest' /\
    ((sep = c0 /\ opens d f rest' (fetch_loop l sep (c :: rest))) \/
     (exists t, sep ∈ [":"; ","]%char /\ rest' = sep :: t /\ fetch_loop l sep (c :: rest) = fetch_loop l c0 t) \/
     (exists c' t, c' ∈ ["}"; "]"]%char /\ rest' = c' :: t /\ (f = true \/ sep = ","%char) /\
        fetch_loop l sep (c :: rest) = MkLexer d t KDelim [] c' f c0 false))).
  { intros l1 Hs Ho ->. exists [], (c :: rest). split; [constructor|]. split; [done|]. by left. }
  assert (Htok : forall k bs t, token l k bs t = MkLexer d t k bs c0 f c0 false).
  { intros. unfold token. by rewrite Hd, Hf, He. }
  cbn [fetch_loop] in *.
  destruct ((c =c ":") || (c =c ",")) eqn:E1.
  { destruct (sep =c c) eqn:E2; [|done]. apply Ascii.eqb_eq in E2 as ->.
    exists [], (c :: rest). split; [constructor|]. split; [done|]. right. left. exists rest. split; [|done].
    apply orb_true_iff in E1 as [E1|E1]; apply Ascii.eqb_eq in E1 as ->; mem. }
  destruct (is_ws c) eqn:E2.
  { destruct (IH Hne) as (w & rest' & Hw & -> & H). exists (c :: w), rest'.
    split; [constructor; [by apply space_inv|done]|]. split; [done|]. exact H. }
  clear IH.
  destruct ((c =c "}") || (c =c "]")) eqn:E3.
  { destruct (negb (lx_first l) && negb (sep =c ",")) eqn:E4; [done|].
    exists [], (c :: rest). split; [constructor|]. split; [done|]. right. right. exists c, rest.
    split; [apply orb_true_iff in E3 as [E3|E3]; apply Ascii.eqb_eq in E3 as ->; mem|].
    split; [done|]. split.
    - rewrite Hf in E4. apply andb_false_iff in E4 as [E4|E4]; apply negb_false_iff in E4; [by left|].
      right. by apply Ascii.eqb_eq.
    - unfold close_token. by rewrite Hd, Hf, He. }
  destruct (negb (sep =c c0)) eqn:E4; [done|]. apply negb_false_iff, Ascii.eqb_eq in E4 as ->.
  destruct (c =c """") eqn:E5.
  { apply Ascii.eqb_eq in E5 as ->. destruct (find_string false [] rest) as [[s t]|] eqn:Es; [|done].
    apply find_string_inv in Es as (u & -> & -> & Hu). eapply Hop; [done| |apply Htok].
    by apply (op_string d f u t). }
  destruct ((c =c "{") || (c =c "[")) eqn:E6.
  { eapply Hop; [done| |unfold open_token; by rewrite Hd, He]. constructor.
    apply orb_true_iff in E6 as [E6|E6]; apply Ascii.eqb_eq in E6 as ->; mem. }
  destruct (in_rng 48 57 (bN c) || (c =c "-")) eqn:E7.
  { destruct (number_loop false false false [c] rest) as [[s t] ok] eqn:En. destruct ok; [|done].
    apply number_loop_inv in En as (u & -> & -> & Hu & Hfo). eapply Hop; [done| |apply Htok].
    apply (op_number d f (c :: u)); [|done]. apply loose_number_tail. exists c, u. split; [done|]. split; [|done].
    apply orb_true_iff in E7 as [E7|E7]; [left; by apply digit_inv|right; by apply Ascii.eqb_eq]. }
  destruct (c =c "n") eqn:E8.
  { destruct (fetch_word _ (c :: rest)) as [t|] eqn:Ew; [|done]. apply fetch_word_inv in Ew as [Ew Hfo].
    eapply Hop; [done| |apply Htok]. rewrite Ew. by constructor. }
  destruct (c =c "t") eqn:E9.
  { destruct (fetch_word _ (c :: rest)) as [t|] eqn:Ew; [|done]. apply fetch_word_inv in Ew as [Ew Hfo].
    eapply Hop; [done| |apply Htok]. rewrite Ew. constructor; [by left|done]. }
  destruct (c =c "f") eqn:E10.
  { destruct (fetch_word _ (c :: rest)) as [t|] eqn:Ew; [|done]. apply fetch_word_inv in Ew as [Ew Hfo].
    eapply Hop; [done| |apply Htok]. rewrite Ew. constructor; [by right|done]. }
  done.
Qed.

(** a token in the place of a value or of the first token of a text *)
Lemma fetch_first l d rest :
  lx_Data l = d -> lx_first l = false -> lx_err l = false -> lx_err (fetch_loop l c0 rest) = false ->
  exists w rest', spaces w /\ rest = w ++ rest' /\ opens d false rest' (fetch_loop l c0 rest).
Proof.
  intros Hd Hf He Hne. destruct (fetch_inv l d false c0 rest Hd Hf He Hne) as (w & rest' & Hw & -> & H).
  exists w, rest'. split; [done|]. split; [done|].
  destruct H as [[_ H]|[(t & H & _)|(c & t & _ & _ & [?|?] & _)]]; try done.
  exfalso. revert H. apply (bool_decide_unpack _). by vm_compute.
Qed.

Lemma fetch_colon l d rest :
  lx_Data l = d -> lx_first l = false -> lx_err l = false -> lx_err (fetch_loop l ":" rest) = false ->
  exists w2 w3 rest', spaces w2 /\ spaces w3 /\ rest = w2 ++ [":"%char] ++ w3 ++ rest' /\
    opens d false rest' (fetch_loop l ":" rest).
Proof.
  intros Hd Hf He Hne. destruct (fetch_inv l d false ":" rest Hd Hf He Hne) as (w & rest' & Hw & -> & H).
  destruct H as [[? _]|[(t & _ & -> & E)|(c & t & _ & _ & [?|?] & _)]]; try done.
  rewrite E in Hne |- *. destruct (fetch_first l d t Hd Hf He Hne) as (w' & t' & Hw' & -> & Ho).
  exists w, w', t'. done.
Qed.

(** ** Errors stay *)
Lemma string_err l : lx_err l = true -> lx_String l = (err l, []).
Proof. intros H. unfold lx_String. by rewrite scan_err, H. Qed.
Lemma int_err l : lx_err l = true -> lx_err (lx_Int l).1 = true.
Proof. intros H. unfold lx_Int. by rewrite scan_err, H. Qed.
Lemma delim_err c l : lx_err l = true -> lx_err (Delim c l) = true.
Proof. intros H. unfold Delim. by rewrite scan_err, H. Qed.
Lemma skip_rec_err valid l : lx_err l = true -> lx_err (SkipRecursive valid l) = true.
Proof.
  intros H. unfold SkipRecursive. rewrite scan_err by done.
  destruct (if lx_delim l =c "{" then _ else _) as [e|]; [|done].
  destruct (skip_loop _ _ _ _ _ _ _) as [[sk rest]|]; [|done]. cbv zeta. by destruct (valid _).
Qed.
Lemma consumed_err l : lx_err l = true -> lx_err (Consumed l) = true.
Proof. intros H. unfold Consumed. by rewrite H. Qed.
Lemma null_err l : lx_err l = true -> IsNull l = (l, false).
Proof. intros H. unfold IsNull. by rewrite scan_err, H. Qed.

Lemma object_err {A} (field : bytes -> lexer -> A -> lexer * A) fuel l out :
  lx_err l = true -> lx_err (decode_object field fuel l out).1 = true.
Proof.
  intros H. unfold decode_object. rewrite null_err by done.
  destruct (loop_err field fuel (Delim "{" l) out) as (l' & -> & Hl'); [by apply delim_err|].
  cbn [fst]. destruct (IsStart l); [apply consumed_err|]; by apply delim_err.
Qed.

Lemma doc_field_err valid k l out : lx_err l = true -> lx_err (doc_field valid k l out).1 = true.
Proof.
  intros H. unfold doc_field. rewrite !string_err by done.
  do 2 (case_bool_decide; [done|]). by apply skip_rec_err.
Qed.
Lemma result_field_err valid fuel k l out : lx_err l = true -> lx_err (result_field valid fuel k l out).1 = true.
Proof.
  intros H. unfold result_field. case_bool_decide.
  { pose proof (object_err (doc_field valid) fuel l (sr_Document out) H) as He. unfold decode_doc.
    by destruct (decode_object _ _ _ _). }
  case_bool_decide.
  { pose proof (int_err l H) as He. by destruct (lx_Int l). }
  by apply skip_rec_err.
Qed.

(** ** Reading an object *)
Lemma spaces_app w w' : spaces w -> spaces w' -> spaces (w ++ w').
Proof. intros. by apply Forall_app. Qed.

Lemma members_spaces {A} (reads : bytes -> bytes -> A -> A -> Prop) w u a a' :
  spaces w -> loose_members reads u a a' -> loose_members reads (w ++ u) a a'.
Proof.
  intros Hw [w1 k kt w2 w3 t w4 b b' H1 H2 H3 H4 H5 H6|w1 k kt w2 w3 t w4 ts b b' b'' H1 H2 H3 H4 H5 H6 H7].
  - rewrite app_assoc. econstructor; eauto using spaces_app.
  - rewrite app_assoc. eapply lm_more; eauto using spaces_app.
Qed.

Section accept.
  Context {A : Type} (field : bytes -> lexer -> A -> lexer * A).
  Variable reads : bytes -> bytes -> A -> A -> Prop.
  Hypothesis Herr : forall k l a, lx_err l = true -> lx_err (field k l a).1 = true.

  Section sound.
    Hypothesis HS : forall k d rest l1 a l2 a',
      (length rest <= length d)%nat -> opens d false rest l1 -> lx_kind l1 <> KNull ->
      field k l1 a = (l2, a') -> lx_err l2 = false ->
      exists u rest' f, rest = u ++ rest' /\ reads k u a a' /\ l2 = At d rest' f c0.

    (** what the loop has read when it ends without error, between two members *)
    Definition tail_read (rest : bytes) (a a' : A) (l' : lexer) (d : bytes) : Prop :=
      exists w rest' f, spaces w /\ l' = Closed d rest' f /\
        ((a = a' /\ rest = w ++ "}"%char :: rest') \/
         (exists u, loose_members reads u a a' /\ rest = w ++ [","%char] ++ u ++ "}"%char :: rest')).

    Lemma loop_sound fuel :
      (forall d rest out l' out',
         (length rest <= length d)%nat ->
         decode_loop field fuel (At d rest false ",") out = (l', out') -> lx_err l' = false ->
         tail_read rest out out' l' d) /\
      (forall d rest out l' out',
         (length rest <= length d)%nat ->
         decode_loop field fuel (At d rest true c0) out = (l', out') -> lx_err l' = false ->
         exists u rest' f, l' = Closed d rest' f /\ rest = u ++ "}"%char :: rest' /\
           ((spaces u /\ out = out') \/ loose_members reads u out out')).
    Proof.
      induction fuel as [|fuel [IH _]].
      { split; intros d rest out l' out' _ [= <- <-] Hne; done. }
      (* one member whose first token is read *)
      assert (Hmember : forall d f rest l1 out l' out',
        (length rest <= length d)%nat -> opens d f rest l1 ->
        (let '(in_, key) := lx_String l1 in
         let in_ := WantColon in_ in
         let '(in_, null) := IsNull in_ in
         if null then decode_loop field fuel (WantComma (Skip in_)) out
         else
           let '(in_, out) := field key in_ out in
           decode_loop field fuel (WantComma in_) out) = (l', out') -> lx_err l' = false ->
        exists u rest' f', l' = Closed d rest' f' /\ rest = u ++ "}"%char :: rest' /\ loose_members reads u out out').
      { intros d f rest l1 out l' out' Hlen Ho Hrun Hne.
        assert (Hbad : forall l2 key, lx_err l2 = true ->
          (let in_ := WantColon l2 in
           let '(in_, null) := IsNull in_ in
           if null then decode_loop field fuel (WantComma (Skip in_)) out
           else let '(in_, out) := field key in_ out in decode_loop field fuel (WantComma in_) out) = (l', out') -> False).
        { intros l2 key He2 Hr. cbv zeta in Hr. rewrite null_err in Hr by done.
          pose proof (Herr key (WantColon l2) out He2) as He3.
          destruct (field key (WantColon l2) out) as [l3 out3]. cbn [fst] in He3.
          destruct (loop_err field fuel (WantComma l3) out3) as (l4 & Hl4 & He4); [done|]. rewrite Hl4 in Hr.
          injection Hr as -> _. congruence. }
        unfold lx_String in Hrun. rewrite (opens_scan _ _ _ _ Ho), (opens_err _ _ _ _ Ho) in Hrun.
        destruct Ho as [s t Hq|c t Hc|n t Hn Ht|t Ht|w t Hw Ht]; cbn [lx_kind lx_bytes] in Hrun;
          try (exfalso; match type of Hrun with context [WantColon (err ?l)] => exact (Hbad (err l) [] eq_refl Hrun) end).
        destruct (unescape (length s) s) as [key|] eqn:Eu; [|exfalso; match type of Hrun with context [WantColon (err ?l)] => exact (Hbad (err l) [] eq_refl Hrun) end].
        pose proof (string_inv s key Hq Eu) as Hkey.
        change (WantColon (consume (MkLexer d t KString s c0 f c0 false))) with (At d t false ":") in Hrun.
        unfold IsNull in Hrun.
        change (scanToken (At d t false ":")) with (fetch_loop (At d t false ":") ":" t) in Hrun.
        destruct (lx_err (fetch_loop (At d t false ":") ":" t)) eqn:Ef.
        { exfalso. cbn [negb andb] in Hrun.
          pose proof (Herr key _ out Ef) as He3. 
          destruct (field key (fetch_loop (At d t false ":") ":" t) out) as [l3 out3]. cbn [fst] in He3.
          destruct (loop_err field fuel (WantComma l3) out3) as (l4 & Hl4 & He4); [done|]. rewrite Hl4 in Hrun.
          injection Hrun as -> _. congruence. }
        destruct (fetch_colon (At d t false ":") d t eq_refl eq_refl eq_refl Ef) as (w2 & w3 & rest1 & Hw2 & Hw3 & Et & Ho).
        set (l2 := fetch_loop (At d t false ":") ":" t) in *. clearbody l2. subst t.
        repeat (rewrite app_length in Hlen; cbn [length] in Hlen).
        (* after the value *)
        assert (Hafter : forall tv rest2 f2 out2,
          rest1 = tv ++ rest2 -> loose_value reads key tv out out2 ->
          decode_loop field fuel (WantComma (At d rest2 f2 c0)) out2 = (l', out') ->
          exists u rest' f', l' = Closed d rest' f' /\
            [""""%char] ++ s ++ [""""%char] ++ w2 ++ [":"%char] ++ w3 ++ rest1 = u ++ "}"%char :: rest' /\
            loose_members reads u out out').
        { intros tv rest2 f2 out2 -> Hval Hr.
          change (WantComma (At d rest2 f2 c0)) with (At d rest2 false ",") in Hr.
          apply IH in Hr; [|rewrite app_length in Hlen; lia|done].
          destruct Hr as (w4 & rest' & f' & Hw4 & -> & [[-> ->]|(u & Hu & ->)]).
          - exists ([] ++ ([""""%char] ++ s ++ [""""%char]) ++ w2 ++ [":"%char] ++ w3 ++ tv ++ w4), rest', f'.
            split; [done|]. split; [by rewrite <- ?app_assoc|]. econstructor; eauto. constructor.
          - exists ([] ++ ([""""%char] ++ s ++ [""""%char]) ++ w2 ++ [":"%char] ++ w3 ++ tv ++ w4 ++ [","%char] ++ u), rest', f'.
            split; [done|]. split; [by rewrite <- ?app_assoc|]. eapply lm_more; eauto. constructor. }
        destruct (lx_kind l2) eqn:Ek; cbn [negb andb] in Hrun; try
          (destruct (field key l2 out) as [l3 out3] eqn:E3;
           assert (He3 : lx_err l3 = false)
             by (destruct (lx_err l3) eqn:He3; [|done];
                 destruct (loop_err field fuel (WantComma l3) out3) as (l4 & Hl4 & He4); [done|];
                 rewrite Hl4 in Hrun; injection Hrun as -> _; congruence);
           destruct (HS key d rest1 l2 out l3 out3) as (tv & rest2 & f2 & E1 & Hrd & ->);
             [lia|done|congruence|done|done|];
           eapply Hafter; [done|by apply lv_field|exact Hrun]).
        assert (En : exists t, rest1 = null_text ++ t /\ l2 = MkLexer d t KNull [] c0 false c0 false).
        { destruct Ho; try done. eauto. }
        destruct En as (t & E1 & ->).
        eapply (Hafter null_text t false out); [done|constructor|exact Hrun]. }
      assert (Hclose : forall c d t f out l' out', c ∈ ["}"; "]"]%char ->
        (let '(in_, b) := (MkLexer d t KDelim [] c f c0 false, (lx_err (MkLexer d t KDelim [] c f c0 false)
             || (lx_delim (MkLexer d t KDelim [] c f c0 false) =c "}"))) in
         if b then (in_, out)
         else let '(in_, key) := lx_String in_ in
         let in_ := WantColon in_ in
         let '(in_, null) := IsNull in_ in
         if null then decode_loop field fuel (WantComma (Skip in_)) out
         else
           let '(in_, out) := field key in_ out in
           decode_loop field fuel (WantComma in_) out) = (l', out') -> lx_err l' = false ->
         c = "}"%char /\ l' = Closed d t f /\ out' = out).
      { intros c d t f out l' out' Hc Hrun Hne. apply elem_of_list_In in Hc. destruct Hc as [<-|[<-|[]]].
        - cbn in Hrun. injection Hrun as <- <-. done.
        - exfalso. cbn [lx_err lx_delim orb] in Hrun. change ("]" =c "}") with false in Hrun. cbn iota in Hrun.
          unfold lx_String in Hrun. cbn [scanToken lx_kind lx_err] in Hrun. cbv zeta in Hrun.
          rewrite null_err in Hrun by done.
          set (l2 := WantColon _) in *. assert (He2 : lx_err l2 = true) by done. clearbody l2.
          pose proof (Herr [] l2 out He2) as He3.
          destruct (field [] l2 out) as [l3 out3]. cbn [fst] in He3.
          destruct (loop_err field fuel (WantComma l3) out3) as (l4 & Hl4 & He4); [done|]. rewrite Hl4 in Hrun.
          injection Hrun as -> _. congruence. }
      split; intros d rest out l' out' Hlen Hrun Hne; cbn [decode_loop] in Hrun; unfold IsDelim in Hrun.
      - change (scanToken (At d rest false ",")) with (fetch_loop (At d rest false ",") "," rest) in Hrun.
        destruct (lx_err (fetch_loop (At d rest false ",") "," rest)) eqn:Ef.
        { cbn in Hrun. injection Hrun as <- _. congruence. }
        destruct (fetch_inv (At d rest false ",") d false "," rest eq_refl eq_refl eq_refl Ef)
          as (w & rest1 & Hw & -> & [[? _]|[(t & _ & -> & E)|(c & t & Hc & -> & _ & E)]]).
        + done.
        + rewrite E in Ef, Hrun.
          destruct (fetch_first (At d (w ++ ","%char :: t) false ",") d t eq_refl eq_refl eq_refl Ef) as (w1 & rest2 & Hw1 & -> & Ho).
          assert (Hd0 : lx_delim (fetch_loop (At d (w ++ ","%char :: w1 ++ rest2) false ",") c0 (w1 ++ rest2)) =c "}" = false).
          { destruct Ho as [| c' ? Hc'| | |]; try done. apply elem_of_list_In in Hc'. by destruct Hc' as [<-|[<-|[]]]. }
          rewrite Hd0 in Hrun. cbn [orb] in Hrun.
          repeat (rewrite app_length in Hlen; cbn [length] in Hlen).
          destruct (Hmember d _ rest2 _ _ _ _ ltac:(lia) Ho Hrun Hne) as (u & rest' & f' & -> & -> & Hu).
          exists w, rest', f'. split; [done|]. split; [done|]. right. exists (w1 ++ u).
          split; [by apply members_spaces|]. cbn [app]. by rewrite <- app_assoc.
        + rewrite E in Ef, Hrun. 
          destruct (Hclose c d t false out l' out' Hc Hrun Hne) as (-> & -> & ->).
          exists w, t, false. eauto.
      - change (scanToken (At d rest true c0)) with (fetch_loop (At d rest true c0) c0 rest) in Hrun.
        destruct (lx_err (fetch_loop (At d rest true c0) c0 rest)) eqn:Ef.
        { cbn in Hrun. injection Hrun as <- _. congruence. }
        destruct (fetch_inv (At d rest true c0) d true c0 rest eq_refl eq_refl eq_refl Ef)
          as (w & rest1 & Hw & -> & [[_ Ho]|[(t & Hs & _)|(c & t & Hc & -> & _ & E)]]).
        + assert (Hd0 : lx_delim (fetch_loop (At d (w ++ rest1) true c0) c0 (w ++ rest1)) =c "}" = false).
          { destruct Ho as [| c' ? Hc'| | |]; try done. apply elem_of_list_In in Hc'. by destruct Hc' as [<-|[<-|[]]]. }
          rewrite Hd0 in Hrun. cbn [orb] in Hrun.
          repeat (rewrite app_length in Hlen; cbn [length] in Hlen).
          destruct (Hmember d _ rest1 _ _ _ _ ltac:(lia) Ho Hrun Hne) as (u & rest' & f' & -> & -> & Hu).
          exists (w ++ u), rest', f'. split; [done|]. split; [by rewrite <- app_assoc|]. right. by apply members_spaces.
        + exfalso. revert Hs. apply (bool_decide_unpack _). by vm_compute.
        + rewrite E in Ef, Hrun.
          destruct (Hclose c d t true out l' out' Hc Hrun Hne) as (-> & -> & ->).
          exists w, t, true. eauto.
    Qed.

    (** the object after its first token *)
    Lemma object_sound_from fuel d rest l1 out l' out' :
      (length rest <= length d)%nat -> opens d false rest l1 ->
      (let '(in_, out) := decode_loop field fuel (Delim "{" l1) out in (Delim "}" in_, out)) = (l', out') ->
      lx_err l' = false ->
      exists u rest' f, rest = u ++ rest' /\ loose_object reads u out out' /\ l' = At d rest' f c0.
    Proof.
      intros Hlen Ho Hrun Hne.
      destruct (lx_err (Delim "{" l1)) eqn:Ed.
      { destruct (loop_err field fuel (Delim "{" l1) out) as (l2 & Hl2 & He2); [done|]. rewrite Hl2 in Hrun.
        injection Hrun as <- _. rewrite delim_err in Hne; done. }
      assert (Hopen : exists t, rest = "{"%char :: t /\ Delim "{" l1 = At d t true c0).
      { unfold Delim in Ed |- *. rewrite (opens_scan _ _ _ _ Ho), (opens_err _ _ _ _ Ho) in *.
        destruct Ho as [|c t Hc| | |]; try done. apply elem_of_list_In in Hc. destruct Hc as [<-|[<-|[]]]; [|done]. eauto. }
      destruct Hopen as (t & -> & HD). rewrite HD in Hrun.
      destruct (decode_loop field fuel (At d t true c0) out) as [l2 out2] eqn:El. injection Hrun as <- <-.
      destruct (lx_err l2) eqn:He2; [rewrite delim_err in Hne; done|]. cbn [length] in Hlen.
      destruct (loop_sound fuel) as [_ Hls].
      destruct (Hls d t out l2 out2 ltac:(lia) El He2) as (u & rest' & f & -> & -> & Hu).
      exists (["{"%char] ++ u ++ ["}"%char]), rest', f. split; [cbn [app]; by rewrite <- app_assoc|]. split; [|done].
      destruct Hu as [[Hu ->]|Hu]; by constructor.
    Qed.
  End sound.

  Section complete.
    Variable bound : nat.
    Hypothesis HC : forall k d u rest a a',
      (length d < bound)%nat -> (length (u ++ rest) <= length d)%nat -> follow rest -> reads k u a a' ->
      exists l1 f, opens d false (u ++ rest) l1 /\ lx_kind l1 <> KNull /\ field k l1 a = (At d rest f c0, a').

    Lemma loop_closes fuel l out d rest first :
      scanToken l = Closed d rest first -> (0 < fuel)%nat ->
      decode_loop field fuel l out = (Closed d rest first, out).
    Proof. intros H Hf. destruct fuel as [|fuel]; [by apply Nat.lt_irrefl in Hf|]. cbn [decode_loop]. unfold IsDelim. rewrite H. done. Qed.

    Lemma loop_member_complete fuel l d out out' w1 k kt w2 w3 t rest :
      (length d < bound)%nat -> lx_Data l = d -> lx_kind l = KUndef -> lx_err l = false ->
      spaces w1 -> loose_string k kt -> spaces w2 -> spaces w3 -> loose_value reads k t out out' -> follow rest ->
      (length (t ++ rest) <= length d)%nat ->
      fetch_loop l (lx_sep l) (lx_rest l) = fetch_loop l c0 (w1 ++ kt ++ w2 ++ [":"%char] ++ w3 ++ t ++ rest) ->
      decode_loop field (S fuel) l out = decode_loop field fuel (At d rest false ",") out'.
    Proof.
      intros Hbd Hd Hk He Hw1 Hkt Hw2 Hw3 Hv Hfo Hlen Hfetch.
      rewrite fetch_spaces in Hfetch by done.
      set (after := w2 ++ [":"%char] ++ w3 ++ t ++ rest) in *.
      apply loose_string_inv in Hkt as (s & -> & Hq & Hu).
      assert (Hscan : scanToken l = MkLexer d after KString s c0 (lx_first l) c0 false).
      { unfold scanToken. rewrite Hk, He. unfold FetchToken. rewrite Hfetch.
        replace (([""""%char] ++ s ++ [""""%char]) ++ after) with ([""""%char] ++ s ++ [""""%char] ++ after)
          by (by rewrite <- !app_assoc).
        apply (fetch_opens l d (lx_first l)); [by constructor|done..]. }
      cbn [decode_loop]. unfold IsDelim. rewrite Hscan. cbn [lx_err lx_delim]. change (false || (c0 =c "}")) with false.
      cbn iota. unfold lx_String. cbn [scanToken lx_kind lx_err lx_bytes]. rewrite Hu.
      change (WantColon (consume (MkLexer d after KString s c0 (lx_first l) c0 false)))
        with (At d after false ":").
      assert (Hs : forall l1, opens d false (t ++ rest) l1 -> scanToken (At d after false ":") = l1).
      { intros l1 Ho. change (scanToken (At d after false ":")) with
          (fetch_loop (At d after false ":") ":" (w2 ++ ":"%char :: w3 ++ t ++ rest)).
        rewrite (fetch_sep _ ":") by (done || by left). rewrite fetch_spaces by done.
        by apply (fetch_opens _ d false). }
      unfold IsNull. destruct Hv as [a|t a a' Hr].
      - rewrite (Hs _ (op_null d false rest Hfo)). done.
      - destruct (HC k d t rest a a' Hbd Hlen Hfo Hr) as (l1 & f & Ho & Hkn & Hf).
        rewrite (Hs _ Ho), (opens_err _ _ _ _ Ho).
        assert (Hnn : (match lx_kind l1 with KNull => true | _ => false end) = false) by (by destruct (lx_kind l1)).
        rewrite Hnn. cbn [negb andb]. rewrite Hf. done.
    Qed.

    Lemma loop_members_complete u a a' : loose_members reads u a a' -> forall fuel l d rest,
      (length d < bound)%nat -> lx_Data l = d -> lx_kind l = KUndef -> lx_err l = false ->
      (length u < fuel)%nat -> (length (u ++ rest) < length d)%nat ->
      fetch_loop l (lx_sep l) (lx_rest l) = fetch_loop l c0 (u ++ "}"%char :: rest) ->
      decode_loop field fuel l a = (Closed d rest false, a').
    Proof.
      assert (Hfollow : forall w c r, spaces w -> isTokenEnd c = true -> follow (w ++ c :: r)).
      { intros w c r Hw Hc. destruct w as [|x w]; [done|]. cbn [app follow].
        apply Forall_cons in Hw as [Hx _]. by apply space_facts in Hx as (_ & _ & _ & _ & ->). }
      induction 1 as [w1 k kt w2 w3 t w4 a a' Hw1 Hkt Hw2 Hw3 Hv Hw4
                     |w1 k kt w2 w3 t w4 ts a a' a'' Hw1 Hkt Hw2 Hw3 Hv Hw4 Hm IH];
        intros fuel l d rest Hbd Hd Hk He Hfu Hlen Hfetch;
        (destruct fuel as [|fuel]; [lia|]); rewrite <- !app_assoc in Hfetch;
        repeat (rewrite app_length in Hlen; cbn [length] in Hlen);
        repeat (rewrite app_length in Hfu; cbn [length] in Hfu).
      - rewrite (loop_member_complete fuel l d a a' w1 k kt w2 w3 t (w4 ++ "}"%char :: rest));
          [|done..|by apply Hfollow|rewrite !app_length; cbn [length]; lia|done].
        apply loop_closes; [|lia].
        change (fetch_loop (At d (w4 ++ "}"%char :: rest) false ",") "," (w4 ++ "}"%char :: rest) = Closed d rest false).
        rewrite fetch_spaces by done. done.
      - rewrite (loop_member_complete fuel l d a a' w1 k kt w2 w3 t (w4 ++ ","%char :: ts ++ "}"%char :: rest));
          [|done..|by apply Hfollow|repeat (rewrite app_length; cbn [length]); lia|done].
        apply IH; try done; [lia|rewrite app_length; lia|].
        cbn [At lx_sep lx_rest]. by apply fetch_sep; [|right].
    Qed.

    Lemma object_complete_from fuel d u rest a a' :
      (length d < bound)%nat -> (length d < fuel)%nat -> loose_object reads u a a' -> (length (u ++ rest) <= length d)%nat ->
      exists l1, opens d false (u ++ rest) l1 /\ lx_kind l1 <> KNull /\
        exists f, decode_loop field fuel (Delim "{" l1) a = (Closed d rest f, a').
    Proof.
      intros Hbd Hfu Ho Hlen.
      destruct Ho as [w a Hw|t a a' Hm]; repeat (rewrite app_length in Hlen; cbn [length] in Hlen);
        cbn [app]; rewrite <- app_assoc; cbn [app];
        (eexists; split; [apply op_open; mem|]; split; [done|]).
      - exists true.
        change (Delim "{" (MkLexer d (w ++ "}"%char :: rest) KDelim [] "{" true c0 false))
          with (At d (w ++ "}"%char :: rest) true c0).
        apply loop_closes; [|lia].
        change (fetch_loop (At d (w ++ "}"%char :: rest) true c0) c0 (w ++ "}"%char :: rest) = Closed d rest true).
        rewrite fetch_spaces by done. done.
      - exists false.
        change (Delim "{" (MkLexer d (t ++ "}"%char :: rest) KDelim [] "{" true c0 false))
          with (At d (t ++ "}"%char :: rest) true c0).
        apply (loop_members_complete t); try done; [lia|rewrite app_length; lia].
    Qed.
  End complete.
End accept.

(** ** Skipping *)
Lemma skip_loop_inv s e data : forall level q w done sk rest,
  skip_loop s e level q w done data = Some (sk, rest) ->
  exists u, sk = done ++ u ++ [e] /\ data = u ++ e :: rest.
Proof.
  induction data as [|c data IH]; intros level q w dn sk rest H; [done|]. cbn [skip_loop] in H.
  assert (Hrec : forall level q w, skip_loop s e level q w (dn ++ [c]) data = Some (sk, rest) ->
            exists u, sk = dn ++ u ++ [e] /\ c :: data = u ++ e :: rest).
  { intros l' q' w' H'. apply IH in H' as (u & -> & ->). exists (c :: u). split; [by rewrite <- app_assoc|done]. }
  destruct ((c =c s) && negb q); [by eapply Hrec|].
  destruct ((c =c e) && negb q) eqn:Ee.
  { assert (c = e) as ->. { apply andb_true_iff in Ee as [Ee _]. by apply Ascii.eqb_eq. }
    destruct level as [|[|k]]; [| |by eapply Hrec]; injection H as <- <-; by exists []. }
  destruct ((c =c "\") && q); [by eapply Hrec|].
  destruct ((c =c """") && q); [by eapply Hrec|].
  destruct (c =c """"); by eapply Hrec.
Qed.

Lemma json_text_tight j c u e :
  json_text j (c :: u ++ [e]) -> ~ space c -> ~ space e -> value j (c :: u ++ [e]).
Proof.
  intros H Hc He. remember (c :: u ++ [e]) as x0 eqn:E2. destruct H as [w1 j t w2 Hw1 Hv Hw2].
  destruct w1 as [|x w1]; [|injection E2 as -> _; by apply Forall_cons in Hw1 as [? _]].
  cbn [app] in E2. destruct w2 as [|x w2] using rev_ind.
  - by rewrite app_nil_r.
  - exfalso. rewrite app_comm_cons, app_assoc in E2. apply app_inj_tail in E2 as [_ ->].
    apply Forall_app in Hw2 as [_ Hw2]. by apply Forall_cons in Hw2 as [? _].
Qed.

Lemma value_head j c u :
  value j (c :: u) -> c = "{"%char \/ c = "["%char ->
  match j with JObj _ => c = "{"%char | JArr _ => c = "["%char | _ => False end.
Proof.
  intros H Hc. remember (c :: u) as t eqn:Et.
  assert (Hint : forall z t f, int_text z t -> t ++ f = c :: u -> False).
  { intros z t' f Hi E. destruct (number_int _ _ [] [] Hi) as (c' & ds & -> & Hc' & _). injection E as -> _.
    destruct Hc' as [Hc'| ->]; [|by destruct Hc].
    destruct Hc as [-> | ->]; vm_compute in Hc'; by destruct Hc' as [? []]. }
  destruct H as [| | |z t Hi|z t f Hi Hf|z t e Hi He|z t f e Hi Hf He|s t Hs|w Hw|l t Hl|w Hw|m t Hm].
  all: try (injection Et as <- _; by destruct Hc).
  all: try (by injection Et as <- _).
  all: try (eapply Hint; [done|by rewrite Et]).
  - eapply (Hint z t []); [done|]. by rewrite app_nil_r.
  - destruct Hs as [ps t Hp]. injection Et as <- _. by destruct Hc.
Qed.

Definition sound_oracle (valid : bytes -> bool) : Prop := forall t, valid t = true -> exists j, json_text j t.

Lemma skip_sound valid d rest l1 :
  sound_oracle valid -> opens d false rest l1 -> lx_kind l1 <> KNull -> lx_err (SkipRecursive valid l1) = false ->
  exists u rest' f, rest = u ++ rest' /\ ignored valid u /\ SkipRecursive valid l1 = At d rest' f c0.
Proof.
  intros Hsound Ho Hk He. unfold SkipRecursive in *. rewrite (opens_scan _ _ _ _ Ho) in *.
  destruct Ho as [s t Hq|c t Hc|n t Hn Ht|t Ht|w t Hw Ht].
  - exists ([""""%char] ++ s ++ [""""%char]), t, false. split; [by rewrite <- !app_assoc|]. split; [by constructor|done].
  - cbn [lx_delim lx_rest] in *.
    assert (Hce : exists e, (c = "{"%char /\ e = "}"%char \/ c = "["%char /\ e = "]"%char) /\
        (if c =c "{" then Some "}"%char else if c =c "[" then Some "]"%char else None) = Some e).
    { apply elem_of_list_In in Hc. destruct Hc as [<-|[<-|[]]]; [exists "}"%char|exists "]"%char]; split; auto. }
    destruct Hce as (e & Hce & E). rewrite E in *. clear E Hc.
    destruct (skip_loop c e 1 false false [] t) as [[sk rest']|] eqn:Es; [|done].
    apply skip_loop_inv in Es as (u & -> & ->). cbn [app] in He |- *. cbv zeta in He |- *.
    destruct (valid (c :: u ++ [e])) eqn:Ev; [|done].
    exists (c :: u ++ [e]), rest', true. split; [cbn [app]; by rewrite <- app_assoc|]. split; [|done].
    destruct (Hsound _ Ev) as [j Hj].
    apply json_text_tight in Hj;
      [|destruct Hce as [[-> ->]|[-> ->]]; apply (bool_decide_unpack _); by vm_compute..].
    pose proof (value_head _ _ _ Hj ltac:(tauto)) as Hh. destruct j as [| | | |l|m]; try done.
    + by eapply ig_array.
    + by eapply ig_object.
  - exists n, t, false. split; [done|]. split; [by apply ig_number|done].
  - done.
  - exists w, t, false. split; [done|]. split; [by constructor|done].
Qed.

Lemma skip_complete valid d u rest :
  ignored valid u -> follow rest ->
  exists l1 f, opens d false (u ++ rest) l1 /\ lx_kind l1 <> KNull /\ SkipRecursive valid l1 = At d rest f c0.
Proof.
  intros Hi Hf. destruct Hi as [t Ht|t Ht|t Ht|l t Ht Hv|m t Ht Hv].
  - eexists _, _. split; [by apply op_bool|]. split; [done|]. reflexivity.
  - eexists _, _. rewrite <- !app_assoc. split; [by apply op_string|]. split; [done|]. reflexivity.
  - eexists _, _. split; [by apply op_number|]. split; [done|]. reflexivity.
  - destruct (read_skip valid d false _ t rest Hv Ht) as [f Hs].
    assert (Hh : exists u, t = "["%char :: u) by (inversion Ht; subst; eauto). destruct Hh as [u ->].
    exists (MkLexer d (u ++ rest) KDelim [] "[" true c0 false), f. split; [apply op_open; mem|]. done.
  - destruct (read_skip valid d false _ t rest Hv Ht) as [f Hs].
    assert (Hh : exists u, t = "{"%char :: u) by (inversion Ht; subst; eauto). destruct Hh as [u ->].
    exists (MkLexer d (u ++ rest) KDelim [] "{" true c0 false), f. split; [apply op_open; mem|]. done.
Qed.

(** ** The fields *)
Lemma string_sound d rest l1 l2 s :
  opens d false rest l1 -> lx_String l1 = (l2, s) -> lx_err l2 = false ->
  exists u rest' f, rest = u ++ rest' /\ loose_string s u /\ l2 = At d rest' f c0.
Proof.
  intros Ho H He. unfold lx_String in H. rewrite (opens_scan _ _ _ _ Ho), (opens_err _ _ _ _ Ho) in H.
  destruct Ho as [s' t Hq|c t Hc|n t Hn Ht|t Ht|w t Hw Ht]; cbn [lx_kind lx_bytes] in H;
    try (by injection H as <- _).
  destruct (unescape (length s') s') as [v|] eqn:Eu; [|by injection H as <- _]. injection H as <- <-.
  exists ([""""%char] ++ s' ++ [""""%char]), t, false. split; [by rewrite <- !app_assoc|].
  split; [by apply string_inv|done].
Qed.

Lemma string_complete d u rest s :
  loose_string s u ->
  exists l1, opens d false (u ++ rest) l1 /\ lx_kind l1 <> KNull /\ lx_String l1 = (At d rest false c0, s).
Proof.
  intros H. apply loose_string_inv in H as (s' & -> & Hq & Hu). rewrite <- !app_assoc.
  eexists. split; [by apply op_string|]. split; [done|].
  unfold lx_String. cbn [scanToken lx_kind lx_err lx_bytes]. by rewrite Hu.
Qed.

Lemma loose_int_number z t : loose_int z t -> loose_number t.
Proof.
  intros (ds & [Hne Hds] & Ht & _). destruct ds as [|c ds]; [done|]. apply Forall_cons in Hds as [Hc Hds].
  destruct Ht as [[-> _]|[-> _]].
  - exists c, ds, [], []. split; [by left|]. split; [done|]. split; [by left|]. split; [by left|]. by rewrite !app_nil_r.
  - exists "-"%char, (c :: ds), [], []. split; [by right|]. split; [by constructor|]. split; [by left|]. split; [by left|].
    by rewrite !app_nil_r.
Qed.

Lemma doc_field_sound valid :
  sound_oracle valid -> forall k d rest l1 a l2 a',
  (length rest <= length d)%nat -> opens d false rest l1 -> lx_kind l1 <> KNull ->
  doc_field valid k l1 a = (l2, a') -> lx_err l2 = false ->
  exists u rest' f, rest = u ++ rest' /\ doc_reads valid k u a a' /\ l2 = At d rest' f c0.
Proof.
  intros Hsound k d rest l1 a l2 a' Hlen Ho Hk H He. unfold doc_field in H.
  case_bool_decide as E1; [subst k|].
  { destruct (lx_String l1) as [l3 s] eqn:Es. injection H as <- <-.
    destruct (string_sound _ _ _ _ _ Ho Es He) as (u & rest' & f & -> & Hs & ->).
    exists u, rest', f. split; [done|]. split; [by constructor|done]. }
  case_bool_decide as E2; [subst k|].
  { destruct (lx_String l1) as [l3 s] eqn:Es. injection H as <- <-.
    destruct (string_sound _ _ _ _ _ Ho Es He) as (u & rest' & f & -> & Hs & ->).
    exists u, rest', f. split; [done|]. split; [by constructor|done]. }
  injection H as <- <-. destruct (skip_sound valid d rest l1 Hsound Ho Hk He) as (u & rest' & f & -> & Hi & ->).
  exists u, rest', f. split; [done|]. split; [by constructor|done].
Qed.

Lemma doc_field_complete valid : forall k d u rest a a',
  follow rest -> doc_reads valid k u a a' ->
  exists l1 f, opens d false (u ++ rest) l1 /\ lx_kind l1 <> KNull /\ doc_field valid k l1 a = (At d rest f c0, a').
Proof.
  intros k d u rest a a' Hf H. destruct H as [s t a Hs|s t a Hs|k t a H1 H2 Hi].
  - destruct (string_complete d t rest s Hs) as (l1 & Ho & Hk & E). exists l1, false. split; [done|]. split; [done|].
    unfold doc_field. rewrite bool_decide_eq_true_2 by done. by rewrite E.
  - destruct (string_complete d t rest s Hs) as (l1 & Ho & Hk & E). exists l1, false. split; [done|]. split; [done|].
    unfold doc_field. rewrite bool_decide_eq_false_2 by done. rewrite bool_decide_eq_true_2 by done. by rewrite E.
  - destruct (skip_complete valid d t rest Hi Hf) as (l1 & f & Ho & Hk & E). exists l1, f. split; [done|]. split; [done|].
    unfold doc_field. rewrite !bool_decide_eq_false_2 by done. by rewrite E.
Qed.

Lemma opens_not_start d rest l1 :
  (length rest <= length d)%nat -> opens d false rest l1 -> IsStart l1 = false.
Proof.
  intros Hlen Ho. unfold IsStart. apply Nat.eqb_neq. rewrite (opens_data _ _ _ _ Ho).
  pose proof (opens_rest _ _ _ _ Ho). lia.
Qed.
Lemma opens_not_null d rest l1 :
  opens d false rest l1 -> lx_kind l1 <> KNull -> IsNull l1 = (l1, false).
Proof.
  intros Ho Hk. unfold IsNull. rewrite (opens_scan _ _ _ _ Ho), (opens_err _ _ _ _ Ho).
  by destruct (lx_kind l1).
Qed.

Lemma result_field_sound valid fuel :
  sound_oracle valid -> forall k d rest l1 a l2 a',
  (length rest <= length d)%nat -> opens d false rest l1 -> lx_kind l1 <> KNull ->
  result_field valid fuel k l1 a = (l2, a') -> lx_err l2 = false ->
  exists u rest' f, rest = u ++ rest' /\ result_reads valid k u a a' /\ l2 = At d rest' f c0.
Proof.
  intros Hsound k d rest l1 a l2 a' Hlen Ho Hk H He. unfold result_field in H.
  case_bool_decide as E1; [subst k|].
  { unfold decode_doc, decode_object in H.
    rewrite (opens_not_null _ _ _ Ho Hk), (opens_not_start _ _ _ Hlen Ho) in H.
    destruct (let '(in_, out) := decode_loop (doc_field valid) fuel (Delim "{" l1) (sr_Document a) in (Delim "}" in_, out))
      as [l3 d3] eqn:Eo.
    assert (E : (l2, a') = (l3, MkSR d3 (sr_Hits a))).
    { destruct (decode_loop _ _ _ _) as [l4 d4]. injection Eo as <- <-. done. }
    injection E as -> ->.
    destruct (object_sound_from (doc_field valid) (doc_reads valid) (doc_field_err valid)
                (doc_field_sound valid Hsound) fuel d rest l1 _ _ _ Hlen Ho Eo He) as (u & rest' & f & -> & Hu & ->).
    exists u, rest', f. split; [done|]. split; [by constructor|done]. }
  case_bool_decide as E2; [subst k|].
  { unfold lx_Int in H. rewrite (opens_scan _ _ _ _ Ho), (opens_err _ _ _ _ Ho) in H.
    destruct Ho as [s t Hq|c t Hc|n t Hn Ht|t Ht|w t Hw Ht]; cbn [lx_kind lx_bytes] in H;
      try (by injection H as <- _).
    destruct (ParseInt n) as [z e] eqn:Ep. injection H as <- <-. destruct e; [done|].
    exists n, t, false. split; [done|]. split; [|done]. constructor. apply ParseInt_loose; [|done].
    apply loose_number_tail in Hn as (c & u & -> & Hc & _). eauto. }
  injection H as <- <-. destruct (skip_sound valid d rest l1 Hsound Ho Hk He) as (u & rest' & f & -> & Hi & ->).
  exists u, rest', f. split; [done|]. split; [by constructor|done].
Qed.

Lemma result_field_complete valid fuel : forall k d u rest a a',
  (length d < fuel)%nat -> (length (u ++ rest) <= length d)%nat -> follow rest -> result_reads valid k u a a' ->
  exists l1 f, opens d false (u ++ rest) l1 /\ lx_kind l1 <> KNull /\ result_field valid fuel k l1 a = (At d rest f c0, a').
Proof.
  intros k d u rest a a' Hfu Hlen Hf H. destruct H as [t v d' Hs|z t v Hz|k t v H1 H2 Hi].
  - destruct (object_complete_from (doc_field valid) (doc_reads valid) (doc_field_err valid) fuel
                (fun k d u rest a a' _ _ => doc_field_complete valid k d u rest a a') fuel d t rest _ _ Hfu Hfu Hs Hlen)
      as (l1 & Ho & Hk & f & E).
    exists l1, f. split; [done|]. split; [done|].
    unfold result_field. rewrite bool_decide_eq_true_2 by done. unfold decode_doc, decode_object.
    rewrite (opens_not_null _ _ _ Ho Hk), (opens_not_start _ _ _ Hlen Ho), E. done.
  - pose proof (loose_int_number _ _ Hz) as Hn.
    eexists _, false. split; [by apply op_number|]. split; [done|].
    unfold result_field. rewrite bool_decide_eq_false_2 by done. rewrite bool_decide_eq_true_2 by done.
    unfold lx_Int. cbn [scanToken lx_kind lx_err lx_bytes].
    assert (E : ParseInt t = (z, false)).
    { apply ParseInt_loose; [|done]. apply loose_number_tail in Hn as (c & u & -> & Hc & _). eauto. }
    rewrite E. done.
  - destruct (skip_complete valid d t rest Hi Hf) as (l1 & f & Ho & Hk & E). exists l1, f. split; [done|]. split; [done|].
    unfold result_field. rewrite !bool_decide_eq_false_2 by done. by rewrite E.
Qed.

(** ** Whole texts *)
Lemma consumed_inv l : lx_err l = false -> lx_err (Consumed l) = false -> spaces (lx_rest l) /\ Consumed l = l.
Proof.
  intros He H. unfold Consumed in *. rewrite He in *. destruct (forallb is_ws (lx_rest l)) eqn:Ew; [|done].
  split; [|done]. rewrite forallb_forall in Ew. apply Forall_forall. intros c Hc. apply space_inv, Ew.
  by apply elem_of_list_In.
Qed.
Lemma consumed_ok l : lx_err l = false -> spaces (lx_rest l) -> Consumed l = l.
Proof.
  intros He H. unfold Consumed. rewrite He.
  assert (Hw : forallb is_ws (lx_rest l) = true).
  { apply forallb_forall. intros c Hc. rewrite <- elem_of_list_In in Hc.
    unfold spaces in H. rewrite Forall_forall in H. apply H in Hc. by apply space_facts in Hc as (-> & _). }
  by rewrite Hw.
Qed.

Lemma unmarshal_sound valid t v v' :
  sound_oracle valid -> UnmarshalJSON valid t v = (v', false) -> accepted valid t v v'.
Proof.
  intros Hsound H. unfold UnmarshalJSON, decode_result, decode_object in H.
  assert (Htop : IsStart (NewLexer t) = true) by (unfold IsStart; apply Nat.eqb_refl).
  rewrite Htop in H. unfold IsNull in H.
  change (scanToken (NewLexer t)) with (fetch_loop (NewLexer t) c0 t) in H.
  set (fuel := S (length t)) in H.
  destruct (lx_err (fetch_loop (NewLexer t) c0 t)) eqn:Ef.
  { exfalso. cbn [negb andb] in H.
    destruct (loop_err (result_field valid fuel) fuel (Delim "{" (fetch_loop (NewLexer t) c0 t)) v) as (l' & E & Hl');
      [by apply delim_err|]. rewrite E in H. injection H as _ H.
    rewrite consumed_err in H; [done|]. by apply delim_err. }
  destruct (fetch_first (NewLexer t) t t eq_refl eq_refl eq_refl Ef) as (w & rest & Hw & Et & Ho).
  set (l1 := fetch_loop (NewLexer t) c0 t) in *. clearbody l1.
  assert (Hlen : (length rest <= length t)%nat) by (rewrite Et, app_length; lia).
  assert (Hcase : lx_kind l1 = KNull \/ lx_kind l1 <> KNull) by (destruct (lx_kind l1); auto).
  destruct Hcase as [Ek|Ek].
  - rewrite Ek in H. cbn [negb andb] in H. injection H as <- H.
    assert (He : lx_err (Consumed l1) = false).
    { destruct (lx_err (Consumed l1)) eqn:E; [|done]. unfold Skip in H. rewrite scan_err in H by done. by rewrite <- E. }
    destruct (consumed_inv l1 Ef He) as [Hsp _].
    destruct Ho as [| | |t' Ht'|]; try done. cbn [lx_rest] in Hsp. rewrite Et. by constructor.
  - assert (Hnn : (match lx_kind l1 with KNull => true | _ => false end) = false) by (by destruct (lx_kind l1)).
    rewrite Hnn in H. cbn [negb andb] in H. clear Hnn.
    destruct (decode_loop (result_field valid fuel) fuel (Delim "{" l1) v) as [l2 v2] eqn:El. injection H as -> H.
    assert (He : lx_err (Delim "}" l2) = false).
    { destruct (lx_err (Delim "}" l2)) eqn:E; [|done]. by rewrite consumed_err in H. }
    destruct (object_sound_from (result_field valid fuel) (result_reads valid) (result_field_err valid fuel)
                (result_field_sound valid fuel Hsound) fuel t rest l1 v (Delim "}" l2) v' Hlen Ho) as (u & rest' & f & -> & Hu & E);
      [by rewrite El|done|].
    destruct (consumed_inv _ He H) as [Hsp _]. rewrite E in Hsp. rewrite Et. by apply acc_object.
Qed.

Lemma unmarshal_complete valid t v v' :
  accepted valid t v v' -> UnmarshalJSON valid t v = (v', false).
Proof.
  intros H. unfold UnmarshalJSON, decode_result, decode_object.
  assert (Htop : IsStart (NewLexer t) = true) by (unfold IsStart; apply Nat.eqb_refl).
  rewrite Htop. unfold IsNull. change (scanToken (NewLexer t)) with (fetch_loop (NewLexer t) c0 t).
  set (fuel := S (length t)).
  assert (Hfo : forall w, spaces w -> follow w).
  { intros [|x w] Hw; [done|]. cbn [follow]. apply Forall_cons in Hw as [Hx _].
    by apply space_facts in Hx as (_ & _ & _ & _ & ->). }
  destruct H as [w1 w2 v Hw1 Hw2|w1 u w2 v v' Hw1 Hw2 Hu].
  - rewrite fetch_spaces by done.
    rewrite (fetch_opens _ (w1 ++ null_text ++ w2) false _ _ (op_null _ _ w2 (Hfo _ Hw2))) by done.
    cbn [lx_kind lx_err negb andb]. rewrite consumed_ok by done. done.
  - destruct (object_complete_from (result_field valid fuel) (result_reads valid) (result_field_err valid fuel) fuel
                (result_field_complete valid fuel) fuel (w1 ++ u ++ w2) u w2 v v') as (l1 & Ho & Hk & f & E);
      [unfold fuel; lia|unfold fuel; lia|done|rewrite !app_length; lia|].
    rewrite fetch_spaces by done.
    rewrite (fetch_opens _ _ _ _ _ Ho) by done.
    rewrite (opens_err _ _ _ _ Ho).
    assert (Hnn : (match lx_kind l1 with KNull => true | _ => false end) = false) by (by destruct (lx_kind l1)).
    rewrite Hnn. cbn [negb andb]. rewrite E.
    change (Delim "}" (Closed (w1 ++ u ++ w2) w2 f)) with (At (w1 ++ u ++ w2) w2 f c0).
    rewrite consumed_ok by done. done.
Qed.
