(** * UTF-8: the decoder and the encoder agree with the arithmetic definition. *)
From Coq Require Import Lia ZifyBool ZifyNat ZifyN.
From stdpp Require Import list.
From Verif Require Import Entities Utf8 SpecUtf8.
Open Scope N_scope.

Ltac Zify.zify_post_hook ::= Z.div_mod_to_equations.

(** ** Bit operations as arithmetic *)
Lemma land_ones_mod x n : N.land x (N.ones n) = x mod 2 ^ n.
Proof. apply N.land_ones. Qed.

Lemma lor_add a b n : b < 2 ^ n -> (a mod 2 ^ n = 0) -> N.lor a b = a + b.
Proof.
  intros Hb Ha.
  assert (Hl : N.land a b = 0).
  { apply N.bits_inj_0. intros i. rewrite N.land_spec.
    destruct (N.ltb_spec i n) as [Hi|Hi].
    - assert (N.testbit a i = false) as ->; [|done].
      rewrite <- (N.mod_pow2_bits_low a n i) by done. rewrite Ha. apply N.bits_0.
    - assert (N.testbit b i = false) as ->; [|apply andb_false_r].
      rewrite <- (N.mod_small b (2 ^ n)) by done. by apply N.mod_pow2_bits_high. }
  rewrite N.add_nocarry_lxor by done. symmetry. by apply N.lxor_lor.
Qed.

Lemma land_1F x : N.land x 0x1F = x mod 32.
Proof. exact (land_ones_mod x 5). Qed.
Lemma land_3F x : N.land x 0x3F = x mod 64.
Proof. exact (land_ones_mod x 6). Qed.
Lemma land_0F x : N.land x 0x0F = x mod 16.
Proof. exact (land_ones_mod x 4). Qed.
Lemma land_07 x : N.land x 0x07 = x mod 8.
Proof. exact (land_ones_mod x 3). Qed.
Lemma shiftl_6 x : N.shiftl x 6 = x * 64.
Proof. rewrite N.shiftl_mul_pow2. done. Qed.
Lemma shiftl_12 x : N.shiftl x 12 = x * 4096.
Proof. rewrite N.shiftl_mul_pow2. done. Qed.
Lemma shiftl_18 x : N.shiftl x 18 = x * 262144.
Proof. rewrite N.shiftl_mul_pow2. done. Qed.
Lemma shiftr_6 x : N.shiftr x 6 = x / 64.
Proof. rewrite N.shiftr_div_pow2. done. Qed.
Lemma shiftr_12 x : N.shiftr x 12 = x / 4096.
Proof. rewrite N.shiftr_div_pow2. done. Qed.
Lemma shiftr_18 x : N.shiftr x 18 = x / 262144.
Proof. rewrite N.shiftr_div_pow2. done. Qed.

Lemma bN_lt c : bN c < 256.
Proof. apply N_ascii_bounded. Qed.
Lemma bN_Nb n : n < 256 -> bN (Nb n) = n.
Proof. apply N_ascii_embedding. Qed.
Lemma Nb_bN c : Nb (bN c) = c.
Proof. apply ascii_N_embedding. Qed.
Lemma bN_inj a b : bN a = bN b -> a = b.
Proof. intros H. rewrite <- (Nb_bN a), <- (Nb_bN b). by rewrite H. Qed.

(** ** Encoder *)
Lemma EncodeRune_utf8 r : scalar r -> EncodeRune r = utf8 r.
Proof.
  intros Hs. unfold EncodeRune, utf8.
  destruct (N.leb_spec r 0x7F), (N.ltb_spec r 0x80); try lia; [done|].
  destruct (N.leb_spec r 0x7FF), (N.ltb_spec r 0x800); try lia.
  { rewrite shiftr_6, land_3F. cbn [map].
    rewrite (lor_add 0xC0 (r / 64) 6), (lor_add 0x80 (r mod 64) 7); try done;
      change (2 ^ 6) with 64; change (2 ^ 7) with 128; lia. }
  assert ((0x10FFFF <? r) || in_rng 0xD800 0xDFFF r = false) as ->.
  { unfold in_rng, scalar in *. lia. }
  destruct (N.leb_spec r 0xFFFF), (N.ltb_spec r 0x10000); try lia.
  - rewrite shiftr_12, shiftr_6, !land_3F. cbn [map].
    rewrite (lor_add 0xE0 (r / 4096) 5), (lor_add 0x80 ((r / 64) mod 64) 7), (lor_add 0x80 (r mod 64) 7); try done;
      change (2 ^ 5) with 32; change (2 ^ 7) with 128; lia.
  - unfold scalar in *. rewrite shiftr_18, shiftr_12, shiftr_6, !land_3F. cbn [map].
    rewrite (lor_add 0xF0 (r / 262144) 4), (lor_add 0x80 ((r / 4096) mod 64) 7),
      (lor_add 0x80 ((r / 64) mod 64) 7), (lor_add 0x80 (r mod 64) 7); try done;
      change (2 ^ 4) with 16; change (2 ^ 7) with 128; lia.
Qed.

(** ** Decoder on encoded scalars *)
Lemma lor2 a b : b < 64 -> N.lor (a * 64) b = a * 64 + b.
Proof. intros. apply (lor_add _ _ 6); [done|]. change (2 ^ 6) with 64. lia. Qed.
Lemma lor3 a b c : b < 64 -> c < 64 ->
  N.lor (N.lor (a * 4096) (b * 64)) c = a * 4096 + b * 64 + c.
Proof.
  intros. rewrite (lor_add (a * 4096) (b * 64) 12); try (change (2 ^ 12) with 4096; lia).
  apply (lor_add _ _ 6); [done|]. change (2 ^ 6) with 64. lia.
Qed.
Lemma lor4 a b c d : b < 64 -> c < 64 -> d < 64 ->
  N.lor (N.lor (N.lor (a * 262144) (b * 4096)) (c * 64)) d = a * 262144 + b * 4096 + c * 64 + d.
Proof.
  intros. rewrite (lor_add (a * 262144) (b * 4096) 18); try (change (2 ^ 18) with 262144; lia).
  rewrite (lor_add _ (c * 64) 12); try (change (2 ^ 12) with 4096; lia).
  apply (lor_add _ _ 6); [done|]. change (2 ^ 6) with 64. lia.
Qed.

Lemma in_rng_true lo hi x : in_rng lo hi x = true <-> lo <= x <= hi.
Proof. unfold in_rng. lia. Qed.
Lemma in_rng_false lo hi x : in_rng lo hi x = false <-> x < lo \/ hi < x.
Proof. unfold in_rng. lia. Qed.

Lemma Decode_utf8 r s : scalar r -> DecodeRune (utf8 r ++ s) = (r, length (utf8 r)).
Proof.
  intros Hs. unfold utf8, scalar in *.
  destruct (N.ltb_spec r 0x80) as [H1|H1].
  { cbn [map app DecodeRune length]. rewrite bN_Nb by lia.
    destruct (N.ltb_spec r 0x80); [done|lia]. }
  destruct (N.ltb_spec r 0x800) as [H2|H2].
  { cbn [map app DecodeRune length]. rewrite !bN_Nb by lia.
    set (b0 := 192 + r / 64). assert (194 <= b0 < 224) by (subst b0; lia).
    destruct (N.ltb_spec b0 0x80); [lia|]. destruct (N.ltb_spec b0 0xC2); [lia|].
    destruct (N.ltb_spec b0 0xE0); [|lia].
    replace (in_rng _ _ _) with true by (symmetry; apply in_rng_true; lia).
    rewrite land_1F, land_3F, shiftl_6, lor2 by lia. f_equal. subst b0. lia. }
  destruct (N.ltb_spec r 0x10000) as [H3|H3].
  { cbn [map app DecodeRune length]. rewrite !bN_Nb by lia.
    set (b0 := 224 + r / 4096). set (b1 := 128 + (r / 64) mod 64).
    assert (224 <= b0 < 240) by (subst b0; lia).
    destruct (N.ltb_spec b0 0x80); [lia|]. destruct (N.ltb_spec b0 0xC2); [lia|].
    destruct (N.ltb_spec b0 0xE0); [lia|]. destruct (N.ltb_spec b0 0xF0); [|lia].
    assert (Hr1 : in_rng (if b0 =? 0xE0 then 0xA0 else 0x80) (if b0 =? 0xED then 0x9F else 0xBF) b1 = true).
    { apply in_rng_true. destruct (N.eqb_spec b0 0xE0), (N.eqb_spec b0 0xED); subst b0 b1; lia. }
    rewrite Hr1.
    replace (in_rng 0x80 0xBF _) with true by (symmetry; apply in_rng_true; lia). cbn [andb].
    rewrite land_0F, !land_3F, shiftl_6, shiftl_12, lor3 by lia. f_equal. subst b0 b1. lia. }
  cbn [map app DecodeRune length]. rewrite !bN_Nb by lia.
  set (b0 := 240 + r / 262144). set (b1 := 128 + (r / 4096) mod 64).
  assert (240 <= b0 < 245) by (subst b0; lia).
  destruct (N.ltb_spec b0 0x80); [lia|]. destruct (N.ltb_spec b0 0xC2); [lia|].
  destruct (N.ltb_spec b0 0xE0); [lia|]. destruct (N.ltb_spec b0 0xF0); [lia|].
  destruct (N.ltb_spec b0 0xF5); [|lia].
  assert (Hr1 : in_rng (if b0 =? 0xF0 then 0x90 else 0x80) (if b0 =? 0xF4 then 0x8F else 0xBF) b1 = true).
  { apply in_rng_true. destruct (N.eqb_spec b0 0xF0), (N.eqb_spec b0 0xF4); subst b0 b1; lia. }
  rewrite Hr1.
  replace (in_rng 0x80 0xBF (128 + (r / 64) mod 64)) with true by (symmetry; apply in_rng_true; lia).
  replace (in_rng 0x80 0xBF (128 + r mod 64)) with true by (symmetry; apply in_rng_true; lia). cbn [andb].
  rewrite land_07, !land_3F, shiftl_6, shiftl_12, shiftl_18, lor4 by lia. f_equal. subst b0 b1. lia.
Qed.

Lemma utf8_nonempty r : utf8 r <> [].
Proof. unfold utf8. repeat destruct (_ <? _); done. Qed.

Lemma utf8_length r : (1 <= length (utf8 r) <= 4)%nat.
Proof. unfold utf8. repeat destruct (_ <? _); cbn; lia. Qed.

Lemma utf8_bad_not_width1 : length (utf8 RuneError) = 3%nat.
Proof. done. Qed.

Lemma bad_no_prefix s :
  DecodeRune s = (RuneError, 1%nat) -> forall r, scalar r -> ~ (utf8 r `prefix_of` s).
Proof.
  intros Hd r Hr [s' ->]. rewrite Decode_utf8 in Hd by done.
  injection Hd as -> Hl. rewrite utf8_bad_not_width1 in Hl. done.
Qed.

(** ** Decoder in general *)
Lemma utf8_1 b0 : bN b0 < 0x80 -> utf8 (bN b0) = [b0].
Proof.
  intros H. unfold utf8. destruct (N.ltb_spec (bN b0) 0x80); [|lia]. cbn. by rewrite Nb_bN.
Qed.

Lemma Decode_cases s :
  s <> [] ->
  (exists r s', scalar r /\ s = utf8 r ++ s' /\ DecodeRune s = (r, length (utf8 r))) \/
  (DecodeRune s = (RuneError, 1%nat) /\ forall r, scalar r -> ~ (utf8 r `prefix_of` s)).
Proof.
  intros Hne.
  enough ((exists r s', scalar r /\ s = utf8 r ++ s') \/ DecodeRune s = (RuneError, 1%nat)) as H.
  { destruct H as [(r & s' & Hr & ->)|H].
    - left. exists r, s'. split; [done|]. split; [done|]. by apply Decode_utf8.
    - right. split; [done|]. by apply bad_no_prefix. }
  destruct s as [|p0 t]; [done|]. clear Hne. cbn [DecodeRune].
  pose proof (bN_lt p0).
  destruct (N.ltb_spec (bN p0) 0x80).
  { left. exists (bN p0), t. split; [unfold scalar; lia|]. by rewrite utf8_1. }
  destruct (N.ltb_spec (bN p0) 0xC2); [by right|].
  destruct (N.ltb_spec (bN p0) 0xE0).
  { destruct t as [|p1 t]; [by right|].
    destruct (in_rng 0x80 0xBF (bN p1)) eqn:E; [|by right]. left.
    apply in_rng_true in E.
    exists ((bN p0 - 192) * 64 + (bN p1 - 128)), t.
    set (r := (bN p0 - 192) * 64 + (bN p1 - 128)).
    split; [unfold scalar; lia|]. unfold utf8.
    destruct (N.ltb_spec r 0x80); [lia|]. destruct (N.ltb_spec r 0x800); [|lia]. cbn [map app].
    replace (192 + r / 64) with (bN p0) by (subst r; lia).
    replace (128 + r mod 64) with (bN p1) by (subst r; lia). by rewrite !Nb_bN. }
  destruct (N.ltb_spec (bN p0) 0xF0).
  { destruct t as [|p1 [|p2 t]]; [by right|by right|].
    destruct (_ && _) eqn:E; [|by right]. left.
    apply andb_true_iff in E as [E1 E2]. apply in_rng_true in E1, E2.
    exists ((bN p0 - 224) * 4096 + (bN p1 - 128) * 64 + (bN p2 - 128)), t.
    set (r := (bN p0 - 224) * 4096 + (bN p1 - 128) * 64 + (bN p2 - 128)).
    assert (0x80 <= bN p1 <= 0xBF) by (destruct (N.eqb_spec (bN p0) 0xE0), (N.eqb_spec (bN p0) 0xED); lia).
    assert (0x800 <= r) by (destruct (N.eqb_spec (bN p0) 0xE0); subst r; lia).
    assert (scalar r).
    { unfold scalar. destruct (N.eqb_spec (bN p0) 0xED); subst r; lia. }
    split; [done|]. unfold utf8.
    destruct (N.ltb_spec r 0x80); [lia|]. destruct (N.ltb_spec r 0x800); [lia|].
    destruct (N.ltb_spec r 0x10000); [|lia]. cbn [map app].
    replace (224 + r / 4096) with (bN p0) by (subst r; lia).
    replace (128 + (r / 64) mod 64) with (bN p1) by (subst r; lia).
    replace (128 + r mod 64) with (bN p2) by (subst r; lia). by rewrite !Nb_bN. }
  destruct (N.ltb_spec (bN p0) 0xF5); [|by right].
  destruct t as [|p1 [|p2 [|p3 t]]]; [by right|by right|by right|].
  destruct (_ && _) eqn:E; [|by right]. left.
  apply andb_true_iff in E as [E E3]. apply andb_true_iff in E as [E1 E2].
  apply in_rng_true in E1, E2, E3.
  exists ((bN p0 - 240) * 262144 + (bN p1 - 128) * 4096 + (bN p2 - 128) * 64 + (bN p3 - 128)), t.
  set (r := (bN p0 - 240) * 262144 + (bN p1 - 128) * 4096 + (bN p2 - 128) * 64 + (bN p3 - 128)).
  assert (0x80 <= bN p1 <= 0xBF) by (destruct (N.eqb_spec (bN p0) 0xF0), (N.eqb_spec (bN p0) 0xF4); lia).
  assert (0x10000 <= r) by (destruct (N.eqb_spec (bN p0) 0xF0); subst r; lia).
  assert (scalar r).
  { unfold scalar. destruct (N.eqb_spec (bN p0) 0xF4); subst r; lia. }
  split; [done|]. unfold utf8.
  destruct (N.ltb_spec r 0x80); [lia|]. destruct (N.ltb_spec r 0x800); [lia|].
  destruct (N.ltb_spec r 0x10000); [lia|]. cbn [map app].
  replace (240 + r / 262144) with (bN p0) by (subst r; lia).
  replace (128 + (r / 4096) mod 64) with (bN p1) by (subst r; lia).
  replace (128 + (r / 64) mod 64) with (bN p2) by (subst r; lia).
  replace (128 + r mod 64) with (bN p3) by (subst r; lia). by rewrite !Nb_bN.
Qed.

(** ** The character decomposition exists, is unique and is what [range] sees *)
Lemma chars_total s : exists l, chars s l.
Proof.
  remember (length s) as n eqn:Hn. revert s Hn.
  induction n as [n IH] using lt_wf_ind. intros s Hn.
  destruct s as [|b s]; [exists []; constructor|].
  destruct (Decode_cases (b :: s)) as [(r & s' & Hr & He & _)|[_ Hb]]; [done| |].
  - destruct (IH (length s')) with (s := s') as [l Hl]; [|done|].
    + rewrite Hn, He, app_length. pose proof (utf8_length r). lia.
    + exists ((r, utf8 r) :: l). rewrite He. by constructor.
  - destruct (IH (length s)) with (s := s) as [l Hl]; [cbn in Hn; lia|done|].
    exists ((RuneError, [b]) :: l). by constructor.
Qed.

(** Byte offset of each character. *)
Fixpoint offsets (i : nat) (l : list (N * bytes)) : list (nat * N) :=
  match l with
  | [] => []
  | (r, c) :: l' => (i, r) :: offsets (i + length c) l'
  end.

Lemma range_skip i k c s :
  length c = k -> range_from i k (c ++ s) = range_from (i + k) 0 s.
Proof.
  revert i k. induction c as [|b c IH]; intros i k <-; cbn [length app range_from].
  - f_equal. lia.
  - rewrite IH by done. f_equal. lia.
Qed.

Lemma range_chars i s l : chars s l -> range_from i 0 s = offsets i l.
Proof.
  intros H. revert i. induction H as [|r s l Hr _ IH|b s l Hb _ IH]; intros i; [done| |].
  - pose proof (Decode_utf8 r s Hr) as HD. cbn [offsets]. rewrite <- IH.
    destruct (utf8 r) as [|b c] eqn:E; [by apply utf8_nonempty in E|].
    cbn [app range_from] in *. rewrite HD. f_equal.
    cbn [length]. replace (S (length c) - 1)%nat with (length c) by lia.
    rewrite range_skip by done. f_equal. lia.
  - cbn [offsets length]. rewrite <- IH. cbn [range_from].
    destruct (Decode_cases (b :: s)) as [(r & s' & Hr & He & _)|[Hd _]]; [done| |].
    + exfalso. apply (Hb r Hr). rewrite He. by apply prefix_app_r.
    + rewrite Hd. cbn [Nat.sub]. f_equal. f_equal. lia.
Qed.

Lemma chars_bytes s l : chars s l -> s = run_bytes l.
Proof.
  unfold run_bytes. induction 1 as [|r s l Hr _ IH|b s l Hb _ IH]; [done| |]; cbn [map concat snd].
  - by rewrite <- IH.
  - by rewrite <- IH.
Qed.

Lemma chars_det s l l' : chars s l -> chars s l' -> l = l'.
Proof.
  intros H. revert l'. induction H as [|r s l Hr Hc IH|b s l Hb Hc IH]; intros l' H'.
  - inversion H' as [|r' s' l1 Hr' _ He|]; [done|].
    apply app_eq_nil in He as [He _]. by apply utf8_nonempty in He.
  - inversion H' as [He|r' s' l1 Hr' Hc' He|b' s' l1 Hb' Hc' He].
    + symmetry in He. apply app_eq_nil in He as [He _]. by apply utf8_nonempty in He.
    + pose proof (Decode_utf8 r s Hr) as D1. pose proof (Decode_utf8 r' s' Hr') as D2.
      rewrite He, D1 in D2. injection D2 as <- _.
      apply app_inv_head in He as ->. f_equal. by apply IH.
    + exfalso. apply (Hb' r Hr). rewrite He. by apply prefix_app_r.
  - inversion H' as [He|r' s' l1 Hr' Hc' He|b' s' l1 Hb' Hc' He]; subst.
    + exfalso. apply (Hb r' Hr'). rewrite <- He. by apply prefix_app_r.
    + f_equal. by apply IH.
Qed.

Lemma chars_nonempty s l : chars s l -> Forall (fun x => x.2 <> []) l.
Proof.
  induction 1; constructor; try done. apply utf8_nonempty.
Qed.

(** A character is a valid scalar with its encoding, or U+FFFD with one byte. *)
Definition char_ok (x : N * bytes) : Prop :=
  (scalar x.1 /\ x.2 = utf8 x.1) \/ (x.1 = RuneError /\ length x.2 = 1%nat).

Lemma chars_ok s l : chars s l -> Forall char_ok l.
Proof.
  induction 1 as [|r s l Hr _ IH|b s l Hb _ IH]; constructor; try done; [left|right]; done.
Qed.

Lemma chars_valid_concat rs s l :
  Forall scalar rs -> chars s l ->
  chars (concat (map utf8 rs) ++ s) (map (fun r => (r, utf8 r)) rs ++ l).
Proof.
  intros H Hl. induction H as [|r rs Hr _ IH]; [done|]. cbn [map concat app].
  rewrite <- app_assoc. by constructor.
Qed.

(** ** ASCII *)
Lemma scalar_ascii c : bN c < 0x80 -> scalar (bN c).
Proof. unfold scalar. lia. Qed.

Lemma chars_ascii s :
  Forall (fun c => bN c < 0x80) s -> chars s (map (fun c => (bN c, [c])) s).
Proof.
  induction 1 as [|c s Hc _ IH]; [constructor|]. cbn [map].
  pose proof (chars_valid (bN c) s _ (scalar_ascii c Hc) IH) as H. rewrite utf8_1 in H by done. done.
Qed.

(** ** Splitting decoded text *)
Definition cont (c : ascii) : Prop := 0x80 <= bN c <= 0xBF.

Lemma utf8_shape r :
  scalar r -> exists b t, utf8 r = b :: t /\ ~ cont b /\ Forall cont t.
Proof.
  intros Hs. unfold utf8, cont, scalar in *.
  destruct (N.ltb_spec r 0x80).
  { eexists _, _. split; [reflexivity|]. rewrite bN_Nb by lia. split; [lia|constructor]. }
  destruct (N.ltb_spec r 0x800).
  { eexists _, _. split; [reflexivity|]. rewrite bN_Nb by lia. split; [lia|].
    repeat constructor; rewrite bN_Nb; lia. }
  destruct (N.ltb_spec r 0x10000).
  { eexists _, _. split; [reflexivity|]. rewrite bN_Nb by lia. split; [lia|].
    repeat constructor; rewrite bN_Nb; lia. }
  eexists _, _. split; [reflexivity|]. rewrite bN_Nb by lia. split; [lia|].
  repeat constructor; rewrite bN_Nb; lia.
Qed.

(** Cutting a text between two characters. *)
Lemma chars_app_inv s l1 l2 :
  chars s (l1 ++ l2) ->
  exists s2, s = run_bytes l1 ++ s2 /\ chars (run_bytes l1) l1 /\ chars s2 l2.
Proof.
  revert s. induction l1 as [|x l1 IH]; intros s H.
  - exists s. split; [done|]. split; [constructor|done].
  - cbn [app] in H. inversion H as [|r s' l' Hr Hc He1 He2|b s' l' Hb Hc He1 He2]; subst.
    + apply IH in Hc as (s2 & -> & Hc1 & Hc2). exists s2. unfold run_bytes in *. cbn [map concat snd].
      split; [by rewrite app_assoc|]. split; [by constructor|done].
    + apply IH in Hc as (s2 & -> & Hc1 & Hc2). exists s2. unfold run_bytes in *. cbn [map concat snd].
      split; [done|]. split; [|done]. cbn [app]. constructor; [|done].
      intros r Hr [u Hu]. apply (Hb r Hr). exists (u ++ s2). rewrite app_assoc, <- Hu. done.
Qed.

(** Joining two texts, the second not starting with a continuation byte. *)
Lemma chars_app s1 s2 l1 l2 :
  chars s1 l1 -> chars s2 l2 -> (forall c, head s2 = Some c -> ~ cont c) ->
  chars (s1 ++ s2) (l1 ++ l2).
Proof.
  intros H1 H2 Hh. induction H1 as [|r s l Hr _ IH|b s l Hb _ IH]; [done| |]; cbn [app].
  - rewrite <- app_assoc. by constructor.
  - constructor; [|done]. intros r Hr [u Hu].
    destruct (utf8_shape r Hr) as (b' & t & He & _ & Ht).
    rewrite He in Hu. cbn [app] in Hu. injection Hu as <- Hu.
    destruct (app_eq_inv s s2 t u Hu) as [(k & -> & ->)|(k & -> & ->)].
    + apply (Hb r Hr). exists k. by rewrite He.
    + destruct k as [|c k].
      * rewrite app_nil_r in He. apply (Hb r Hr). exists []. by rewrite He, app_nil_r.
      * rewrite Forall_app, Forall_cons in Ht. destruct Ht as (_ & Ht & _).
        by apply (Hh c).
Qed.
