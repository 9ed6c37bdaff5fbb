(** * Properties C81 and C82: exactly which texts are read, and exactly which bytes
    are written. *)
From stdpp Require Import prelude strings list.
From Verif Require Import Entities Utf8 SpecUtf8 ProofUtf8 Json SpecJson SpecAccept ProofJson ProofAccept Properties_Json.
Open Scope N_scope.
Open Scope list_scope.

(** ** C81 *)

(** [encoding/json.Valid] accepts nothing but JSON. *)
Definition only_json (valid : bytes -> bool) : Prop := forall t, valid t = true -> exists j, json_text j t.

(** [UnmarshalJSON] succeeds exactly on the texts of the grammar in SpecAccept.v,
    with the result the grammar gives. *)
Theorem C81_accepted valid t v v' :
  only_json valid -> (UnmarshalJSON valid t v = (v', false) <-> accepted valid t v v').
Proof. intros Hv. split; [by apply unmarshal_sound|apply unmarshal_complete]. Qed.

(** Everything else is an error. *)
Theorem C81_rejected valid t v :
  only_json valid -> ((UnmarshalJSON valid t v).2 = true <-> forall v', ~ accepted valid t v v').
Proof.
  intros Hv. destruct (UnmarshalJSON valid t v) as [v1 e] eqn:E. cbn [snd]. split.
  - intros -> v' H. apply (C81_accepted valid t v v' Hv) in H. congruence.
  - intros H. destruct e; [done|]. exfalso. apply (H v1). by apply C81_accepted.
Qed.

(** Whether a text is accepted does not depend on the variable it is read into. *)
Theorem C81_target_irrelevant valid t v w :
  only_json valid -> (UnmarshalJSON valid t v).2 = (UnmarshalJSON valid t w).2.
Proof.
  intros Hv.
  assert (Hm : forall {A} (reads : bytes -> bytes -> A -> A -> Prop) u a a',
     (forall k t a a' b, reads k t a a' -> exists b', reads k t b b') ->
     loose_members reads u a a' -> forall b, exists b', loose_members reads u b b').
  { intros A reads u a a' Hr. 
    assert (Hval : forall k t a a' b, loose_value reads k t a a' -> exists b', loose_value reads k t b b').
    { intros k t' c c' b [x|t1 x x' Hx]; [exists b; constructor|].
      destruct (Hr _ _ _ _ b Hx) as [b' Hb]. exists b'. by constructor. }
    induction 1 as [w1 k kt w2 w3 t' w4 c c' H1 H2 H3 H4 H5 H6|w1 k kt w2 w3 t' w4 ts c c' c'' H1 H2 H3 H4 H5 H6 H7 IH]; intros b.
    - destruct (Hval _ _ _ _ b H5) as [b' Hb]. exists b'. econstructor; eauto.
    - destruct (Hval _ _ _ _ b H5) as [b' Hb]. destruct (IH b') as [b'' Hb'']. exists b''. eapply lm_more; eauto. }
  assert (Hobj : forall {A} (reads : bytes -> bytes -> A -> A -> Prop) u a a',
     (forall k t a a' b, reads k t a a' -> exists b', reads k t b b') ->
     loose_object reads u a a' -> forall b, exists b', loose_object reads u b b').
  { intros A reads u a a' Hr [s c Hs|s c c' Hs] b; [exists b; by constructor|].
    destruct (Hm A reads s c c' Hr Hs b) as [b' Hb]. exists b'. by constructor. }
  assert (Hacc : forall a b a', accepted valid t a a' -> exists b', accepted valid t b b').
  { intros a b a' [w1 w2 x H1 H2|w1 u w2 x x' H1 H2 Hu]; [exists b; by constructor|].
    destruct (Hobj _ (result_reads valid) u x x') with (b := b) as [b' Hb]; [|done|exists b'; by constructor].
    intros k t' c c' d [t1 y dd Ho|z t1 y Hz|k' t1 y K1 K2 Hi].
    - destruct (Hobj _ (doc_reads valid) t1 (sr_Document y) dd) with (b := sr_Document d) as [d' Hd]; [|done|].
      + intros k2 t2 e e' f [s t3 y2 Hs|s t3 y2 Hs|k3 t3 y2 K1 K2 Hi]; eexists; by constructor.
      + eexists. by constructor.
    - eexists. by constructor.
    - eexists. by constructor. }
  assert (Hone : forall a b, (UnmarshalJSON valid t a).2 = false -> (UnmarshalJSON valid t b).2 = false).
  { intros a b H. destruct (UnmarshalJSON valid t a) as [a' e] eqn:E. cbn [snd] in H. subst e.
    apply C81_accepted in E; [|done]. destruct (Hacc a b a' E) as [b' Hb].
    apply (C81_accepted valid t b b' Hv) in Hb. by rewrite Hb. }
  destruct (UnmarshalJSON valid t v).2 eqn:E1, (UnmarshalJSON valid t w).2 eqn:E2; try done.
  - by rewrite (Hone w v E2) in E1.
  - by rewrite (Hone v w E1) in E2.
Qed.

Definition oracle : bytes -> bool := fun t => bool_decide (t = bytes_str "[1]").
Lemma oracle_only_json : only_json oracle.
Proof.
  assert (Hsp : spaces []) by constructor.
  intros t H. unfold oracle in H. apply bool_decide_eq_true in H as ->.
  exists (JArr [JNum (Some 1%Z)]). apply (json_value [] _ (bytes_str "[1]") []); [exact Hsp| |exact Hsp].
  apply (v_array _ (bytes_str "1")). apply (e_one [] _ (bytes_str "1") []); [exact Hsp| |exact Hsp]. apply v_int.
  apply (int_pos 1 (bytes_str "1")). apply (nat_digits "1" []); [done|done|constructor].
Qed.

(** The liberties taken, and some that are not. *)
Example C81_example :
  let read s := UnmarshalJSON oracle (bytes_str s) (MkSR (MkDoc "a" "b") 5) in
  let ok d h := (MkSR d h, false) in
  (* accepted though not JSON *)
  read "{""hits"":007}" = ok (MkDoc "a" "b") 7%Z /\
  read "{""x"":-,""y"":1.e,""z"":""\q"",""doc"":{""id"":""	""}}" = ok (MkDoc "	" "b") 5%Z /\
  (* JSON *)
  read " { ""doc"" : null , ""hits"" : -0 , ""x"" : [1] } " = ok (MkDoc "a" "b") 0%Z /\
  (* rejected *)
  (read "{""x"":}}").2 = true /\ (read "{""x"":1,}").2 = true /\ (read "{,}").2 = true /\ (read "{""x"" 1}").2 = true /\
  (read "{""x"":1 ""y"":2}").2 = true /\ (read "{""x"":[1]]").2 = true /\ (read "{} {}").2 = true /\
  (read "{""hits"":1.0}").2 = true /\ (read "{""hits"":""1""}").2 = true /\ (read "{""doc"":{""id"":""\q""}}").2 = true /\
  (read "{""x"":nul}").2 = true /\ (read "{""x"":[2]}").2 = true /\ (read "{""doc"":[]}").2 = true /\ (read "").2 = true.
Proof. vm_compute. repeat split. Qed.

(** ** C82 *)

(** [\u] followed by four lower-case hexadecimal digits *)
Definition hex_alphabet : list ascii :=
  ["0"; "1"; "2"; "3"; "4"; "5"; "6"; "7"; "8"; "9"; "a"; "b"; "c"; "d"; "e"; "f"]%char.
Definition u_escape (n : N) : bytes :=
  ["\"; "u"]%char ++ map (fun k => nth (N.to_nat (n / 16 ^ k mod 16)) hex_alphabet "?"%char) [3; 2; 1; 0].

(** what is written for one character, given with its bytes in the string *)
Definition written (x : N * bytes) : bytes :=
  let '(r, bs) := x in
  if decide (bs = utf8 r) then
    if decide (r = 9) then ["\"; "t"]%char
    else if decide (r = 10) then ["\"; "n"]%char
    else if decide (r = 13) then ["\"; "r"]%char
    else if decide (r = 34) then ["\"; """"]%char
    else if decide (r = 92) then ["\"; "\"]%char
    else if decide (r < 0x20 \/ r ∈ [38; 60; 62; 0x2028; 0x2029]) then u_escape r
    else bs
  else u_escape 0xFFFD.

Lemma written_ascii c : bN c < 128 -> esc_char (bN c, [c]) = written (bN c, [c]).
Proof. intros H. revert H. exhaust c. Qed.

Lemma written_char x : char_ok x -> esc_char x = written x.
Proof.
  destruct x as [r bs]. intros [[Hr Hbs]|[Hr Hl]]; cbn [fst snd] in *.
  - subst bs. destruct (N.ltb_spec r 0x80) as [Hlt|Hge].
    + assert (Hu : utf8 r = [Nb r]).
      { unfold utf8. by rewrite (proj2 (N.ltb_lt r 0x80)). }
      rewrite Hu. pose proof (written_ascii (Nb r)) as H. rewrite bN_Nb in H by lia. by apply H.
    + unfold esc_char, written. rewrite (proj2 (N.ltb_ge r 0x80)) by done.
      rewrite (decide_True (P := utf8 r = utf8 r)) by done.
      assert (Hw : (r =? RuneError) && (length (utf8 r) =? 1)%nat = false).
      { destruct (N.eqb_spec r RuneError) as [->|]; done. }
      rewrite Hw. rewrite (decide_False (P := r = 9)), (decide_False (P := r = 10)), (decide_False (P := r = 13)),
        (decide_False (P := r = 34)), (decide_False (P := r = 92)) by lia.
      destruct (N.eqb_spec r 0x2028) as [->|]; [done|]. destruct (N.eqb_spec r 0x2029) as [->|]; [done|]. cbn [orb].
      rewrite decide_False; [done|]. intros [?|Hin]; [lia|].
      apply elem_of_list_In in Hin. cbn [In] in Hin. lia.
  - subst r. unfold esc_char, written. rewrite Hl. 
    rewrite decide_False; [done|]. intros ->. done.
Qed.

(** A string: its characters, one after the other, between quotes. *)
Theorem C82_string s l :
  chars s l -> w_String s = [""""%char] ++ concat (map written l) ++ [""""%char].
Proof.
  intros H. unfold w_String. rewrite (write_chars s l H) by done. cbn [app].
  apply chars_ok in H. do 2 f_equal.
  induction H as [|x l Hx _ IH]; [done|]. cbn [map concat]. by rewrite written_char, IH.
Qed.

(** A whole result. *)
Theorem C82_result r ln lc :
  chars (bytes_str (doc_ID (sr_Document r))) ln -> chars (bytes_str (doc_Raw (sr_Document r))) lc ->
  int64 (sr_Hits r) ->
  exists hits, int_text (sr_Hits r) hits /\ hits <> ["-"; "0"]%char /\
    MarshalJSON r =
      bytes_str "{""doc"":{""id"":""" ++ concat (map written ln) ++ bytes_str """,""raw"":""" ++
      concat (map written lc) ++ bytes_str """},""hits"":" ++ hits ++ bytes_str "}".
Proof.
  intros Hn Hc Hz. exists (AppendInt (sr_Hits r)). split; [by apply AppendInt_text|]. split.
  - intros E. pose proof (AppendInt_text _ Hz) as Ht. rewrite E in Ht.
    assert (Hdig : ~ digit "-") by (apply (bool_decide_unpack _); by vm_compute).
    remember (sr_Hits r) as z eqn:Ez. clear Ez r Hn Hc.
    remember ["-"; "0"]%char as u eqn:Eu. destruct Ht as [n t Ht|n t Ht].
    + subst t. inversion Ht; subst. done.
    + injection Eu as ->. inversion Ht as [H0|c ds Hd Hne _ Hv E1]; [|done]. subst n. by vm_compute in E.
  - unfold MarshalJSON, encode_result, encode_doc. unfold doc_ID, doc_Raw in *.
    rewrite (C82_string _ _ Hn), (C82_string _ _ Hc).
    generalize (concat (map written ln)) (concat (map written lc)) (AppendInt (sr_Hits r)). intros x y z.
    cbn. repeat (rewrite <- app_assoc; cbn). reflexivity.
Qed.


Example C82_example :
  let s := [Nb 1; "a"%char; Nb 60; """"%char; Nb 255] ++ utf8 0x2028 ++ utf8 0xFFFD ++ utf8 0x1F600 in
  w_String s = bytes_str """\u0001a\u003c\""\ufffd\u2028" ++ utf8 0xFFFD ++ utf8 0x1F600 ++ bytes_str """" /\
  u_escape 0x20AB = bytes_str "\u20ab".
Proof. vm_compute. done. Qed.

Print Assumptions C81_accepted.
Print Assumptions C81_rejected.
Print Assumptions C81_target_irrelevant.
Print Assumptions C82_string.
Print Assumptions C82_result.
