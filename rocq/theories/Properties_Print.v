(** * Properties C61 and C62: the printed form of an index and of the repository. *)
From Coq Require Import Lia.
From stdpp Require Import prelude strings list gmap sorting pretty.
From Verif Require Import Entities Search SpecSearch ProofSearch Json SpecJson ProofJson Properties_Search Print
  Repo Sem RepoWp SpecRepo ProofRepo ProofTotal ProofReach Properties_Repo ProofPrint.
Open Scope string_scope.
Open Scope Z_scope.

(** ** C61 *)

(** The documents of [reqs] whose statement contains [t], by position. *)
Definition places (tk : Tokenizer) (reqs : list DocRequest) (t : string) : list nat :=
  filter (fun i => match reqs !! i with Some r => contains tk r t | None => false end = true)
         (seq 0 (length reqs)).

(** The line of a token. *)
Definition token_line (tk : Tokenizer) (reqs : list DocRequest) (t : string) : string :=
  let ps := places tk reqs t in
  newline ++ tab ++ "[token=" ++ t ++ ",length=(" ++ pretty (length ps) ++ ")]=["
    ++ String.concat " " (map pretty ps) ++ "]".

Definition all_of (l : list string) : string := String.concat "" l.

(** The tokens of an index, in some order. *)
Definition tokens_of (tk : Tokenizer) (reqs : list DocRequest) (toks : list string) : Prop :=
  NoDup toks /\ forall t, t ∈ toks <-> exists r, r ∈ reqs /\ t ∈ tk (req_statement r).

(** *** Decimals *)
Lemma digits_pretty fuel u acc :
  (0 < u)%N -> (u < 10 ^ N.of_nat fuel)%N ->
  str_bytes (digits_loop fuel u acc) = pretty_N_go u (str_bytes acc).
Proof.
  revert u acc. induction fuel as [|fuel IH]; intros u acc H0 Hu; [cbn in Hu; lia|].
  rewrite pretty_N_go_step by done. cbn [digits_loop].
  assert (Hc : Nb (48 + u mod 10) = pretty_N_char (u mod 10)).
  { pose proof (N.mod_lt u 10 ltac:(done)) as Hm. revert Hm. generalize (u mod 10)%N. intros m Hm.
    assert (Hm' : (m = 0 \/ m = 1 \/ m = 2 \/ m = 3 \/ m = 4 \/ m = 5 \/ m = 6 \/ m = 7 \/ m = 8 \/ m = 9)%N) by lia.
    naive_solver. }
  rewrite Hc. destruct (N.ltb_spec u 10) as [Hlt|Hge].
  - rewrite N.div_small by done. by rewrite pretty_N_go_0.
  - rewrite IH; [done|..].
    + by apply N.div_str_pos.
    + apply N.div_lt_upper_bound; [done|]. by rewrite Nat2N.inj_succ, N.pow_succ_r' in Hu.
Qed.

Lemma fmt_d_pretty (n : nat) : Z.of_nat n < 2 ^ 63 -> fmt_d (Z.of_nat n) = pretty n.
Proof.
  intros Hn. unfold fmt_d, AppendInt. rewrite (proj2 (Z.ltb_ge _ _)) by lia.
  unfold pretty, pretty_nat, pretty, pretty_N. replace (Z.to_N (Z.of_nat n)) with (N.of_nat n) by lia.
  destruct (decide (N.of_nat n = 0%N)) as [->|Hne]; [done|].
  apply (digits_pretty 20); [lia|]. change (10 ^ N.of_nat 20)%N with 100000000000000000000%N. lia.
Qed.

Lemma append_assoc (a b c : string) : (a ++ b) ++ c = a ++ b ++ c.
Proof. induction a as [|x a IH]; [done|]. change (String x ((a ++ b) ++ c) = String x (a ++ b ++ c)). by rewrite IH. Qed.
Lemma append_nil (a : string) : a ++ "" = a.
Proof. induction a as [|x a IH]; [done|]. change (String x (a ++ "") = String x a). by rewrite IH. Qed.

Lemma fmt_v_pretty (l : list nat) :
  Forall (fun n => Z.of_nat n < 2 ^ 63) l ->
  fmt_v (map Z.of_nat l) = "[" ++ String.concat " " (map pretty l) ++ "]".
Proof.
  destruct l as [|n l]; [done|]. intros H. inversion_clear H as [|? ? Hn Hl]. cbn [map fmt_v].
  rewrite fmt_d_pretty by done. f_equal.
  assert (E : fmt_v_loop (map Z.of_nat l) = match map pretty l with [] => "" | l' => " " ++ String.concat " " l' end).
  { clear n Hn. induction Hl as [|n l Hn _ IH]; [done|]. cbn [map fmt_v_loop]. rewrite IH, fmt_d_pretty by done.
    destruct l as [|m l]; [|done]. cbn [map String.concat]. by rewrite append_nil. }
  rewrite E. destruct l as [|m l]; [done|]. cbn [map String.concat]. by rewrite <- !append_assoc.
Qed.

(** *** Lines *)
Lemma places_positions tk reqs t : positions tk t 0 reqs = map Z.of_nat (places tk reqs t).
Proof.
  assert (Hel : forall j, j ∈ positions tk t 0 reqs <-> j ∈ map Z.of_nat (places tk reqs t)).
  { intros j. rewrite positions_elem. unfold places. rewrite elem_of_list_In, in_map_iff. split.
    - intros (H1 & r & H2 & H3). rewrite Z.sub_0_r in H2. exists (Z.to_nat j). split; [lia|].
      apply elem_of_list_In, elem_of_list_filter. rewrite H2. split; [done|].
      apply elem_of_seq. apply lookup_lt_Some in H2. lia.
    - intros (i & <- & Hi). apply elem_of_list_In, elem_of_list_filter in Hi as [Hi _]. split; [lia|].
      rewrite Z.sub_0_r, Nat2Z.id. destruct (reqs !! i) as [r|]; [|done]. eauto. }
  assert (Hs1 : StronglySorted Z.lt (positions tk t 0 reqs)) by apply positions_asc.
  assert (Hs2 : StronglySorted Z.lt (map Z.of_nat (places tk reqs t))).
  { unfold places. generalize (length reqs). intros n. generalize 0%nat. induction n as [|n IH]; intros k; [constructor|].
    cbn [seq]. rewrite filter_cons. destruct (decide _) as [_|_]; [|apply IH].
    cbn [map]. constructor; [apply IH|]. apply Forall_forall. intros x Hx.
    apply elem_of_list_In, in_map_iff in Hx as (i & <- & Hi).
    apply elem_of_list_In, elem_of_list_filter in Hi as [_ Hi]. apply elem_of_seq in Hi. lia. }
  assert (Hnd : forall l, StronglySorted Z.lt l -> NoDup l).
  { induction 1 as [|x l _ IH Hx]; [constructor|]. constructor; [|done]. intros Hin.
    rewrite Forall_forall in Hx. apply Hx in Hin. lia. }
  assert (Ha : AntiSymm eq Z.lt) by (intros x y ? ?; lia).
  apply (StronglySorted_unique Z.lt); [done..|]. apply NoDup_Permutation; auto.
Qed.

Lemma all_of_cons x l : all_of (x :: l) = x ++ all_of l.
Proof. unfold all_of. destruct l; cbn [String.concat]; [by rewrite append_nil|done]. Qed.

Lemma write_tokens buf l :
  fold_left write_token l buf = buf ++ all_of (map (fun e => write_token "" e) l).
Proof.
  revert buf. induction l as [|[t ps] l IH]; intros buf; [by rewrite append_nil|].
  cbn [fold_left map]. rewrite IH, all_of_cons, <- append_assoc. f_equal.
Qed.

(** The printed form: the name, and one line per token with the number and the
    positions of the documents containing it. *)
Theorem C61_text range (name : string) tk reqs :
  (forall m, range m ≡ₚ map_to_list m) -> Z.of_nat (length reqs) < 2 ^ 63 ->
  exists toks, tokens_of tk reqs toks /\
    mi_String range (index_after name tk reqs) =
      "{" ++ newline ++ tab ++ "name=" ++ name ++ all_of (map (token_line tk reqs) toks) ++ newline ++ "}".
Proof.
  intros Hr Hlen. pose proof (rep_index_after name tk reqs) as Hrep. destruct Hrep as [_ _ Hi].
  set (mi := index_after name tk reqs) in *. set (l := range (mi_Inverted mi)).
  assert (Hl : forall t ps, (t, ps) ∈ l <-> mi_Inverted mi !! t = Some ps).
  { intros t ps. unfold l. rewrite Hr. apply elem_of_map_to_list. }
  exists l.*1. split; [split|].
  - unfold l. rewrite Hr. apply NoDup_fst_map_to_list.
  - intros t. rewrite elem_of_list_fmap. split.
    + intros ([t' ps] & -> & H). apply Hl in H. rewrite Hi in H. cbn [fst].
      destruct (positions tk t' 0 reqs) as [|j l'] eqn:E; [done|].
      assert (Hj : j ∈ positions tk t' 0 reqs) by (rewrite E; left).
      apply positions_elem in Hj as (_ & r & H1 & H2). exists r. split; [by eapply elem_of_list_lookup_2|].
      by apply bool_decide_eq_true in H2.
    + intros (r & H1 & H2). apply elem_of_list_lookup_1 in H1 as [i H1].
      assert (Hj : Z.of_nat i ∈ positions tk t 0 reqs).
      { apply positions_elem. split; [lia|]. exists r. rewrite Z.sub_0_r, Nat2Z.id. split; [done|].
        by apply bool_decide_eq_true. }
      exists (t, positions tk t 0 reqs). split; [done|]. apply Hl. rewrite Hi.
      by destruct (positions tk t 0 reqs); [apply elem_of_nil in Hj|].
  - assert (Hn : mi_name mi = name).
    { assert (H : forall rs m, mi_name (fold_left Put rs m) = mi_name m).
      { clear. intros rs. induction rs as [|r rs IH]; intros m; [done|]. cbn [fold_left]. by rewrite IH. }
      unfold mi, index_after. by rewrite H. }
    unfold mi_String. fold l. rewrite write_tokens, Hn, !append_assoc.
    assert (E : map (fun e => write_token "" e) l = map (token_line tk reqs) l.*1).
    { rewrite (map_map fst). apply map_ext_in. intros [t ps] Hin. apply elem_of_list_In, Hl in Hin.
      cbn [fst]. rewrite Hi, places_positions in Hin. unfold write_token, token_line.
      destruct (map Z.of_nat (places tk reqs t)) as [|z zs] eqn:Ez; [done|]. injection Hin as <-.
      rewrite <- Ez, map_length.
      assert (Hp : Forall (fun n => Z.of_nat n < 2 ^ 63) (places tk reqs t)).
      { apply Forall_forall. intros n Hn'. apply elem_of_list_filter in Hn' as [_ Hn']. apply elem_of_seq in Hn'. lia. }
      rewrite fmt_v_pretty by done. rewrite fmt_d_pretty.
      - done.
      - unfold places. pose proof (filter_length (fun i => match reqs !! i with Some r => contains tk r t | None => false end = true) (seq 0 (length reqs))).
        rewrite seq_length in *. lia. }
    by rewrite E.
Qed.


(** Every order of the lines is possible. *)
Theorem C61_any_order (name : string) tk reqs toks :
  tokens_of tk reqs toks -> Z.of_nat (length reqs) < 2 ^ 63 ->
  exists range, (forall m, range m ≡ₚ map_to_list m) /\
    mi_String range (index_after name tk reqs) =
      "{" ++ newline ++ tab ++ "name=" ++ name ++ all_of (map (token_line tk reqs) toks) ++ newline ++ "}".
Proof.
  intros [Hnd Ht] Hlen. pose proof (rep_index_after name tk reqs) as [_ _ Hi].
  set (mi := index_after name tk reqs) in *.
  set (l := map (fun t => (t, positions tk t 0 reqs)) toks).
  assert (Hl : l ≡ₚ map_to_list (mi_Inverted mi)).
  { apply NoDup_Permutation.
    - apply (NoDup_fmap_1 fst). unfold l. replace (_.*1) with toks; [done|].
      change (fst <$> map ?f toks) with (map fst (map f toks)). rewrite map_map. by rewrite map_id.
    - apply NoDup_map_to_list.
    - intros [t ps]. rewrite elem_of_map_to_list, Hi. unfold l. rewrite elem_of_list_In, in_map_iff. split.
      + intros (t' & [= -> <-] & Hin). apply elem_of_list_In, Ht in Hin as (r & H1 & H2).
        apply elem_of_list_lookup_1 in H1 as [i H1].
        assert (Hj : Z.of_nat i ∈ positions tk t 0 reqs).
        { apply positions_elem. split; [lia|]. exists r. rewrite Z.sub_0_r, Nat2Z.id. split; [done|].
          by apply bool_decide_eq_true. }
        by destruct (positions tk t 0 reqs); [apply elem_of_nil in Hj|].
      + intros H. destruct (positions tk t 0 reqs) as [|j l'] eqn:E; [done|]. injection H as <-.
        exists t. split; [by rewrite E|]. apply elem_of_list_In, Ht.
        assert (Hj : j ∈ positions tk t 0 reqs) by (rewrite E; left).
        apply positions_elem in Hj as (_ & r & H1 & H2). exists r. split; [by eapply elem_of_list_lookup_2|].
        by apply bool_decide_eq_true in H2. }
  set (range := fun m : gmap string (list Z) => if decide (m = mi_Inverted mi) then l else map_to_list m).
  assert (Hr : forall m, range m ≡ₚ map_to_list m).
  { intros m. unfold range. destruct (decide _) as [->|_]; done. }
  exists range. split; [done|].
  destruct (C61_text range name tk reqs Hr Hlen) as (toks' & _ & Htext).
  assert (Hn : mi_name mi = name).
  { assert (H : forall rs m, mi_name (fold_left Put rs m) = mi_name m).
    { clear. intros rs. induction rs as [|r rs IH]; intros m; [done|]. cbn [fold_left]. by rewrite IH. }
    unfold mi, index_after. by rewrite H. }
  clear Htext toks'. unfold mi_String. fold mi. unfold range. rewrite decide_True by done.
  rewrite write_tokens, Hn, !append_assoc. unfold l. rewrite map_map.
  assert (E : map (fun t => write_token "" (t, positions tk t 0 reqs)) toks = map (token_line tk reqs) toks).
  { apply map_ext_in. intros t _. rewrite places_positions. unfold write_token, token_line. rewrite map_length.
    assert (Hp : Forall (fun n => Z.of_nat n < 2 ^ 63) (places tk reqs t)).
    { apply Forall_forall. intros n Hn'. apply elem_of_list_filter in Hn' as [_ Hn']. apply elem_of_seq in Hn'. lia. }
    rewrite fmt_v_pretty by done. rewrite fmt_d_pretty; [done|].
    unfold places. pose proof (filter_length (fun i => match reqs !! i with Some r => contains tk r t | None => false end = true) (seq 0 (length reqs))).
    rewrite seq_length in *. lia. }
  by rewrite E.
Qed.

(** The text does not determine the index: a token may contain what looks like
    the end of a line and the beginning of the next. *)
Theorem C61_text_determines_index_refuted :
  exists range tk tk' reqs,
    (forall m, range m ≡ₚ map_to_list m) /\
    mi_String range (index_after "i" tk reqs) = mi_String range (index_after "i" tk' reqs) /\
    Indexed true (index_after "i" tk reqs) "a" <> Indexed true (index_after "i" tk' reqs) "a".
Proof.
  exists map_to_list, (fun _ => ["a"; "b"]),
    (fun _ => ["b,length=(1)]=[0]" ++ newline ++ tab ++ "[token=a"]), [NewDocRequest "d" "x"].
  split; [done|]. split; vm_compute; done.
Qed.

(** Three documents; the lines in one of the possible orders. *)
Example C61_example :
  tokens_of letters ex_reqs ["b"; "a"; "c"] /\
  (exists range, (forall m, range m ≡ₚ map_to_list m) /\
    mi_String range (index_after "idx" letters ex_reqs) =
      "{" ++ newline ++ tab ++ "name=idx" ++
      newline ++ tab ++ "[token=b,length=(3)]=[0 1 2]" ++
      newline ++ tab ++ "[token=a,length=(2)]=[0 2]" ++
      newline ++ tab ++ "[token=c,length=(2)]=[1 2]" ++ newline ++ "}").
Proof.
  assert (H : tokens_of letters ex_reqs ["b"; "a"; "c"]).
  { split; [by apply (bool_decide_unpack _)|]. intros t. split.
    - intros Ht. repeat (apply elem_of_cons in Ht as [->|Ht]); [| | |by apply elem_of_nil in Ht];
        (exists (NewDocRequest "a" "c b a"); split; [do 2 right; left|by apply (bool_decide_unpack _)]).
    - intros (r & Hr & Ht). repeat (apply elem_of_cons in Hr as [->|Hr]); [| | |by apply elem_of_nil in Hr];
        vm_compute in Ht; repeat (apply elem_of_cons in Ht as [->|Ht]);
        first [by apply elem_of_nil in Ht|by apply (bool_decide_unpack _)]. }
  split; [done|]. destruct (C61_any_order "idx" letters ex_reqs _ H) as (range & Hr & Ht); [done|].
  exists range. split; [done|]. rewrite Ht. vm_compute. reflexivity.
Qed.

(** ** C62 *)

(** The title of an index is the name it was created under.  [title_after] says
    how the titles of the table's entries change; [titled] follows the titles
    along any sequence of calls on a new repo. *)
Definition title_after (c : call) (v : view) (b : gmap string string) : gmap string string :=
  match c with
  | CPut n _ => if decide (v_idx v !! n = None /\ v_ali v !! n = None) then <[n := n]> b else b
  | CRename old new => match b !! old with Some title => delete old (<[new := title]> b) | None => b end
  | CDrop n => delete n b
  | _ => b
  end.

Inductive titled (ckn : bool) (tk : Tokenizer) : repo -> view -> gmap string string -> Prop :=
| T_new : titled ckn tk (NewIndexRepo ckn (NewMemoryIndexBuilder tk)) new_view ∅
| T_done s v b c r s' v' :
    titled ckn tk s v b -> call_result c s (Done r s') -> spec ckn tk c v (ODone (see s' r) v') ->
    titled ckn tk s' v' (title_after c v b)
| T_panic s v b c s' v' :
    titled ckn tk s v b -> call_result c s (Panicked s') -> spec ckn tk c v (OPanic v') ->
    titled ckn tk s' v' (title_after c v b).

Lemma titled_tracks ckn tk s v b : titled ckn tk s v b -> tracks ckn tk s v.
Proof. induction 1; [constructor|eapply R_done; done|eapply R_panic; done]. Qed.

Lemma titled_names ckn tk s v b : titled ckn tk s v b -> i_names (r_I s) = b.
Proof.
  induction 1 as [|s v b c r s' v' Ht <- Hc _|s v b c s' v' Ht <- Hc _].
  - apply map_eq. intros n. unfold i_names. by rewrite lookup_omap, lookup_empty.
  - exact (names_call ckn tk s v c _ (reach_shape _ _ _ _ _ (titled_tracks _ _ _ _ _ Ht)) Hc).
  - exact (names_call ckn tk s v c _ (reach_shape _ _ _ _ _ (titled_tracks _ _ _ _ _ Ht)) Hc).
Qed.

(** Every index has a title. *)
Theorem C62_titles ckn tk s v b n :
  titled ckn tk s v b -> is_Some (b !! n) <-> is_Some (v_idx v !! n).
Proof.
  intros Ht. pose proof (reach_shape _ _ _ _ _ (titled_tracks _ _ _ _ _ Ht)) as Hs.
  rewrite <- (titled_names _ _ _ _ _ Ht), <- (shI_is_Some _ _ _ _ _ (sh_I _ _ _ _ Hs)).
  destruct (i_map (r_I s) !! n) as [p|] eqn:E.
  - destruct (names_lookup _ _ _ _ _ _ (sh_I _ _ _ _ Hs) E) as (nm & _ & -> & _). split; eauto.
  - rewrite (names_None _ _ _ _ _ (sh_I _ _ _ _ Hs) E). split; intros [? ?]; done.
Qed.

(** IndexRepo.String always returns, changes nothing, and writes the printed form
    of every index once, each followed by a newline, in some order; every index
    appears under its title, with the documents put into it. *)
Theorem C62_text ckn tk s v b show :
  titled ckn tk s v b ->
  always (CString show) s (fun res => exists names,
    names ≡ₚ (map_to_list (v_idx v)).*1 /\
    res = Done (RText (all_of (map (fun n =>
            show (index_after (default "" (b !! n)) tk (docs_of v n)) ++ newline) names))) s).
Proof.
  intros Ht. pose proof (reach_shape _ _ _ _ _ (titled_tracks _ _ _ _ _ Ht)) as Hs.
  split; [apply call_total|]. intros res Hc.
  destruct (String_text ckn tk s v show res Hs Hc) as (names & Hn & ->).
  exists names. split; [done|]. rewrite (titled_names _ _ _ _ _ Ht).
  match goal with |- Done (RText ?a) ?x = Done (RText ?b) ?y => enough (E : a = b) by (by rewrite E) end.
  assert (Hx : forall n, n ∈ names -> exists title reqs, b !! n = Some title /\ v_idx v !! n = Some reqs).
  { intros n. rewrite Hn. intros Hx. apply elem_of_list_fmap in Hx as ([y reqs] & -> & Hx).
    apply elem_of_map_to_list in Hx. cbn [fst]. 
    destruct (proj2 (C62_titles _ _ _ _ _ y Ht)) as [title Hb]; eauto. }
  clear Hn Hc. induction names as [|n names IH]; [done|].
  cbn [map]. rewrite all_of_cons, <- IH by (intros; apply Hx; by right).
  destruct (Hx n) as (title & reqs & H1 & H2); [left|].
  cbn [texts foldr]. rewrite H1, H2. unfold docs_of. rewrite H2. cbn. by rewrite append_assoc.
Qed.

(** So an index that was renamed is still printed under its old name. *)
Theorem C62_renamed_index_prints_old_name ckn tk s v b old new s' reqs show :
  titled ckn tk s v b -> v_idx v !! old = Some reqs -> v_leakI v = 0%nat -> new <> old ->
  after (CRename old new) s s' ->
  always (CString show) s' (fun res => exists before following,
    res = Done (RText (before ++ show (index_after (default "" (b !! old)) tk reqs) ++ newline ++ following)) s').
Proof.
  intros Ht Hold Hl Hne [r Hr].
  pose proof (titled_tracks _ _ _ _ _ Ht) as Htr.
  pose proof (reach_call _ _ _ _ _ _ _ Htr I Hr) as (v' & Hspec & _).
  assert (Hv' : v' = MkView (delete old (<[new := reqs]> (v_idx v))) (map (renamed old new) <$> v_ali v)
     (v_leakI v) (v_leakA v)).
  { unfold spec in Hspec. rewrite decide_False in Hspec by (intros E; by apply E).
    rewrite Hold in Hspec. by injection Hspec. }
  subst v'.
  pose proof (T_done _ _ _ _ _ _ _ _ _ Ht Hr Hspec) as Ht'. cbn [title_after] in Ht'.
  destruct (proj2 (C62_titles _ _ _ _ _ old Ht)) as [title Hb]; [eauto|]. rewrite Hb in Ht' |- *.
  destruct (C62_text _ _ _ _ _ show Ht') as [H1 H2]. split; [done|]. intros res Hres.
  destruct (H2 _ Hres) as (names & Hn & ->).
  assert (Hin : new ∈ names).
  { rewrite Hn. apply elem_of_list_fmap. exists (new, reqs). split; [done|]. apply elem_of_map_to_list.
    cbn [v_idx]. rewrite lookup_delete_ne by done. apply lookup_insert. }
  apply elem_of_list_split in Hin as (l1 & l2 & ->).
  exists (all_of (map (fun n => show (index_after (default "" (delete old (<[new := title]> b) !! n)) tk
    (docs_of (MkView (delete old (<[new := reqs]> (v_idx v))) (map (renamed old new) <$> v_ali v) (v_leakI v) (v_leakA v)) n)) ++ newline) l1)).
  exists (all_of (map (fun n => show (index_after (default "" (delete old (<[new := title]> b) !! n)) tk
    (docs_of (MkView (delete old (<[new := reqs]> (v_idx v))) (map (renamed old new) <$> v_ali v) (v_leakI v) (v_leakA v)) n)) ++ newline) l2)).
  assert (Happ : forall l l', all_of (l ++ l')%list = all_of l ++ all_of l').
  { intros l l'. induction l as [|x l IH]; [done|]. rewrite <- app_comm_cons, !all_of_cons, IH. by rewrite append_assoc. }
  rewrite map_app, Happ. cbn [map]. rewrite all_of_cons.
  rewrite lookup_delete_ne, lookup_insert by done. unfold docs_of at 2. cbn [v_idx].
  rewrite lookup_delete_ne, lookup_insert by done. cbn [default]. by rewrite append_assoc.
Qed.

Lemma titled_next ckn tk s v b c o v' :
  titled ckn tk s v b -> (forall x, spec ckn tk c v x -> x = ODone o v') ->
  exists s', after c s s' /\ titled ckn tk s' v' (title_after c v b).
Proof.
  intros Ht Ho. destruct (call_total c s) as [res Hres].
  pose proof (reach_call _ _ _ _ _ _ _ (titled_tracks _ _ _ _ _ Ht) I Hres) as Hx.
  destruct res as [r s'|s'| |].
  - destruct Hx as (v1 & Hx & _). pose proof (Ho _ Hx). simplify_eq. exists s'. split; [by exists r|].
    by eapply T_done.
  - destruct Hx as (v1 & Hx & _). by apply Ho in Hx.
  - by apply Ho in Hx.
  - by apply Ho in Hx.
Qed.

#[local] Instance DocRequest_eq_dec : EqDecision DocRequest.
Proof. solve_decision. Defined.

(** One index "p", renamed to "q". *)
Definition renamed_view : view := MkView {["q" := [dA]]} ∅ 0 false.

Lemma renamed_titled ckn tk : exists s, titled ckn tk s renamed_view {["q" := "p"]}.
Proof.
  destruct (titled_next ckn tk _ _ _ (CPut "p" dA) OUnit (MkView {["p" := [dA]]} ∅ 0 false) (T_new ckn tk))
    as (s1 & _ & T1).
  { intros o Ho. exact Ho. }
  destruct (titled_next ckn tk _ _ _ (CRename "p" "q") (OBool true) renamed_view T1) as (s2 & _ & T2).
  { intros o Ho. us Ho. rewrite decide_False in Ho by (intros E; by apply E). 
    change (({["p" := [dA]]} : gmap string (list DocRequest)) !! "p") with (Some [dA]) in Ho. cbn iota in Ho.
    rewrite Ho. unfold renamed_view. do 2 f_equal; by apply (bool_decide_unpack _). }
  exists s2. match type of T2 with titled _ _ _ _ ?b =>
    replace b with ({["q" := "p"]} : gmap string string) in T2 by (by apply (bool_decide_unpack _)) end.
  done.
Qed.

(** The claim that the text shows every index under the name List gives for it is false. *)
Theorem C62_prints_current_names_refuted :
  exists s v, tracks true letters s v /\ v_idx v = {["q" := [dA]]} /\
    ret_ true letters CList s (eq (ONames ["q"])) v /\
    always (CString mi_name) s (fun res => res = Done (RText ("p" ++ newline)) s) /\
    ~ (exists names, names ≡ₚ (map_to_list (v_idx v)).*1 /\
         "p" ++ newline = all_of (map (fun n => n ++ newline) names)).
Proof.
  destruct (renamed_titled true letters) as [s Hs]. exists s, renamed_view.
  split; [by eapply titled_tracks|]. split; [done|].
  assert (Hl : forall l, l ≡ₚ (map_to_list (v_idx renamed_view)).*1 -> l = ["q"]).
  { intros l Hl. change ((map_to_list (v_idx renamed_view)).*1) with ["q"] in Hl. by apply Permutation_singleton_r in Hl. }
  split.
  { eapply returns_intro; [by eapply titled_tracks|done|]. intros o (l & Hp & ->). apply Hl in Hp as ->. eauto. }
  split.
  - destruct (C62_text _ _ _ _ _ mi_name Hs) as [H1 H2]. split; [done|]. intros res Hres.
    destruct (H2 _ Hres) as (names & Hn & ->). apply Hl in Hn as ->. vm_compute. done.
  - intros (names & Hn & E). apply Hl in Hn as ->. done.
Qed.

(** A repo of two indices, one of them renamed to a third name. *)
Example C62_example :
  exists s, titled true letters s (MkView {["r" := [dA]; "q" := [dB]]} ∅ 0 false) {["r" := "p"; "q" := "q"]}.
Proof.
  destruct (titled_next true letters _ _ _ (CPut "p" dA) OUnit (MkView {["p" := [dA]]} ∅ 0 false) (T_new true letters))
    as (s1 & _ & T1); [done|].
  destruct (titled_next true letters _ _ _ (CPut "q" dB) OUnit (MkView {["p" := [dA]; "q" := [dB]]} ∅ 0 false) T1)
    as (s2 & _ & T2).
  { intros o Ho. vm_compute in Ho. rewrite Ho. do 2 f_equal; by apply (bool_decide_unpack _). }
  destruct (titled_next true letters _ _ _ (CRename "p" "r") (OBool true)
     (MkView {["r" := [dA]; "q" := [dB]]} ∅ 0 false) T2) as (s3 & _ & T3).
  { intros o Ho. us Ho. rewrite decide_False in Ho by (intros E; by apply E).
    change (({["p" := [dA]; "q" := [dB]]} : gmap string (list DocRequest)) !! "p") with (Some [dA]) in Ho. cbn iota in Ho.
    rewrite Ho. do 2 f_equal; by apply (bool_decide_unpack _). }
  exists s3. match type of T3 with titled _ _ _ _ ?b =>
    replace b with ({["r" := "p"; "q" := "q"]} : gmap string string) in T3 by (by apply (bool_decide_unpack _)) end.
  done.
Qed.

Print Assumptions C61_text.
Print Assumptions C61_any_order.
Print Assumptions C61_text_determines_index_refuted.
Print Assumptions C62_titles.
Print Assumptions C62_text.
Print Assumptions C62_renamed_index_prints_old_name.
Print Assumptions C62_prints_current_names_refuted.
