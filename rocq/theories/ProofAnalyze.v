(** * Tokenizer and filters against the character-level specification. *)
From Coq Require Import Lia ZifyBool ZifyNat ZifyN.
From stdpp Require Import list.
From Verif Require Import Entities Utf8 SpecUtf8 ProofUtf8 StopWords Analyze.
Open Scope N_scope.

(** ** Runs: existence and uniqueness *)
Lemma runs_cons_sep {A} (keep : A -> Prop) x l rs :
  ~ keep x -> runs keep l rs -> runs keep (x :: l) rs.
Proof.
  intros Hx H. destruct H as [sep Hs|sep run rest rs Hs Hne Hr Hh Hrest].
  - constructor. by constructor.
  - rewrite app_comm_cons. constructor; try done. by constructor.
Qed.

Lemma runs_total {A} (keep : A -> bool) l : exists rs, runs (fun x => keep x = true) l rs.
Proof.
  induction l as [|x l [rs IH]]; [exists []; by constructor|].
  destruct (keep x) eqn:E.
  - destruct IH as [sep Hs|sep run rest rs Hs Hne Hr Hh Hrest].
    + exists [[x]]. apply (runs_run _ [] [x] sep []); try done; [by constructor| |by constructor].
      intros y Hy. destruct sep; [done|]. injection Hy as ->. by apply Forall_cons in Hs as [? _].
    + destruct sep as [|y sep].
      * exists ((x :: run) :: rs). cbn [app]. rewrite app_comm_cons.
        apply (runs_run _ [] (x :: run) rest rs); try done. by constructor.
      * exists ([x] :: run :: rs). apply (runs_run _ [] [x] _ (run :: rs)); try done.
        -- by constructor.
        -- intros z [= <-]. by apply Forall_cons in Hs as [? _].
        -- by constructor.
  - exists rs. apply runs_cons_sep; [congruence|done].
Qed.

Lemma split_first {A} (P : A -> Prop) a1 b1 a2 b2 :
  Forall P a1 -> Forall P a2 ->
  (forall x, head b1 = Some x -> ~ P x) -> (forall x, head b2 = Some x -> ~ P x) ->
  a1 ++ b1 = a2 ++ b2 -> a1 = a2 /\ b1 = b2.
Proof.
  intros H1. revert a2. induction H1 as [|x a1 Hx H1 IH]; intros a2 H2 Hb1 Hb2 He.
  - destruct a2 as [|y a2]; [done|]. cbn in He. subst b1.
    exfalso. eapply Hb1; [done|]. by apply Forall_cons in H2 as [? _].
  - destruct a2 as [|y a2]; cbn in He.
    + subst b2. exfalso. by eapply Hb2.
    + injection He as -> He. apply Forall_cons in H2 as [_ H2].
      destruct (IH a2 H2 Hb1 Hb2 He) as [-> ->]. done.
Qed.

Lemma runs_nil_inv {A} (keep : A -> Prop) l : runs keep l [] -> Forall (fun x => ~ keep x) l.
Proof. intros H. by inversion H. Qed.

Lemma runs_det {A} (keep : A -> Prop) l rs rs' :
  (forall x, keep x \/ ~ keep x) -> runs keep l rs -> runs keep l rs' -> rs = rs'.
Proof.
  intros Hdec H. revert rs'. induction H as [sep Hs|sep run rest rs Hs Hne Hr Hh Hrest IH]; intros rs' H'.
  - inversion H' as [|sep' run' rest' rs1 Hs' Hne' Hr' Hh' Hrest' He]; [done|]. subst.
    exfalso. destruct run' as [|x run']; [done|].
    apply Forall_app in Hs as [_ Hs]. apply Forall_app in Hs as [Hs _].
    apply Forall_cons in Hs as [Hx _]. by apply Forall_cons in Hr' as [? _].
  - inversion H' as [sep' Hs'|sep' run' rest' rs1 Hs' Hne' Hr' Hh' Hrest' He]; subst.
    + exfalso. destruct run as [|x run]; [done|].
      apply Forall_app in Hs' as [_ Hs']. apply Forall_app in Hs' as [Hs' _].
      apply Forall_cons in Hs' as [Hx _]. by apply Forall_cons in Hr as [? _].
    + apply split_first with (P := fun x => ~ keep x) in He as [-> He]; [|done|done| |].
      * apply split_first with (P := keep) in He as [-> ->]; [|done|done|done|done].
        f_equal. by apply IH.
      * intros x Hx Hk. destruct run' as [|y run']; [done|]. injection Hx as ->.
        apply Forall_cons in Hr' as [? _]. done.
      * intros x Hx Hk. destruct run as [|y run]; [done|]. injection Hx as ->.
        apply Forall_cons in Hr as [? _]. done.
Qed.

Lemma runs_all_kept {A} (keep : A -> Prop) l :
  l <> [] -> Forall keep l -> runs keep l [l].
Proof.
  intros Hne Hk. rewrite <- (app_nil_r l) at 1. apply (runs_run _ [] l [] []); try done. by constructor.
Qed.

Lemma runs_map {A B} (kA : A -> Prop) (kB : B -> Prop) (g : A -> B) l rs :
  (forall x, kA x <-> kB (g x)) -> runs kA l rs -> runs kB (map g l) (map (map g) rs).
Proof.
  intros Hk. induction 1 as [sep Hs|sep run rest rs Hs Hne Hr Hh Hrest IH].
  - constructor. apply Forall_fmap. eapply Forall_impl; [exact Hs|]. intros x Hx. cbn. by rewrite <- Hk.
  - rewrite !map_app. cbn [map]. constructor; try done.
    + apply Forall_fmap. eapply Forall_impl; [exact Hs|]. intros x Hx. cbn. by rewrite <- Hk.
    + by destruct run.
    + apply Forall_fmap. eapply Forall_impl; [exact Hr|]. intros x Hx. cbn. by apply Hk.
    + intros y Hy. destruct rest as [|x rest]; [done|]. injection Hy as <-. rewrite <- Hk. by apply Hh.
Qed.

(** ** FieldsFunc *)
Lemma run_bytes_app l1 l2 : run_bytes (l1 ++ l2) = run_bytes l1 ++ run_bytes l2.
Proof. unfold run_bytes. by rewrite map_app, concat_app. Qed.

Lemma offsets_app i l1 l2 :
  offsets i (l1 ++ l2) = offsets i l1 ++ offsets (i + length (run_bytes l1)) l2.
Proof.
  revert i. induction l1 as [|[r c] l1 IH]; intros i; cbn [app offsets].
  - unfold run_bytes. cbn. f_equal. lia.
  - rewrite IH. f_equal. f_equal. f_equal. unfold run_bytes. cbn [map concat snd]. rewrite app_length. lia.
Qed.

Lemma fields_sep f i sep spans :
  Forall (fun x => f x.1 = true) sep ->
  fold_left (fields_step f) (offsets i sep) (None, spans) = (None, spans).
Proof.
  intros H. revert i. induction H as [|[r c] sep Hx _ IH]; intros i; cbn [offsets fold_left]; [done|].
  cbn [fields_step]. cbn in Hx. rewrite Hx. apply IH.
Qed.

Lemma fields_in_run f i run b spans :
  Forall (fun x => f x.1 = false) run ->
  fold_left (fields_step f) (offsets i run) (Some b, spans) = (Some b, spans).
Proof.
  intros H. revert i. induction H as [|[r c] run Hx _ IH]; intros i; cbn [offsets fold_left]; [done|].
  cbn [fields_step]. cbn in Hx. rewrite Hx. apply IH.
Qed.

Lemma fields_run f i run spans :
  run <> [] -> Forall (fun x => f x.1 = false) run ->
  fold_left (fields_step f) (offsets i run) (None, spans) = (Some i, spans).
Proof.
  intros Hne H. destruct H as [|[r c] run Hx H]; [done|]. cbn [offsets fold_left fields_step].
  cbn in Hx. rewrite Hx. by apply fields_in_run.
Qed.

Definition fields_finish (s : bytes) (st : option nat * list (nat * nat)) : list bytes :=
  let '(start, spans) := st in
  map (fun '(b, e) => slice_between s b e)
      (match start with Some b => spans ++ [(b, length s)] | None => spans end).

Lemma slice_between_app a b c i j :
  i = length a -> j = length (a ++ b) -> slice_between (a ++ b ++ c) i j = b.
Proof.
  intros -> ->. unfold slice_between. rewrite drop_app. rewrite app_length.
  replace (length a + length b - length a)%nat with (length b) by lia. by rewrite take_app.
Qed.

Lemma fields_runs f s pre l rs spans :
  s = pre ++ run_bytes l -> runs (fun x => f x.1 = false) l rs ->
  fields_finish s (fold_left (fields_step f) (offsets (length pre) l) (None, spans)) =
  map (fun '(b, e) => slice_between s b e) spans ++ map run_bytes rs.
Proof.
  intros Hs H. revert pre spans Hs.
  induction H as [sep Hsep|sep run rest rs Hsep Hne Hr Hh Hrest IH]; intros pre spans Hs.
  - rewrite fields_sep.
    + cbn [fields_finish map]. by rewrite app_nil_r.
    + eapply Forall_impl; [exact Hsep|]. intros x Hx. cbn in Hx. by apply not_false_iff_true.
  - assert (Hsep' : Forall (fun x => f x.1 = true) sep).
    { eapply Forall_impl; [exact Hsep|]. intros x Hx. cbn in Hx. by apply not_false_iff_true. }
    rewrite offsets_app, fold_left_app, fields_sep by done.
    rewrite offsets_app, fold_left_app, fields_run by done.
    rewrite !run_bytes_app in Hs.
    set (b := (length pre + length (run_bytes sep))%nat).
    destruct rest as [|[r c] rest].
    + cbn [offsets fold_left fields_finish].
      inversion Hrest as [|sep' run' rest' rs' ? Hne' ? ? ? Hbad]; subst rs.
      2:{ exfalso. destruct sep'; [|done]. by destruct run'. }
      rewrite map_app. cbn [map]. f_equal. f_equal.
      rewrite Hs. unfold run_bytes at 3 6. cbn [map concat]. rewrite !app_nil_r.
      rewrite app_assoc. rewrite <- (app_nil_r (run_bytes run)) at 1.
      apply slice_between_app; subst b; rewrite ?app_length; lia.
    + cbn [offsets fold_left fields_step].
      specialize (Hh (r, c) eq_refl). cbn in Hh. apply not_false_iff_true in Hh. rewrite Hh.
      set (e := (b + length (run_bytes run))%nat).
      specialize (IH (pre ++ run_bytes sep ++ run_bytes run) (spans ++ [(b, e)])).
      rewrite !app_length in IH. cbn [offsets fold_left fields_step] in IH. rewrite Hh in IH.
      replace (length pre + (length (run_bytes sep) + length (run_bytes run)))%nat with e in IH
        by (subst b e; lia).
      rewrite IH.
      * rewrite map_app. cbn [map]. rewrite <- app_assoc. f_equal. cbn [app]. f_equal.
        rewrite Hs. rewrite app_assoc. apply slice_between_app; subst b e; rewrite ?app_length; lia.
      * rewrite Hs, <- !app_assoc. done.
Qed.

Lemma FieldsFunc_runs f s l rs :
  chars s l -> runs (fun x => f x.1 = false) l rs -> FieldsFunc s f = map run_bytes rs.
Proof.
  intros Hc Hr. unfold FieldsFunc, go_range. rewrite (range_chars 0 s l) by done.
  pose proof (fields_runs f s [] l rs []) as H. cbn [length map app] in H.
  rewrite <- H; [|by apply chars_bytes|done].
  unfold fields_finish. by destruct (fold_left _ _ _).
Qed.

(** ** CleanTokenizer *)
Definition kept (fns : list cleanFunc) (x : N * bytes) : Prop :=
  exists fn, fn ∈ fns /\ fn x.1 = true.

Lemma ct_drop_kept fns x : ct_drop fns x.1 = false <-> kept fns x.
Proof.
  unfold kept. induction fns as [|fn fns IH]; cbn [ct_drop].
  - split; [done|]. intros (fn & Hin & _). inversion Hin.
  - destruct (fn x.1) eqn:E.
    + split; [|done]. intros _. exists fn. split; [left|done].
    + rewrite IH. split; intros (g & Hg & Hgx); exists g; (split; [|done]).
      * by right.
      * apply elem_of_cons in Hg as [->|Hg]; [congruence|done].
Qed.

Lemma runs_iff {A} (P Q : A -> Prop) l rs :
  (forall x, P x <-> Q x) -> runs P l rs -> runs Q l rs.
Proof.
  intros HPQ H. apply (runs_map P Q (fun x => x)) in H; [|done].
  assert (Hid : forall l : list A, map (fun x => x) l = l) by (intros; apply map_id).
  rewrite Hid in H.
  assert (Hid2 : map (map (fun x : A => x)) rs = rs).
  { rewrite <- (map_id rs) at 2. apply map_ext. done. }
  by rewrite Hid2 in H.
Qed.

Lemma ct_Tokenize_runs c text l rs :
  chars (bytes_str text) l -> runs (kept (ct_fns c)) l rs ->
  ct_Tokenize c text = map (fun run => str_bytes (run_bytes run)) rs.
Proof.
  intros Hc Hr. unfold ct_Tokenize.
  rewrite (FieldsFunc_runs _ _ l rs); [by rewrite map_map|done|].
  eapply runs_iff; [|exact Hr]. intros x. symmetry. apply ct_drop_kept.
Qed.

Lemma kept_runs_total fns l : exists rs, runs (kept fns) l rs.
Proof.
  destruct (runs_total (fun x : N * bytes => negb (ct_drop fns x.1)) l) as [rs H].
  exists rs. eapply runs_iff; [|exact H]. intros x. cbn. rewrite negb_true_iff. apply ct_drop_kept.
Qed.

Lemma kept_dec fns x : kept fns x \/ ~ kept fns x.
Proof.
  rewrite <- ct_drop_kept. destruct (ct_drop fns x.1); [right|left]; done.
Qed.

(** Every run of a text is itself a text made of exactly those characters. *)
Lemma runs_chars fns s l rs :
  chars s l -> runs (kept fns) l rs ->
  Forall (fun run => run <> [] /\ Forall (kept fns) run /\ chars (run_bytes run) run) rs.
Proof.
  intros Hc H. revert s Hc. induction H as [sep Hs|sep run rest rs Hs Hne Hr Hh Hrest IH]; intros s Hc; [constructor|].
  apply chars_app_inv in Hc as (s2 & -> & _ & Hc).
  apply chars_app_inv in Hc as (s3 & -> & Hrun & Hc). constructor; [done|]. by eapply IH.
Qed.

(** ** Joining *)
Fixpoint join_bytes (sep : bytes) (toks : list bytes) : bytes :=
  match toks with
  | [] => []
  | [t] => t
  | t :: ts => t ++ sep ++ join_bytes sep ts
  end.

Fixpoint join_chars (c : N * bytes) (runs : list (list (N * bytes))) : list (N * bytes) :=
  match runs with
  | [] => []
  | [t] => t
  | t :: ts => t ++ c :: join_chars c ts
  end.

Lemma join_chars_ok c rs :
  scalar c -> Forall (fun run => chars (run_bytes run) run) rs ->
  chars (join_bytes (utf8 c) (map run_bytes rs)) (join_chars (c, utf8 c) rs).
Proof.
  intros Hc H. induction H as [|run rs Hrun H IH]; [constructor|].
  destruct rs as [|run2 rs]; [done|].
  change (join_bytes (utf8 c) (map run_bytes (run :: run2 :: rs))) with
    (run_bytes run ++ utf8 c ++ join_bytes (utf8 c) (map run_bytes (run2 :: rs))).
  change (join_chars (c, utf8 c) (run :: run2 :: rs)) with
    (run ++ (c, utf8 c) :: join_chars (c, utf8 c) (run2 :: rs)).
  apply chars_app; [done|by constructor|].
  intros x Hx. destruct (utf8_shape c Hc) as (b & t & He & Hb & _). rewrite He in Hx.
  injection Hx as <-. done.
Qed.

Lemma join_chars_runs (keep : N * bytes -> Prop) c rs :
  ~ keep c -> Forall (fun run => run <> [] /\ Forall keep run) rs ->
  runs keep (join_chars c rs) rs.
Proof.
  intros Hc H. induction H as [|run rs [Hne Hk] H IH]; [apply (runs_end keep []); constructor|].
  destruct rs as [|run2 rs]; [by apply runs_all_kept|].
  change (join_chars c (run :: run2 :: rs)) with (run ++ c :: join_chars c (run2 :: rs)).
  apply (runs_run _ [] run _ (run2 :: rs)); try done.
  - intros x [= <-]. done.
  - by apply runs_cons_sep.
Qed.

(** ** Filters *)
Lemma StopWordsFilter_filter sw toks :
  StopWordsFilter sw toks = filter (fun t => t ∉ sw) toks.
Proof.
  unfold StopWordsFilter.
  assert (H : forall acc, fold_left (fun r tok => if decide (tok ∈ sw) then r else r ++ [tok]) toks acc
                = acc ++ filter (fun t => t ∉ sw) toks).
  { induction toks as [|t toks IH]; intros acc; cbn [fold_left]; [by rewrite app_nil_r|].
    rewrite IH, filter_cons. destruct (decide (t ∈ sw)).
    - rewrite decide_False by tauto. done.
    - rewrite decide_True by done. by rewrite <- app_assoc. }
  apply H.
Qed.

Lemma SpanishStemmerFilter_map stem b toks :
  SpanishStemmerFilter stem b toks = map (fun t => stem t b) toks.
Proof.
  unfold SpanishStemmerFilter.
  assert (H : forall acc, fold_left (fun r token => r ++ [stem token b]) toks acc
                = acc ++ map (fun t => stem t b) toks).
  { induction toks as [|t toks IH]; intros acc; cbn [fold_left map]; [by rewrite app_nil_r|].
    rewrite IH. by rewrite <- app_assoc. }
  apply H.
Qed.

(** ** Lower-casing *)
Definition ascii_lower (c : ascii) : ascii :=
  if (65 <=? bN c) && (bN c <=? 90) then Nb (bN c + 32) else c.

Definition is_ascii (s : bytes) : Prop := Forall (fun c => bN c < 0x80) s.

Lemma forallb_ascii s : forallb (fun c => bN c <? RuneSelf) s = true <-> is_ascii s.
Proof.
  unfold is_ascii, RuneSelf. rewrite forallb_forall, Forall_forall.
  setoid_rewrite N.ltb_lt. setoid_rewrite elem_of_list_In. done.
Qed.

Lemma ToLower_ascii ul s : is_ascii s -> ToLower ul s = map ascii_lower s.
Proof.
  intros Ha. unfold ToLower. apply forallb_ascii in Ha. rewrite Ha.
  destruct (existsb _ s) eqn:E; [done|].
  symmetry. clear Ha. induction s as [|c s IH]; [done|]. cbn [existsb] in E. apply orb_false_iff in E as [E1 E2].
  cbn [map]. rewrite IH by done. f_equal. unfold ascii_lower. unfold is_upper, in_rng in E1. by rewrite E1.
Qed.

Lemma ascii_lower_bN c :
  bN (ascii_lower c) = if (65 <=? bN c) && (bN c <=? 90) then bN c + 32 else bN c.
Proof.
  unfold ascii_lower. destruct (_ && _) eqn:E; [|done]. apply bN_Nb. lia.
Qed.

Lemma ascii_lower_idem c : ascii_lower (ascii_lower c) = ascii_lower c.
Proof.
  apply bN_inj. rewrite !ascii_lower_bN. destruct ((65 <=? bN c) && (bN c <=? 90)) eqn:E.
  - replace ((65 <=? bN c + 32) && (bN c + 32 <=? 90)) with false by lia. done.
  - by rewrite E.
Qed.

Lemma ascii_lower_ascii s : is_ascii s -> is_ascii (map ascii_lower s).
Proof.
  unfold is_ascii. intros H. apply Forall_fmap. eapply Forall_impl; [exact H|].
  intros c Hc. change (bN (ascii_lower c) < 0x80). change (bN c < 0x80) in Hc. rewrite ascii_lower_bN. destruct (_ && _) eqn:E; lia.
Qed.

Lemma flat_map_offsets (g : N -> bytes) i l :
  flat_map (fun x => g (snd x)) (offsets i l) = concat (map (fun x => g x.1) l).
Proof.
  revert i. induction l as [|[r c] l IH]; intros i; [done|]. cbn. by rewrite IH.
Qed.

Lemma ToLower_chars ul s l :
  ~ is_ascii s -> chars s l -> ToLower ul s = concat (map (fun x => EncodeRune (ul x.1)) l).
Proof.
  intros Ha Hc. unfold ToLower. rewrite <- forallb_ascii in Ha. apply not_true_iff_false in Ha. rewrite Ha.
  unfold strings_Map, go_range. rewrite (range_chars 0 s l) by done.
  apply (flat_map_offsets (fun r => EncodeRune (ul r))).
Qed.

Lemma chars_scalar s l : chars s l -> Forall (fun x => scalar x.1) l.
Proof.
  induction 1; constructor; cbn; try done. unfold scalar. lia.
Qed.

Lemma utf8_map_ascii_upper rs c :
  Forall scalar rs -> is_ascii (concat (map utf8 rs)) -> c ∈ concat (map utf8 rs) -> bN c ∈ rs.
Proof.
  induction 1 as [|r rs Hr _ IH]; cbn [map concat]; intros Ha Hc; [inversion Hc|].
  apply Forall_app in Ha as [Ha1 Ha2]. apply elem_of_app in Hc as [Hc|Hc]; [|set_solver].
  assert (r < 0x80).
  { destruct (utf8_shape r Hr) as (b & t & He & Hb & Ht). rewrite He in Ha1.
    apply Forall_cons in Ha1 as [Hb1 Ht1].
    destruct t as [|c' t].
    - unfold utf8 in He. destruct (N.ltb_spec r 0x80); [done|].
      destruct (r <? 0x800); [done|]. destruct (r <? 0x10000); done.
    - apply Forall_cons in Ht as [Hc' _]. apply Forall_cons in Ht1 as [Hc1 _]. unfold cont in Hc'. lia. }
  assert (utf8 r = [Nb r]) as Hu.
  { unfold utf8. destruct (N.ltb_spec r 0x80); [done|lia]. }
  rewrite Hu in Hc. apply elem_of_list_singleton in Hc as ->. rewrite bN_Nb by lia. set_solver.
Qed.

Record lower_ok (ul : N -> N) : Prop := {
  lo_scalar : forall r, scalar r -> scalar (ul r);
  lo_idem : forall r, scalar r -> ul (ul r) = ul r;
  lo_ascii : forall r, r < 0x80 -> ul r = if (65 <=? r) && (r <=? 90) then r + 32 else r }.

Lemma concat_encode ul (l : list (N * bytes)) :
  lower_ok ul -> Forall (fun x => scalar x.1) l ->
  concat (map (fun x => EncodeRune (ul x.1)) l) = concat (map utf8 (map (fun x => ul x.1) l)).
Proof.
  intros Hul H. induction H as [|x l Hx _ IH]; [done|]. cbn [map concat].
  rewrite IH. f_equal. apply EncodeRune_utf8. by apply (lo_scalar _ Hul).
Qed.

Lemma ToLower_idem ul s : lower_ok ul -> ToLower ul (ToLower ul s) = ToLower ul s.
Proof.
  intros Hul. destruct (chars_total s) as [l Hl].
  assert (Hda : is_ascii s \/ ~ is_ascii s).
  { rewrite <- forallb_ascii. destruct (forallb _ s); [left|right]; done. }
  destruct Hda as [Ha|Ha].
  - rewrite !(ToLower_ascii ul s) by done. rewrite ToLower_ascii by (by apply ascii_lower_ascii).
    rewrite map_map. apply map_ext. apply ascii_lower_idem.
  - rewrite (ToLower_chars ul s l) by done.
    pose proof (chars_scalar _ _ Hl) as Hsc. rewrite concat_encode by done.
    set (rs := map (fun x : N * bytes => ul x.1) l).
    assert (Hrs : Forall scalar rs).
    { subst rs. apply Forall_fmap. eapply Forall_impl; [exact Hsc|]. intros x Hx. by apply (lo_scalar _ Hul). }
    assert (Hfix : forall r, r ∈ rs -> ul r = r).
    { intros r Hr. subst rs. apply elem_of_list_fmap in Hr as (x & -> & Hx).
      rewrite Forall_forall in Hsc. apply (lo_idem _ Hul). by apply Hsc. }
    assert (Hda : is_ascii (concat (map utf8 rs)) \/ ~ is_ascii (concat (map utf8 rs))).
    { rewrite <- forallb_ascii. destruct (forallb _ (concat (map utf8 rs))); [left|right]; done. }
    destruct Hda as [Ha'|Ha'].
    + rewrite ToLower_ascii by done. rewrite <- (map_id (concat (map utf8 rs))) at 2.
      apply map_ext_in. intros c Hc%elem_of_list_In.
      pose proof (utf8_map_ascii_upper rs c Hrs Ha' Hc) as Hin. apply Hfix in Hin.
      rewrite (lo_ascii _ Hul) in Hin by (unfold is_ascii in Ha'; rewrite Forall_forall in Ha'; by apply Ha').
      unfold ascii_lower. destruct (_ && _); [lia|done].
    + pose proof (chars_valid_concat rs [] [] Hrs chars_nil) as Hcv. rewrite !app_nil_r in Hcv.
      rewrite (ToLower_chars ul _ _ Ha' Hcv). rewrite map_map. cbn [fst].
      f_equal. apply map_ext_in. intros r Hr%elem_of_list_In. rewrite Hfix by done.
      apply EncodeRune_utf8. rewrite Forall_forall in Hrs. by apply Hrs.
Qed.

(** ** ASCII case folding through the tokenizer *)
Lemma str_bytes_id s : str_bytes (bytes_str s) = s.
Proof. apply string_of_list_ascii_of_string. Qed.
Lemma bytes_str_id s : bytes_str (str_bytes s) = s.
Proof. apply list_ascii_of_string_of_list_ascii. Qed.

Definition chr (c : ascii) : N * bytes := (bN c, [c]).

Lemma run_bytes_chr l : run_bytes (map chr l) = l.
Proof. unfold run_bytes. induction l as [|c l IH]; [done|]. cbn in *. by rewrite IH. Qed.

Lemma runs_chr_inv fns s rs :
  runs (kept fns) (map chr s) rs -> exists ts, rs = map (map chr) ts /\ runs (fun c => kept fns (chr c)) s ts.
Proof.
  intros H.
  destruct (runs_total (fun c : ascii => negb (ct_drop fns (bN c))) s) as [ts Hts].
  assert (Hts' : runs (fun c => kept fns (chr c)) s ts).
  { eapply runs_iff; [|exact Hts]. intros c. cbn. rewrite negb_true_iff. apply (ct_drop_kept fns (chr c)). }
  exists ts. split; [|done].
  eapply runs_det; [apply kept_dec|exact H|].
  apply (runs_map (fun c => kept fns (chr c))); [done|done].
Qed.

Definition case_blind (fns : list cleanFunc) : Prop :=
  forall c, bN c < 0x80 -> (kept fns (chr c) <-> kept fns (chr (ascii_lower c))).

Lemma ct_Tokenize_ascii c text ts :
  is_ascii (bytes_str text) ->
  runs (fun x => kept (ct_fns c) (chr x)) (bytes_str text) ts ->
  ct_Tokenize c text = map str_bytes ts.
Proof.
  intros Ha Hr. rewrite (ct_Tokenize_runs c text (map chr (bytes_str text)) (map (map chr) ts)).
  - rewrite map_map. apply map_ext. intros t. by rewrite run_bytes_chr.
  - by apply chars_ascii.
  - apply (runs_map (fun x => kept (ct_fns c) (chr x))); done.
Qed.

Lemma runs_map_on {A B} (D : A -> Prop) (kA : A -> Prop) (kB : B -> Prop) (g : A -> B) l rs :
  (forall x, D x -> (kA x <-> kB (g x))) -> Forall D l ->
  runs kA l rs -> runs kB (map g l) (map (map g) rs).
Proof.
  intros Hk HD H. revert HD. induction H as [sep Hs|sep run rest rs Hs Hne Hr Hh Hrest IH]; intros HD.
  - constructor. apply Forall_fmap. rewrite Forall_forall in Hs, HD |- *.
    intros x Hx. cbn. rewrite <- Hk; auto.
  - apply Forall_app in HD as [HD1 HD]. apply Forall_app in HD as [HD2 HD3].
    rewrite !map_app. cbn [map]. constructor.
    + apply Forall_fmap. rewrite Forall_forall in Hs, HD1 |- *. intros x Hx. cbn. rewrite <- Hk; auto.
    + by destruct run.
    + apply Forall_fmap. rewrite Forall_forall in Hr, HD2 |- *. intros x Hx. cbn. rewrite <- Hk; auto.
    + intros y Hy. destruct rest as [|x rest]; [done|]. injection Hy as <-.
      apply Forall_cons in HD3 as [Hx _]. rewrite <- Hk by done. by apply Hh.
    + by apply IH.
Qed.

Lemma runs_sub {A} (P D : A -> Prop) l rs :
  Forall D l -> runs P l rs -> Forall (Forall D) rs.
Proof.
  intros HD H. revert HD. induction H as [|sep run rest rs Hs Hne Hr Hh Hrest IH]; intros HD; [constructor|].
  apply Forall_app in HD as [_ HD]. apply Forall_app in HD as [HD1 HD]. constructor; auto.
Qed.

Lemma lower_tokens ul c text :
  case_blind (ct_fns c) -> is_ascii (bytes_str text) ->
  LowerCaseFilter ul (ct_Tokenize c text) =
  ct_Tokenize c (str_bytes (map ascii_lower (bytes_str text))).
Proof.
  intros Hcb Ha.
  destruct (runs_total (fun x : ascii => negb (ct_drop (ct_fns c) (bN x))) (bytes_str text)) as [ts Hts].
  assert (Hts' : runs (fun x => kept (ct_fns c) (chr x)) (bytes_str text) ts).
  { eapply runs_iff; [|exact Hts]. intros x. cbn. rewrite negb_true_iff. apply (ct_drop_kept (ct_fns c) (chr x)). }
  rewrite (ct_Tokenize_ascii c text ts) by done.
  rewrite (ct_Tokenize_ascii c _ (map (map ascii_lower) ts)).
  - unfold LowerCaseFilter. rewrite !map_map. apply map_ext_in. intros t Ht%elem_of_list_In.
    rewrite bytes_str_id. f_equal. apply ToLower_ascii.
    pose proof (runs_sub _ _ _ _ Ha Hts') as HD. rewrite Forall_forall in HD. by apply HD.
  - rewrite bytes_str_id. by apply ascii_lower_ascii.
  - rewrite bytes_str_id. eapply runs_map_on; [|exact Ha|exact Hts']. exact Hcb.
Qed.
