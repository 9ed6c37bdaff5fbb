(** * Order, uniqueness and consequences for HitsSearch; FNV-1 facts. *)
From Coq Require Import Lia ZifyBool ZifyNat ZifyN.
From stdpp Require Import sorting.
From Verif Require Import Entities Search SpecSearch ProofSearch ProofEngines.
Open Scope Z_scope.

(** ** Byte order on strings *)
Lemma N_of_ascii_inj a b : N_of_ascii a = N_of_ascii b -> a = b.
Proof. intros H. rewrite <- (ascii_N_embedding a), <- (ascii_N_embedding b). by rewrite H. Qed.

Lemma bytes_of_cons x a : bytes_of (String x a) = N_of_ascii x :: bytes_of a.
Proof. done. Qed.

Lemma bytes_of_inj a b : bytes_of a = bytes_of b -> a = b.
Proof.
  revert b. induction a as [|x a IH]; intros [|y b]; try done.
  rewrite !bytes_of_cons. intros [= H1 H2]. f_equal; [by apply N_of_ascii_inj|auto].
Qed.

Lemma bytes_of_bound a : Forall (fun b => (b < 256)%N) (bytes_of a).
Proof.
  induction a as [|x a IH]; [constructor|]. rewrite bytes_of_cons. constructor; [|done].
  apply N_ascii_bounded.
Qed.

Lemma bytes_of_app a b : bytes_of (a ++ b) = bytes_of a ++ bytes_of b.
Proof.
  induction a as [|x a IH]; [done|].
  change (String x a ++ b)%string with (String x (a ++ b)%string).
  rewrite !bytes_of_cons. cbn [app]. by rewrite IH.
Qed.

Lemma go_string_lt_spec a b : go_string_lt a b = true <-> id_lt a b.
Proof.
  revert b. induction a as [|x a IH]; intros b.
  - destruct b as [|y b]; simpl.
    + split; [done|]. intros (p & [(x & s & y & t & H & _)|(y & t & H1 & H2)]).
      * by destruct p.
      * by destruct p.
    + split; [|done]. intros _. exists []. right. exists (N_of_ascii y), (bytes_of b). done.
  - destruct b as [|y b]; simpl.
    + split; [done|]. intros (p & [(x' & s & y & t & _ & H & _)|(y & t & H1 & H2)]); by destruct p.
    + destruct (N.ltb_spec (N_of_ascii x) (N_of_ascii y)) as [Hlt|Hge].
      { split; [|done]. intros _. exists []. left.
        exists (N_of_ascii x), (bytes_of a), (N_of_ascii y), (bytes_of b). done. }
      destruct (N.ltb_spec (N_of_ascii y) (N_of_ascii x)) as [Hlt'|Hge'].
      { split; [done|]. intros (p & H). exfalso.
        destruct H as [(x' & s & y' & t & H1 & H2 & H3)|(y' & t & H1 & H2)];
          rewrite bytes_of_cons in H1; rewrite bytes_of_cons in H2; destruct p as [|c p]; simplify_eq/=; lia. }
      assert (N_of_ascii x = N_of_ascii y) as Heq by lia. apply N_of_ascii_inj in Heq as ->.
      rewrite IH. split.
      * intros (p & H). exists (N_of_ascii y :: p).
        destruct H as [(x' & s & y' & t & H1 & H2 & H3)|(y' & t & H1 & H2)].
        -- left. exists x', s, y', t. rewrite !bytes_of_cons, H1, H2. done.
        -- right. exists y', t. rewrite !bytes_of_cons, H1, H2. done.
      * intros (p & H).
        destruct H as [(x' & s & y' & t & H1 & H2 & H3)|(y' & t & H1 & H2)];
          rewrite bytes_of_cons in H1; rewrite bytes_of_cons in H2; destruct p as [|c p]; simplify_eq/=; try lia.
        -- exists p. left. exists x', s, y', t. done.
        -- exists (bytes_of a). right. exists y', t. done.
Qed.

Lemma go_string_lt_irrefl a : go_string_lt a a = false.
Proof.
  induction a as [|x a IH]; [done|]. simpl.
  destruct (N.ltb_spec (N_of_ascii x) (N_of_ascii x)); [lia|done].
Qed.

Lemma go_string_lt_trans a b c :
  go_string_lt a b = true -> go_string_lt b c = true -> go_string_lt a c = true.
Proof.
  revert b c. induction a as [|x a IH]; intros [|y b] [|z c]; simpl; try done.
  destruct (N.ltb_spec (N_of_ascii x) (N_of_ascii y));
  destruct (N.ltb_spec (N_of_ascii y) (N_of_ascii x));
  destruct (N.ltb_spec (N_of_ascii y) (N_of_ascii z));
  destruct (N.ltb_spec (N_of_ascii z) (N_of_ascii y));
  destruct (N.ltb_spec (N_of_ascii x) (N_of_ascii z));
  destruct (N.ltb_spec (N_of_ascii z) (N_of_ascii x)); try done; try lia.
  apply IH.
Qed.

Lemma go_string_lt_total a b :
  go_string_lt a b = false -> go_string_lt b a = false -> a = b.
Proof.
  revert b. induction a as [|x a IH]; intros [|y b]; simpl; try done.
  destruct (N.ltb_spec (N_of_ascii x) (N_of_ascii y));
  destruct (N.ltb_spec (N_of_ascii y) (N_of_ascii x)); try done.
  intros H1 H2. f_equal; [apply N_of_ascii_inj; lia|auto].
Qed.

Lemma not_lt_id_le a b : go_string_lt b a = false -> id_le a b.
Proof.
  intros H. destruct (go_string_lt a b) eqn:E.
  - right. by apply go_string_lt_spec.
  - left. by apply go_string_lt_total.
Qed.

(** ** Less *)
Lemma Less_irrefl x : Less x x = false.
Proof. unfold Less. rewrite Z.eqb_refl. simpl. apply go_string_lt_irrefl. Qed.

Lemma Less_trans x y z : Less x y = true -> Less y z = true -> Less x z = true.
Proof.
  unfold Less.
  destruct (Z.eqb_spec (sr_Hits x) (sr_Hits y)), (Z.eqb_spec (sr_Hits y) (sr_Hits z)),
    (Z.eqb_spec (sr_Hits x) (sr_Hits z)); simpl; try lia.
  apply go_string_lt_trans.
Qed.

Lemma Less_incomparable x y :
  Less x y = false -> Less y x = false ->
  sr_Hits x = sr_Hits y /\ doc_Name (sr_Document x) = doc_Name (sr_Document y).
Proof.
  unfold Less, doc_ID.
  destruct (Z.eqb_spec (sr_Hits x) (sr_Hits y)), (Z.eqb_spec (sr_Hits y) (sr_Hits x)); simpl; try lia.
  intros H1 H2. split; [done|]. by apply go_string_lt_total.
Qed.

(** ** Sorting contract: sorted means StronglySorted *)
Lemma StronglySorted_lookup {A} (R : A -> A -> Prop) l :
  StronglySorted R l <->
  (forall i j x y, (i < j)%nat -> l !! i = Some x -> l !! j = Some y -> R x y).
Proof.
  induction l as [|a l IH]; split.
  - intros _ i j x y _ H. done.
  - constructor.
  - intros Hs i j x y Hij Hi Hj. apply StronglySorted_inv in Hs as [Hs Hf].
    destruct i as [|i], j as [|j]; try lia; simpl in *.
    + simplify_eq. rewrite Forall_forall in Hf. apply Hf. by eapply elem_of_list_lookup_2.
    + eapply IH; [done| |done|done]. lia.
  - intros H. constructor.
    + apply IH. intros i j x y Hij Hi Hj. apply (H (S i) (S j)); [lia|done|done].
    + apply Forall_forall. intros y Hy. apply elem_of_list_lookup_1 in Hy as [j Hj].
      apply (H 0%nat (S j)); [lia|done|done].
Qed.

Definition ranked (x y : SearchResult) : Prop := Less y x = false.

Lemma sort_contract_sorted srt l : sort_contract srt -> StronglySorted ranked (srt l).
Proof. intros Hc. apply StronglySorted_lookup. apply Hc. Qed.

(** ** Rows with the same rank are equal *)
Lemma hits_row_group tk reqs ts r x :
  x ∈ hits_row tk reqs ts r ->
  exists r0, r0 ∈ reqs /\ fnv64 (req_Name r0) = fnv64 (req_Name r) /\
    group_first tk reqs ts (fnv64 (req_Name r)) = Some r0 /\
    x = MkSR (doc_of r0) (Z.of_nat (group_hits tk reqs ts (fnv64 (req_Name r)))).
Proof.
  unfold hits_row. destruct (group_first _ _ _ _) as [r0|] eqn:E; [|intros H; inversion H].
  destruct (_ <=? _)%nat; [|intros H; inversion H].
  intros ->%elem_of_list_singleton. exists r0.
  unfold group_first in E. destruct (flat_map _ ts) as [|r1 rest] eqn:Ef; [done|].
  simpl in E. injection E as ->.
  assert (Hin : r0 ∈ flat_map (fun t => filter (fun r1 => in_group (fnv64 (req_Name r)) r1 = true /\ contains tk r1 t = true) reqs) ts)
    by (rewrite Ef; set_solver).
  apply elem_of_list_In, in_flat_map in Hin as (t & _ & Hin).
  apply elem_of_list_In, elem_of_list_filter in Hin as [[Hg _] Hin].
  unfold in_group in Hg. apply N.eqb_eq in Hg. done.
Qed.

Lemma hits_rows_same_id tk reqs ts x y :
  x ∈ hits_rows tk reqs ts -> y ∈ hits_rows tk reqs ts ->
  doc_Name (sr_Document x) = doc_Name (sr_Document y) -> x = y.
Proof.
  unfold hits_rows. intros Hx Hy.
  apply elem_of_list_In, in_flat_map in Hx as (rx & _ & Hx%elem_of_list_In).
  apply elem_of_list_In, in_flat_map in Hy as (ry & _ & Hy%elem_of_list_In).
  apply hits_row_group in Hx as (r0 & _ & H0 & Hf0 & ->).
  apply hits_row_group in Hy as (r1 & _ & H1 & Hf1 & ->).
  cbn [sr_Document doc_of doc_Name]. intros Hn.
  assert (Hk : fnv64 (req_Name rx) = fnv64 (req_Name ry)) by congruence.
  rewrite Hk in Hf0 |- *. congruence.
Qed.

Lemma hits_sort_unique srt1 srt2 tk reqs ts :
  sort_contract srt1 -> sort_contract srt2 ->
  srt1 (hits_rows tk reqs ts) = srt2 (hits_rows tk reqs ts).
Proof.
  intros H1 H2. apply (StronglySorted_unique_on ranked).
  - intros x y Hx Hy Hxy Hyx.
    destruct (H1 (hits_rows tk reqs ts)) as [HP _].
    rewrite HP in Hx, Hy.
    destruct (Less_incomparable _ _ Hyx Hxy) as [_ Hn].
    by eapply hits_rows_same_id.
  - by apply sort_contract_sorted.
  - by apply sort_contract_sorted.
  - destruct (H1 (hits_rows tk reqs ts)) as [-> _].
    destruct (H2 (hits_rows tk reqs ts)) as [-> _]. done.
Qed.

(** ** Distinct hashes: the rows are the AND-search results *)
Definition distinct_hashes (reqs : list DocRequest) : Prop :=
  NoDup (map (fun r => fnv64 (req_Name r)) reqs).

Lemma group_singleton (reqs : list DocRequest) r :
  distinct_hashes reqs -> r ∈ reqs ->
  filter (fun r' => in_group (fnv64 (req_Name r)) r' = true) reqs = [r].
Proof.
  unfold distinct_hashes. induction reqs as [|r' reqs IH]; intros Hnd Hin; [inversion Hin|].
  cbn [map] in Hnd. apply NoDup_cons in Hnd as [Hni Hnd]. rewrite filter_cons.
  apply elem_of_cons in Hin as [->|Hin].
  - rewrite decide_True by (unfold in_group; apply N.eqb_refl). f_equal.
    apply elem_of_nil_inv. intros x Hx. apply elem_of_list_filter in Hx as [Hg Hx].
    apply Hni. unfold in_group in Hg. apply N.eqb_eq in Hg. rewrite <- Hg.
    apply elem_of_list_fmap. eauto.
  - rewrite decide_False; [by apply IH|]. unfold in_group. intros Hg%N.eqb_eq.
    apply Hni. rewrite Hg. apply elem_of_list_fmap. eauto.
Qed.

Lemma group_token tk reqs r t :
  distinct_hashes reqs -> r ∈ reqs ->
  filter (fun r' => in_group (fnv64 (req_Name r)) r' = true /\ contains tk r' t = true) reqs =
  if contains tk r t then [r] else [].
Proof.
  intros Hd Hin.
  transitivity (filter (fun r' => contains tk r' t = true)
                 (filter (fun r' => in_group (fnv64 (req_Name r)) r' = true) reqs)).
  { rewrite list_filter_filter. apply list_filter_iff. tauto. }
  rewrite group_singleton by done. rewrite filter_cons, filter_nil.
  destruct (contains tk r t); [by rewrite decide_True|by rewrite decide_False].
Qed.

Lemma hits_row_distinct tk reqs ts r :
  distinct_hashes reqs -> r ∈ reqs -> ts <> [] ->
  hits_row tk reqs ts r =
    if contains_all tk ts r then [MkSR (doc_of r) (Z.of_nat (length ts))] else [].
Proof.
  intros Hd Hin Hts. unfold hits_row, group_first. rewrite group_hits_flat.
  set (F := fun t => filter _ reqs).
  assert (HF : flat_map F ts = flat_map (fun t => if contains tk r t then [r] else []) ts).
  { clear Hts. induction ts as [|t ts IH]; [done|]. cbn [flat_map]. rewrite IH. f_equal.
    by apply group_token. }
  rewrite HF. clear HF F.
  assert (Hall : contains_all tk ts r = true ->
     flat_map (fun t => if contains tk r t then [r] else []) ts = replicate (length ts) r).
  { clear. induction ts as [|t ts IH]; [done|]. cbn [contains_all forallb flat_map].
    intros [H1 H2]%andb_true_iff. rewrite H1. simpl. f_equal. by apply IH. }
  assert (Hnot : contains_all tk ts r = false ->
     (length (flat_map (fun t => if contains tk r t then [r] else []) ts) < length ts)%nat).
  { clear. induction ts as [|t ts IH]; [done|]. cbn [contains_all forallb flat_map].
    rewrite app_length. cbn [length].
    assert (Hb : (length (flat_map (fun t0 => if contains tk r t0 then [r] else []) ts) <= length ts)%nat).
    { clear. induction ts as [|t ts IH]; [done|]. cbn [flat_map]. rewrite app_length. simpl.
      destruct (contains tk r t); simpl; lia. }
    destruct (contains tk r t); simpl; [|lia]. intros H. specialize (IH H). lia. }
  destruct (contains_all tk ts r).
  - rewrite Hall by done. rewrite replicate_length, Nat.leb_refl.
    destruct ts as [|t ts]; [done|]. simpl. done.
  - specialize (Hnot eq_refl). destruct (flat_map _ ts) as [|r0 rest]; [done|]. cbn [head].
    destruct (Nat.leb_spec (length ts) (length (r0 :: rest))); [lia|done].
Qed.

Lemma flat_map_ext_in {A B} (f g : A -> list B) l :
  (forall x, x ∈ l -> f x = g x) -> flat_map f l = flat_map g l.
Proof.
  induction l as [|x l IH]; intros H; [done|]. cbn [flat_map].
  rewrite H by set_solver. f_equal. apply IH. intros y Hy. apply H. set_solver.
Qed.

Lemma flat_map_nil {A B} (f : A -> list B) l :
  (forall x, x ∈ l -> f x = []) -> flat_map f l = [].
Proof.
  intros H. rewrite (flat_map_ext_in f (fun _ => [])) by done. clear. induction l; done.
Qed.

Lemma hits_rows_distinct tk reqs ts :
  distinct_hashes reqs -> hits_rows tk reqs ts = and_search tk reqs ts.
Proof.
  intros Hd. unfold hits_rows, and_search. destruct ts as [|t ts].
  { apply flat_map_nil. intros r _. done. }
  rewrite (flat_map_ext_in _ (fun r => if contains_all tk (t :: ts) r
             then [MkSR (doc_of r) (Z.of_nat (length (t :: ts)))] else [])).
  2:{ intros r Hr. by apply hits_row_distinct. }
  clear Hd. induction reqs as [|r reqs IH]; [done|]. cbn [flat_map]. rewrite IH, filter_cons.
  destruct (contains_all tk (t :: ts) r); [by rewrite decide_True|by rewrite decide_False].
Qed.

Lemma and_search_ids tk reqs ts :
  NoDup (map req_Name reqs) ->
  NoDup (map (fun x => doc_Name (sr_Document x)) (and_search tk reqs ts)).
Proof.
  intros Hnd. destruct ts as [|t ts]; [constructor|]. cbn [and_search].
  rewrite map_map. cbn [sr_Document doc_of doc_Name].
  induction reqs as [|r reqs IH]; [constructor|].
  cbn [map] in Hnd. apply NoDup_cons in Hnd as [Hni Hnd]. rewrite filter_cons.
  destruct (decide _); [|auto]. cbn [map]. apply NoDup_cons. split; [|auto].
  intros Hin. apply Hni. apply elem_of_list_fmap in Hin as (r' & Hr' & Hin).
  apply elem_of_list_filter in Hin as [_ Hin]. rewrite Hr'. apply elem_of_list_fmap. eauto.
Qed.

Lemma distinct_hashes_ids reqs : distinct_hashes reqs -> NoDup (map req_Name reqs).
Proof.
  unfold distinct_hashes. rewrite <- (map_map req_Name fnv64). intros H.
  eapply NoDup_fmap_1. exact H.
Qed.

(** ** AND search algebra *)
Lemma and_search_put tk reqs ts r :
  and_search tk (reqs ++ [r]) ts =
  and_search tk reqs ts ++
    (if negb (bool_decide (ts = [])) && contains_all tk ts r
     then [MkSR (doc_of r) (Z.of_nat (length ts))] else []).
Proof.
  unfold and_search. destruct ts as [|t ts]; [done|].
  rewrite filter_app, map_app. f_equal. rewrite filter_cons, filter_nil.
  rewrite bool_decide_false by done. simpl negb. rewrite andb_true_l.
  destruct (contains_all tk (t :: ts) r); [by rewrite decide_True|by rewrite decide_False].
Qed.

Lemma contains_all_set tk ts ts' r :
  (forall t, t ∈ ts <-> t ∈ ts') -> contains_all tk ts r = contains_all tk ts' r.
Proof.
  intros H. unfold contains_all.
  destruct (forallb _ ts) eqn:E1, (forallb _ ts') eqn:E2; try done.
  - rewrite forallb_forall in E1. apply not_true_iff_false in E2. exfalso. apply E2.
    apply forallb_forall. intros t Ht. apply E1. apply elem_of_list_In, H, elem_of_list_In, Ht.
  - rewrite forallb_forall in E2. apply not_true_iff_false in E1. exfalso. apply E1.
    apply forallb_forall. intros t Ht. apply E2. apply elem_of_list_In, H, elem_of_list_In, Ht.
Qed.

Lemma and_search_docs tk reqs ts :
  map sr_Document (and_search tk reqs ts) =
  if bool_decide (ts = []) then [] else map doc_of (filter (fun r => contains_all tk ts r = true) reqs).
Proof. destruct ts as [|t ts]; [done|]. cbn [and_search]. rewrite map_map. done. Qed.

Lemma and_search_perm tk reqs ts ts' :
  ts ≡ₚ ts' -> and_search tk reqs ts = and_search tk reqs ts'.
Proof.
  intros HP. unfold and_search. destruct ts as [|t ts], ts' as [|t' ts']; try done.
  - by apply Permutation_nil_l in HP.
  - by apply Permutation_nil_r in HP.
  - rewrite (Permutation_length HP).
    rewrite (list_filter_iff _ (fun r => contains_all tk (t' :: ts') r = true)); [done|].
    intros r. rewrite (contains_all_set tk (t :: ts) (t' :: ts')); [done|]. intros x. by rewrite HP.
Qed.

Lemma and_search_set tk reqs ts ts' :
  (forall t, t ∈ ts <-> t ∈ ts') ->
  map sr_Document (and_search tk reqs ts) = map sr_Document (and_search tk reqs ts').
Proof.
  intros H. rewrite !and_search_docs.
  assert (He : ts = [] <-> ts' = []).
  { split; intros ->; apply elem_of_nil_inv; intros x Hx; apply H in Hx; inversion Hx. }
  destruct (bool_decide (ts = [])) eqn:E1.
  - apply bool_decide_eq_true in E1. rewrite bool_decide_true by tauto. done.
  - apply bool_decide_eq_false in E1. rewrite bool_decide_false by tauto.
    rewrite (list_filter_iff _ (fun r => contains_all tk ts' r = true)); [done|].
    intros r. by rewrite (contains_all_set tk ts ts').
Qed.

Lemma and_search_narrow tk reqs ts ts' :
  ts <> [] ->
  sublist (map sr_Document (and_search tk reqs (ts ++ ts'))) (map sr_Document (and_search tk reqs ts)).
Proof.
  intros Hts. rewrite !and_search_docs. rewrite !bool_decide_false; [|done|by destruct ts].
  induction reqs as [|r reqs IH]; [constructor|]. rewrite !filter_cons.
  rewrite contains_all_app. destruct (contains_all tk ts r) eqn:E; cbn [andb].
  - destruct (contains_all tk ts' r).
    + rewrite !decide_True by done. cbn [map]. by apply sublist_skip.
    + rewrite decide_False, decide_True by done. cbn [map]. by apply sublist_cons.
  - rewrite !decide_False by done. exact IH.
Qed.

(** ** Re-indexed IDs *)
Lemma hits_rows_versions tk reqs t id :
  (forall r, r ∈ reqs -> fnv64 (req_Name r) = fnv64 id -> req_Name r = id) ->
  filter (fun x => doc_Name (sr_Document x) = id) (hits_rows tk reqs [t]) =
  match filter (fun r => req_Name r = id /\ contains tk r t = true) reqs with
  | [] => []
  | r0 :: rest => replicate (length (filter (fun r => req_Name r = id) reqs))
                    (MkSR (doc_of r0) (Z.of_nat (S (length rest))))
  end.
Proof.
  intros Hnc. set (V := filter (fun r => req_Name r = id /\ contains tk r t = true) reqs).
  assert (HV : filter (fun r => in_group (fnv64 id) r = true /\ contains tk r t = true) reqs = V).
  { subst V. clear -Hnc. induction reqs as [|r reqs IH]; [done|]. rewrite !filter_cons, IH.
    2:{ intros r' Hr'. apply Hnc. set_solver. }
    unfold in_group. destruct (N.eqb_spec (fnv64 (req_Name r)) (fnv64 id)) as [He|Hne].
    - apply Hnc in He; [|set_solver]. subst id.
      repeat destruct (decide _); naive_solver.
    - rewrite decide_False by naive_solver. rewrite decide_False; [done|]. intros [He _]. apply Hne. by rewrite He. }
  assert (Hrow : forall r, r ∈ reqs ->
    filter (fun x => doc_Name (sr_Document x) = id) (hits_row tk reqs [t] r) =
    if decide (req_Name r = id)
    then match V with [] => [] | r0 :: rest => [MkSR (doc_of r0) (Z.of_nat (S (length rest)))] end
    else []).
  { intros r Hr. destruct (decide (req_Name r = id)) as [He|Hne].
    - unfold hits_row, group_first. rewrite group_hits_flat. cbn [flat_map]. rewrite app_nil_r.
      rewrite He, HV. destruct V as [|r0 rest] eqn:EV; [done|]. cbn [head length].
      cbn [Nat.leb]. rewrite filter_cons, filter_nil. rewrite decide_True; [done|].
      cbn [sr_Document doc_of doc_Name].
      assert (Hin : r0 ∈ V) by (rewrite EV; set_solver). subst V.
      apply elem_of_list_filter in Hin. tauto.
    - apply elem_of_nil_inv. intros x Hx. apply elem_of_list_filter in Hx as [Hxid Hx].
      apply hits_row_group in Hx as (r0 & Hr0 & Hh & _ & ->). cbn in Hxid.
      apply Hne. apply Hnc; [done|]. by rewrite <- Hh, Hxid. }
  unfold hits_rows.
  assert (Hgen : forall l, (forall r, r ∈ l -> r ∈ reqs) ->
    filter (fun x => doc_Name (sr_Document x) = id) (flat_map (hits_row tk reqs [t]) l) =
    match V with [] => [] | r0 :: rest => replicate (length (filter (fun r => req_Name r = id) l))
                    (MkSR (doc_of r0) (Z.of_nat (S (length rest)))) end).
  { induction l as [|r l IH]; intros Hl; cbn [flat_map].
    - rewrite !filter_nil. by destruct V.
    - rewrite filter_app, Hrow by (apply Hl; set_solver).
      rewrite IH by (intros r' Hr'; apply Hl; set_solver).
      rewrite filter_cons. destruct (decide (req_Name r = id)).
      + destruct V; done.
      + done. }
  apply Hgen. done.
Qed.

(** ** FNV-1 *)
Lemma two64_pow : two64 = (2 ^ 64)%N.
Proof. reflexivity. Qed.

Lemma lxor_lt_pow2 a b n : (a < 2 ^ n)%N -> (b < 2 ^ n)%N -> (N.lxor a b < 2 ^ n)%N.
Proof.
  intros Ha Hb.
  assert (Hn : N.lxor a b = (N.lxor a b mod 2 ^ n)%N).
  { rewrite <- !N.land_ones. apply N.bits_inj_iff. intros i.
    rewrite N.land_spec, N.lxor_spec.
    destruct (N.ltb_spec i n).
    - rewrite N.ones_spec_low by done. by rewrite andb_true_r.
    - rewrite N.ones_spec_high by done. rewrite andb_false_r.
      assert (Hz : forall x, (x < 2 ^ n)%N -> N.testbit x i = false).
      { intros x Hx. rewrite <- (N.mod_small x (2 ^ n)) by done. by apply N.mod_pow2_bits_high. }
      rewrite !Hz by done. done. }
  rewrite Hn. apply N.mod_lt. apply N.pow_nonzero. done.
Qed.

Lemma fnv_step_lt h b : (b < 256)%N -> (fnv_step h b < two64)%N.
Proof.
  intros Hb. unfold fnv_step. rewrite two64_pow. apply lxor_lt_pow2.
  - apply N.mod_lt. done.
  - eapply N.lt_trans; [exact Hb|]. done.
Qed.

Lemma fnv_fold_lt l h :
  (h < two64)%N -> Forall (fun b => (b < 256)%N) l -> (fold_left fnv_step l h < two64)%N.
Proof.
  intros Hh HF. revert h Hh. induction HF as [|b l Hb HF IH]; intros h Hh; cbn [fold_left]; [done|].
  apply IH. by apply fnv_step_lt.
Qed.

Lemma fnv64_lt s : (fnv64 s < two64)%N.
Proof. apply fnv_fold_lt; [done|apply bytes_of_bound]. Qed.

(** The prime is invertible modulo 2^64. *)
Definition fnv_prime_inv : N := 14886173955864302971%N.

Lemma fnv_prime_inv_ok : ((fnv_prime64 * fnv_prime_inv) mod two64 = 1)%N.
Proof. vm_compute. reflexivity. Qed.

Lemma fnv_mul_inj h1 h2 :
  (h1 < two64)%N -> (h2 < two64)%N ->
  ((h1 * fnv_prime64) mod two64 = (h2 * fnv_prime64) mod two64)%N -> h1 = h2.
Proof.
  intros H1 H2 He.
  assert (Hnz : two64 <> 0%N) by done.
  assert (Hback : forall h, (h < two64)%N ->
            ((((h * fnv_prime64) mod two64) * fnv_prime_inv) mod two64 = h)%N).
  { intros h Hh. rewrite N.mul_mod_idemp_l by done. rewrite <- N.mul_assoc.
    rewrite <- N.mul_mod_idemp_r by done. rewrite fnv_prime_inv_ok, N.mul_1_r.
    by apply N.mod_small. }
  rewrite <- (Hback h1), <- (Hback h2) by done. by rewrite He.
Qed.

Lemma fnv_step_inj_h h1 h2 b :
  (h1 < two64)%N -> (h2 < two64)%N -> fnv_step h1 b = fnv_step h2 b -> h1 = h2.
Proof.
  unfold fnv_step. intros H1 H2 He.
  apply (f_equal (fun x => N.lxor x b)) in He.
  rewrite !N.lxor_assoc, N.lxor_nilpotent, !N.lxor_0_r in He. by apply fnv_mul_inj.
Qed.

Lemma fnv_step_inj_b h b1 b2 : fnv_step h b1 = fnv_step h b2 -> b1 = b2.
Proof.
  unfold fnv_step. intros He.
  apply (f_equal (fun x => N.lxor ((h * fnv_prime64) mod two64) x)) in He.
  rewrite <- !N.lxor_assoc, N.lxor_nilpotent, !N.lxor_0_l in He. done.
Qed.

Lemma fnv_fold_inj l h1 h2 :
  (h1 < two64)%N -> (h2 < two64)%N -> Forall (fun b => (b < 256)%N) l ->
  fold_left fnv_step l h1 = fold_left fnv_step l h2 -> h1 = h2.
Proof.
  intros H1 H2 HF. revert h1 h2 H1 H2. induction HF as [|b l Hb HF IH]; intros h1 h2 H1 H2; cbn [fold_left]; [done|].
  intros He. apply IH in He; [|by apply fnv_step_lt|by apply fnv_step_lt].
  by apply fnv_step_inj_h in He.
Qed.

Lemma fnv64_suffix a b s : fnv64 (a ++ s) = fnv64 (b ++ s) -> fnv64 a = fnv64 b.
Proof.
  unfold fnv64. rewrite !bytes_of_app, !fold_left_app. intros H.
  apply fnv_fold_inj in H; [done| | |apply bytes_of_bound]; apply fnv64_lt.
Qed.

Lemma fnv64_one_byte p x y s :
  x <> y -> fnv64 (p ++ String x s) <> fnv64 (p ++ String y s).
Proof.
  intros Hne He. apply Hne. apply N_of_ascii_inj.
  unfold fnv64 in He. rewrite !bytes_of_app, !bytes_of_cons, !fold_left_app in He. cbn [fold_left] in He.
  apply fnv_fold_inj in He; [|by apply fnv_step_lt, N_ascii_bounded
    |by apply fnv_step_lt, N_ascii_bounded|apply bytes_of_bound].
  by apply fnv_step_inj_b in He.
Qed.
