(** * Property C84: reading the rows of ListAliases while other calls run.

    ListAliases (repos_repo.go:271-281) hands out the slices of the alias table
    themselves.  The caller reads them later, under no lock.  Here: unless an index
    is being renamed, no call is ever about to write an element such a slice shows,
    so the reader races with nothing and keeps seeing what ListAliases returned. *)
From Coq Require Import Lia.
From stdpp Require Import gmap list.
From Verif Require Import Entities Search SpecSearch Properties_Search Repo Sem RepoWp SpecRepo
  ProofRepo ProofTotal ProofExact ProofReach Properties_Repo SpecConc Locks Race ProofRace Reduce ProofConc ProofSim ProofRows Run Properties_Conc SpecLin ProofMachine Properties_Lin Properties_Puts.
Open Scope nat_scope.

(** The memory a caller reads who looks at all of [rows]. *)
Definition shown (rows : list (string * slice)) (l : loc) : Prop :=
  exists a sl k, (a, sl) ∈ rows /\ k < sl_len sl /\ l = LElem (sl_arr sl) k.

(** Some goroutine of the calls [ts] is about to write what that caller reads. *)
Definition reader_races (rows : list (string * slice)) (ts : list thr) : Prop :=
  exists i t g l, ts !! i = Some t /\ shown rows l /\ access t g l true.

(** Rows handed out before the calls [cs] were issued. *)
Theorem C84_earlier_rows :
  forall ckn tk s v rows s0 s1 v1 cs ts s2,
    tracks ckn tk s v -> call_result CListAliases s (Done (RRows rows) s0) ->
    reach_from ckn tk no_rename s0 v s1 v1 ->
    unblocked v1 -> without_rename cs -> rtc pstep (Pool (start cs) s1) (Pool ts s2) ->
    ~ reader_races rows ts /\ see s2 (RRows rows) = see s (RRows rows).
Proof.
  intros ckn tk s v rows s0 s1 v1 cs ts s2 Ht Hr Hl Hu Hc Hp.
  assert (s0 = s) as -> by (by apply (reading_keeps CListAliases s (RRows rows) s0 I)).
  pose proof (reach_shape _ _ _ _ _ Ht) as Hsh.
  assert (Hst : stable (r_A s) (r_A s1)) by (by eapply no_rename_stable).
  assert (Hsh1 : shape ckn tk s1 v1) by (by eapply reach_from_shape).
  assert (Hsn : forall a sl, (a, sl) ∈ rows -> snap (r_A s) sl).
  { intros a sl Hin. eapply shA_snap; [apply (sh_A _ _ _ _ Hsh)|]. by eapply rows_are_slices. }
  pose proof (rows_inv_start _ _ _ _ _ Hsh1 Hu Hc) as HI.
  split.
  - intros (i & t & g & l & Hi & (a & sl & k & Hin & Hk & ->) & Hacc).
    refine (handed_unwritten _ _ _ _ _ _ sl i t g k (rows_inv_rtc _ _ _ _ _ _ _ _ HI Hp) _ Hk Hi Hacc).
    left. apply Hst. by eapply Hsn.
  - cbn [see]. f_equal. apply map_ext_in. intros [a sl] Hin%elem_of_list_In. simpl. f_equal.
    destruct (Hst _ (Hsn _ _ Hin)) as [Hs1 <-]. by eapply handed_rtc; [exact HI|left|].
Qed.
Print Assumptions C84_earlier_rows.

(** Rows one of the running calls has returned: from that moment on. *)
Theorem C84_rows_of_running_calls :
  forall ckn tk s v cs ts s1 i rows ts' s2,
    tracks ckn tk s v -> unblocked v -> without_rename cs ->
    rtc pstep (Pool (start cs) s) (Pool ts s1) -> ts !! i = Some (TRun (Ret (RRows rows))) ->
    rtc pstep (Pool ts s1) (Pool ts' s2) ->
    ~ reader_races rows ts' /\ see s2 (RRows rows) = see s1 (RRows rows).
Proof.
  intros ckn tk s v cs ts s1 i rows ts' s2 Ht Hu Hc Hp Hi Hp'.
  pose proof (rows_inv_rtc _ _ _ _ _ _ _ _ (rows_inv_start _ _ _ _ _ (reach_shape _ _ _ _ _ Ht) Hu Hc) Hp) as HI.
  assert (Hh : forall a sl, (a, sl) ∈ rows -> handed_out (r_A s) ts sl).
  { intros a sl Hin. right. exists i, rows. split; [done|]. apply elem_of_list_fmap. by exists (a, sl). }
  split.
  - intros (j & t & g & l & Hj & (a & sl & k & Hin & Hk & ->) & Hacc).
    refine (handed_unwritten _ _ _ _ _ _ sl j t g k (rows_inv_rtc _ _ _ _ _ _ _ _ HI Hp') _ Hk Hj Hacc).
    by eapply handed_rtc; [exact HI|by eapply Hh|].
  - cbn [see]. f_equal. apply map_ext_in. intros [a sl] Hin%elem_of_list_In. simpl. f_equal.
    by eapply handed_rtc; [exact HI|by eapply Hh|].
Qed.
Print Assumptions C84_rows_of_running_calls.

Lemma write_dec t arr k :
  (exists g, access t g (LElem arr k) true) \/ forall g, ~ access t g (LElem arr k) true.
Proof.
  destruct t as [p| | |]; try (right; intros g H; by inversion H).
  destruct p; try (right; intros g H; by inversion H).
  - destruct (decide (sl_arr s = arr)) as [<-|Ha]; [|right; intros g H; by inversion H].
    destruct (decide (i = k)) as [<-|Hi]; [|right; intros g H; by inversion H].
    left. exists 0. constructor.
  - destruct (decide (sl_arr s = arr)) as [<-|Ha]; [|right; intros g H; by inversion H].
    destruct (decide (sl_len s = k)) as [<-|Hi]; [|right; intros g H; by inversion H].
    destruct (decide (sl_len s < sl_cap s)) as [Hc|Hc]; [|right; intros g H; by inversion H].
    left. exists 0. by constructor.
Qed.

(** An element that changed in the course of a call was written at some moment. *)
Lemma write_moment arr k x y :
  rtc sstep x y -> arr < a_next (r_A x.2) ->
  (exists t s g, rtc sstep x (t, s) /\ rtc sstep (t, s) y /\ access t g (LElem arr k) true) \/
  default [] (a_arr (r_A y.2) !! arr) !! k = default [] (a_arr (r_A x.2) !! arr) !! k.
Proof.
  induction 1 as [x|x y z Hs Hr IH]; intros Hlt; [by right|]. inversion Hs as [s t t' s' Ht]; simplify_eq. simpl in *.
  destruct (write_dec t arr k) as [[g Hg]|Hno].
  - left. exists t, s, g. split_and!; [apply rtc_refl|by eapply rtc_l|done].
  - destruct IH as [(t1 & s1 & g & H1 & H2 & H3)|E].
    + apply tstep_next in Ht. lia.
    + left. exists t1, s1, g. split_and!; [by eapply rtc_l|done..].
    + right. rewrite E. by eapply tstep_elem.
Qed.

(** Two indices under the alias "both", whose list has room for four; its rows are
    returned while a third index is being added to it: that call is about to write
    the third element of the very array the rows show two elements of. *)
Definition rows_calls : list call :=
  [CPut "p" dA; CPut "q" dB; CPut "r" dA; CAlias "both" "p"; CAlias "both" "q"; CListAliases; CAlias "both" "r"].
Definition turns (i n : nat) : list (nat * nat) := replicate n (i, 0).
Definition rows_before : list thr * repo :=
  run (turns 0 20 ++ turns 1 20 ++ turns 2 20 ++ turns 3 20 ++ turns 4 6)
    (start rows_calls) (NewIndexRepo true (NewMemoryIndexBuilder letters)).
Definition room (t : thr) (s : repo) : thr * repo :=
  match t with
  | TRun (Append sl v k) => let r := a_append sl v 4 (r_A s) in (TRun (k r.2), set_A r.1 s)
  | _ => (t, s)
  end.
Definition rows_room : list thr * repo :=
  match rows_before.1 !! 4 with
  | Some t => (<[4 := (room t rows_before.2).1]> rows_before.1, (room t rows_before.2).2)
  | None => rows_before
  end.
Definition rows_now : list thr * repo := run (turns 4 20 ++ turns 5 20 ++ turns 6 7) rows_room.1 rows_room.2.

Example C84_example_running :
  without_rename rows_calls /\
  rtc pstep (Pool (start rows_calls) (NewIndexRepo true (NewMemoryIndexBuilder letters))) (Pool rows_now.1 rows_now.2) /\
  exists rows sl t, rows_now.1 !! 5 = Some (TRun (Ret (RRows rows))) /\ ("both"%string, sl) ∈ rows /\ sl_len sl = 2 /\
    rows_now.1 !! 6 = Some t /\ access t 0 (LElem (sl_arr sl) 2) true.
Proof.
  split_and!.
  - intros ? ?. unfold rows_calls. set_solver.
  - etrans; [|apply run_sound]. etrans; [apply run_sound|]. fold rows_before.
    assert (exists sl v k, rows_before.1 !! 4 = Some (TRun (Append sl v k)) /\ sl_len sl < 4) as (sl & v & k & E & Hl).
    { eexists _, _, _. split; [vm_compute; reflexivity|simpl; lia]. }
    unfold rows_room. rewrite E. cbn [room fst snd]. apply rtc_once. econstructor; [exact E|]. by constructor.
  - eexists _, _, _. split_and!; [vm_compute; reflexivity|by left|done|vm_compute; reflexivity|].
    apply (A_Append_in_place (MkSlice 2 2 4)). simpl. lia.
Qed.

(** Rename is the exception: whenever it renames an index that some alias contains,
    it comes to a moment at which it is about to write what a caller reads who got
    its rows before. *)
Theorem C84_reading_during_rename_refuted :
  forall ckn tk s v rows s0 old new r s' a names,
    tracks ckn tk s v -> call_result CListAliases s (Done (RRows rows) s0) ->
    is_Some (v_idx v !! old) -> old <> new -> v_ali v !! a = Some names -> old ∈ names ->
    rtc sstep (TRun (prog_of (CRename old new)), s0) (TRun (Ret r), s') ->
    exists t s1, rtc sstep (TRun (prog_of (CRename old new)), s0) (t, s1) /\
      rtc sstep (t, s1) (TRun (Ret r), s') /\ reader_races rows [t].
Proof.
  intros ckn tk s v rows s0 old new r s' a names Ht Hr Ho Hne Ha Hin Hrun.
  assert (s0 = s) as -> by (by apply (reading_keeps CListAliases s (RRows rows) s0 I)).
  destruct (C47_rename_rewrites_rows _ _ _ _ _ _ old new s' Ht Hr Ho) as (l & E1 & E2); [by exists r; constructor|].
  destruct (reach_call _ _ _ _ _ _ _ Ht I Hr) as (v' & Hs & _). rewrite E1 in Hs.
  pose proof (reach_shape _ _ _ _ _ Ht) as Hsh.
  assert (Hrow : (a, names) ∈ l).
  { simpl in Hs. destruct (v_leakA v); [done|]. destruct Hs as (l' & Hl' & [= -> _]). rewrite Hl'. by apply elem_of_map_to_list. }
  cbn [see] in E1, E2. injection E1 as <-. injection E2 as E2.
  apply elem_of_list_In, in_map_iff in Hrow as ([a' sl] & [= -> En] & Hrow).
  assert (Hc : a_cont (r_A s') sl = map (fun x => if decide (x = old) then new else x) names).
  { rewrite map_map in E2. pose proof (ext_in_map E2 _ Hrow) as F. injection F as ->. by rewrite En. }
  apply elem_of_list_lookup in Hin as [k Hk].
  assert (Hsl : a_map (r_A s) !! a = Some sl) by (eapply rows_are_slices; [exact Hsh|exact Hr|by apply elem_of_list_In]).
  pose proof (shA_bound _ _ _ _ (sh_A _ _ _ _ Hsh) Hsl) as Hb.
  assert (Hlen : k < sl_len sl).
  { rewrite <- En in Hk. unfold a_cont in Hk. by apply lookup_take_Some in Hk as [_ ?]. }
  destruct (write_moment (sl_arr sl) k _ _ Hrun Hb) as [(t & s1 & g & H1 & H2 & H3)|E]; cbn [snd] in *.
  - exists t, s1. split_and!; [done..|]. exists 0, t, g, (LElem (sl_arr sl) k). split_and!; [done| |done].
    exists a, sl, k. split_and!; [by apply elem_of_list_In|done..].
  - exfalso. assert (a_cont (r_A s') sl !! k = a_cont (r_A s) sl !! k) as F.
    { unfold a_cont. by rewrite !lookup_take by done. }
    rewrite En, Hc, Hk in F. change (map ?f names) with (f <$> names) in F. rewrite list_lookup_fmap, Hk in F. simpl in F.
    rewrite decide_True in F by done. congruence.
Qed.
Print Assumptions C84_reading_during_rename_refuted.

Example C84_example_rename :
  exists s rows r s', tracks true letters s two_view /\ call_result CListAliases s (Done (RRows rows) s) /\
    is_Some (v_idx two_view !! "p"%string) /\ v_ali two_view !! "both"%string = Some ["p"; "q"]%string /\
    rtc sstep (TRun (prog_of (CRename "p" "fresh")), s) (TRun (Ret r), s').
Proof.
  destruct (example_two any_call true letters) as [s Hs]; try done.
  destruct (C29_machine_is_exact true letters s two_view CListAliases (ODone (ORows [("both", ["p"; "q"])]%string) two_view) Hs)
    as (r & s0 & H1 & H2 & _); [done| |].
  { cbn. exists [("both", ["p"; "q"])]%string. split; [|done].
    replace (map_to_list two_ali) with [("both", ["p"; "q"])]%string; [done|]. unfold two_ali.
    by rewrite map_to_list_singleton. }
  pose proof (reading_keeps CListAliases s r s0 I H1) as ->.
  destruct r as [| | |rows| | |]; cbn [see] in H2; try discriminate H2.
  destruct (C41_rename true letters s two_view "p" "fresh" Hs eq_refl) as [_ H].
  destruct (H [dA] eq_refl eq_refl) as (v' & [[res Hres] Hx] & _).
  destruct (Hx _ Hres) as (r & s' & -> & _).
  exists s, rows, r, s'. split_and!; [done|done|by eexists|done|]. by inversion Hres.
Qed.

(** Rows handed out, then other calls one by one, then calls at once. *)
Example C84_example_earlier :
  let cs := [CAlias "both" "q"; CAlias "new" "p"; CDrop "p"; CUnAlias "both" ""; CListAliases]%string in
  exists s rows ts s', tracks true letters s two_view /\ call_result CListAliases s (Done (RRows rows) s) /\
    reach_from true letters no_rename s two_view s two_view /\ unblocked two_view /\ without_rename cs /\
    rtc pstep (Pool (start cs) s) (Pool ts s') /\ Forall finished ts.
Proof.
  intros cs. destruct C84_example_rename as (s & rows & _ & _ & Hs & Hr & _).
  assert (Hc : without_rename cs) by (intros ? ?; unfold cs; set_solver).
  destruct (C48_all_return cs s (Pool (start cs) s)) as (p' & Hp & Hf).
  1, 2: by destruct (reach_shape _ _ _ _ _ Hs) as [_ _ E1 E2].
  { apply rtc_refl. }
  assert (Hlb : forall ts, ~ left_behind cs ts).
  { intros ts (i & a & x & Hi & Hx & _). apply Hx. unfold cs in Hi. by destruct i as [|[|[|[|[|i]]]]]; simplify_eq/=. }
  assert (Hal : forall a l x, v_ali two_view !! a = Some l -> x ∈ l -> is_Some (v_idx two_view !! x)).
  { intros a l x Ha Hx. unfold two_view, two_ali in Ha. cbn in Ha. apply lookup_singleton_Some in Ha as [<- <-].
    apply elem_of_cons in Hx as [->|Hx]; [by eexists|]. apply elem_of_list_singleton in Hx as ->. by eexists. }
  destruct Hf as [->|(ts & s' & -> & [Hl|[Hf _]])]; [|by apply Hlb in Hl|].
  { exfalso. destruct (C52_no_panic true letters s two_view cs PCrashed Hs) as (? & ? & ? & _); try done.
    all: first [by left|intros n; unfold cs; set_solver|intros n q e; unfold cs; set_solver]. }
  exists s, rows, ts, s'. split_and!; try done. constructor.
Qed.
