(** * R1R2RV computes the Snowball regions (with one exception for RV). *)
From Coq Require Import Lia ZifyBool ZifyNat ZifyN.
From stdpp Require Import list.
From Verif Require Import Entities Utf8 SpecUtf8 ProofUtf8 ProofAnalyze Stemmer SpecStemmer.
Open Scope N_scope.

Definition vow (x : N * bytes) : bool := isVowel x.1.

Lemma vow_spec x : vow x = true <-> vowel x.
Proof.
  unfold vow, isVowel, vowel, vowels. rewrite bool_decide_eq_true.
  rewrite !elem_of_cons, elem_of_nil. tauto.
Qed.
Lemma vow_false x : vow x = false <-> ~ vowel x.
Proof. rewrite <- vow_spec. destruct (vow x); split; congruence. Qed.

(** Functional form of "after the next character satisfying P". *)
Fixpoint afterf (P : N * bytes -> bool) (cs : list (N * bytes)) : option (list (N * bytes)) :=
  match cs with
  | [] => None
  | x :: cs' => if P x then Some cs' else afterf P cs'
  end.

Lemma afterf_spec P (Q : N * bytes -> Prop) cs rest :
  (forall x, P x = true <-> Q x) -> afterf P cs = Some rest <-> after_next Q cs rest.
Proof.
  intros HPQ. unfold after_next. induction cs as [|x cs IH]; cbn [afterf].
  - split; [done|]. intros (a & c & H & _). by destruct a.
  - destruct (P x) eqn:E.
    + split.
      * intros [= ->]. exists [], x. split; [done|]. split; [constructor|]. by apply HPQ.
      * intros (a & c & H & Ha & Hc). destruct a as [|y a].
        -- injection H as -> ->. done.
        -- injection H as -> ->. apply Forall_cons in Ha as [Hy _]. exfalso. apply Hy. by apply HPQ.
    + rewrite IH. split.
      * intros (a & c & -> & Ha & Hc). exists (x :: a), c. split; [done|]. split; [|done].
        constructor; [|done]. rewrite <- HPQ. congruence.
      * intros (a & c & H & Ha & Hc). destruct a as [|y a].
        -- injection H as -> ->. apply HPQ in Hc. congruence.
        -- injection H as -> ->. apply Forall_cons in Ha as [_ Ha]. eauto.
Qed.

Definition ne (o : option (list (N * bytes))) : option bytes :=
  match o with Some (x :: l) => Some (run_bytes (x :: l)) | _ => None end.

Lemma region_ne (R : list (N * bytes) -> Prop) o :
  (forall rest, o = Some rest <-> R rest) -> region R (ne o).
Proof.
  intros H. destruct o as [[|x l]|]; cbn [ne].
  - right. split; [|done]. intros rest Hr. apply H in Hr. congruence.
  - left. exists (x :: l). split; [by apply H|]. done.
  - right. split; [|done]. intros rest Hr. apply H in Hr. done.
Qed.

(** ** The loops *)
Definition slots (i : nat) (cs : list (N * bytes)) : list runeSlot :=
  map (fun '(index, r) => MkSlot index r (isVowel r)) (offsets i cs).

Lemma slots_cons i x cs :
  slots i (x :: cs) = MkSlot i x.1 (vow x) :: slots (i + length x.2) cs.
Proof. by destruct x. Qed.

Lemma drop_next (w : bytes) i c s : drop i w = c ++ s -> drop (i + length c) w = s.
Proof. intros H. rewrite <- drop_drop, H. by rewrite drop_app. Qed.

Lemma run_bytes_cons x cs : run_bytes (x :: cs) = x.2 ++ run_bytes cs.
Proof. done. Qed.

Lemma r_loop_found w i cs fv :
  drop i w = run_bytes cs -> r_loop w (slots i cs) fv true = ne (Some cs).
Proof.
  destruct cs as [|x cs]; [done|]. rewrite slots_cons. cbn [r_loop ne slot_Index]. intros H.
  unfold slice_from. by rewrite H.
Qed.

Lemma r_loop_vowel w i cs :
  drop i w = run_bytes cs -> r_loop w (slots i cs) true false = ne (afterf (fun x => negb (vow x)) cs).
Proof.
  revert i. induction cs as [|x cs IH]; intros i H; [done|].
  rewrite slots_cons. cbn [r_loop slot_IsVowel afterf]. rewrite run_bytes_cons in H.
  apply drop_next in H. destruct (vow x); cbn [negb].
  - by apply IH.
  - by apply r_loop_found.
Qed.

Lemma r_loop_start w i cs :
  drop i w = run_bytes cs ->
  r_loop w (slots i cs) false false =
  ne (match afterf vow cs with Some cs' => afterf (fun x => negb (vow x)) cs' | None => None end).
Proof.
  revert i. induction cs as [|x cs IH]; intros i H; [done|].
  rewrite slots_cons. cbn [r_loop slot_IsVowel afterf]. rewrite run_bytes_cons in H.
  apply drop_next in H. destruct (vow x).
  - by apply r_loop_vowel.
  - by apply IH.
Qed.

Lemma rv_nonvowel_found w i cs :
  drop i w = run_bytes cs -> rv_after_nonvowel w (slots i cs) true = ne (Some cs).
Proof.
  destruct cs as [|x cs]; [done|]. rewrite slots_cons. cbn [rv_after_nonvowel ne slot_Index]. intros H.
  unfold slice_from. by rewrite H.
Qed.

Lemma rv_nonvowel w i cs :
  drop i w = run_bytes cs -> rv_after_nonvowel w (slots i cs) false = ne (afterf (fun x => negb (vow x)) cs).
Proof.
  revert i. induction cs as [|x cs IH]; intros i H; [done|].
  rewrite slots_cons. cbn [rv_after_nonvowel slot_IsVowel afterf]. rewrite run_bytes_cons in H.
  apply drop_next in H. destruct (vow x); cbn [negb].
  - by apply IH.
  - by apply rv_nonvowel_found.
Qed.

Lemma rv_vowel_found w i cs :
  drop i w = run_bytes cs -> rv_after_vowel w (slots i cs) true = ne (Some cs).
Proof.
  destruct cs as [|x cs]; [done|]. rewrite slots_cons. cbn [rv_after_vowel ne slot_Index]. intros H.
  unfold slice_from. by rewrite H.
Qed.

Lemma rv_vowel w i cs :
  drop i w = run_bytes cs -> rv_after_vowel w (slots i cs) false = ne (afterf vow cs).
Proof.
  revert i. induction cs as [|x cs IH]; intros i H; [done|].
  rewrite slots_cons. cbn [rv_after_vowel slot_IsVowel afterf]. rewrite run_bytes_cons in H.
  apply drop_next in H. destruct (vow x).
  - by apply rv_vowel_found.
  - by apply IH.
Qed.

(** ** Functional regions *)
Definition r1f (cs : list (N * bytes)) : option (list (N * bytes)) :=
  match afterf vow cs with Some cs' => afterf (fun x => negb (vow x)) cs' | None => None end.

Lemma r1f_spec cs rest : r1f cs = Some rest <-> is_r1 cs rest.
Proof.
  unfold r1f, is_r1.
  assert (H1 : forall cs rest, afterf vow cs = Some rest <-> after_next vowel cs rest).
  { intros. apply afterf_spec. apply vow_spec. }
  assert (H2 : forall cs rest, afterf (fun x => negb (vow x)) cs = Some rest <-> after_next (fun x => ~ vowel x) cs rest).
  { intros. apply afterf_spec. intros x. rewrite negb_true_iff. apply vow_false. }
  split.
  - destruct (afterf vow cs) as [cs'|] eqn:E; [|done]. intros H. exists cs'.
    split; [by apply H1|by apply H2].
  - intros (cs' & Ha & Hb). apply H1 in Ha. rewrite Ha. by apply H2.
Qed.

Definition rvf (cs : list (N * bytes)) : option (list (N * bytes)) :=
  match cs with
  | x :: y :: cs' =>
      if vow y then
        if vow x then afterf (fun x => negb (vow x)) cs'
        else match cs' with [] => None | _ :: rest => Some rest end
      else afterf vow cs'
  | _ => None
  end.

Lemma rvf_spec cs rest : rvf cs = Some rest <-> is_rv cs rest.
Proof.
  unfold is_rv.
  assert (H1 : forall cs rest, afterf vow cs = Some rest <-> after_next vowel cs rest).
  { intros. apply afterf_spec. apply vow_spec. }
  assert (H2 : forall cs rest, afterf (fun x => negb (vow x)) cs = Some rest <-> after_next (fun x => ~ vowel x) cs rest).
  { intros. apply afterf_spec. intros x. rewrite negb_true_iff. apply vow_false. }
  split.
  - destruct cs as [|x [|y cs']]; [done|done|]. cbn [rvf].
    intros H. exists x, y, cs'. split; [done|].
    destruct (vow y) eqn:Ey.
    + apply vow_spec in Ey. destruct (vow x) eqn:Ex.
      * apply vow_spec in Ex. right. left. rewrite <- H2. done.
      * apply vow_false in Ex. right. right. split; [done|]. split; [done|].
        destruct cs' as [|z cs']; [done|]. injection H as ->. eauto.
    + apply vow_false in Ey. left. rewrite <- H1. done.
  - intros (x & y & cs' & -> & H). cbn [rvf].
    destruct H as [[Hy H]|[(Hx & Hy & H)|(Hx & Hy & z & ->)]].
    + apply vow_false in Hy. rewrite Hy. by apply H1.
    + apply vow_spec in Hx, Hy. rewrite Hx, Hy. by apply H2.
    + apply vow_false in Hx. apply vow_spec in Hy. by rewrite Hx, Hy.
Qed.

Lemma slots_lookup3 x y z t i cs :
  slots i (x :: y :: z :: t :: cs) !! 3%nat =
  Some (MkSlot (i + length x.2 + length y.2 + length z.2) t.1 (vow t)).
Proof. rewrite !slots_cons. done. Qed.

Lemma slots_length i cs : length (slots i cs) = length cs.
Proof.
  revert i. induction cs as [|x cs IH]; intros i; [done|]. rewrite slots_cons. cbn. by rewrite IH.
Qed.

Lemma rv_part_spec (w : bytes) cs :
  w = run_bytes cs -> rv_part w (slots 0 cs) = Ok (ne (rvf cs)).
Proof.
  intros Hw. unfold rv_part. rewrite slots_length.
  destruct cs as [|x [|y [|z cs]]]; try done.
  { cbn [length Nat.ltb Nat.leb rvf]. by destruct (vow y), (vow x). }
  cbn [length Nat.ltb Nat.leb].
  assert (H0 : drop 0 w = run_bytes (x :: y :: z :: cs)) by (by rewrite drop_0).
  rewrite run_bytes_cons in H0. apply drop_next in H0.
  rewrite run_bytes_cons in H0. apply drop_next in H0.
  set (i2 := (0 + length x.2 + length y.2)%nat) in *.
  assert (Hd : drop 2 (slots 0 (x :: y :: z :: cs)) = slots i2 (z :: cs)) by (by rewrite !slots_cons).
  rewrite Hd.
  assert (Hl0 : slots 0 (x :: y :: z :: cs) !! 0%nat = Some (MkSlot 0 x.1 (vow x))) by (by rewrite slots_cons).
  assert (Hl1 : slots 0 (x :: y :: z :: cs) !! 1%nat = Some (MkSlot (0 + length x.2) y.1 (vow y)))
    by (by rewrite !slots_cons).
  rewrite Hl0, Hl1. cbn [slot_IsVowel rvf].
  destruct (vow x), (vow y); cbn [negb andb].
  - rewrite rv_nonvowel by done. destruct (ne _) eqn:E; [done|]. rewrite andb_false_r. done.
  - rewrite rv_vowel by done. destruct (ne _) eqn:E; [done|]. rewrite andb_false_r. done.
  - rewrite !andb_true_r. destruct cs as [|t cs]; [done|].
    cbn [length Nat.leb]. rewrite slots_lookup3. cbn [slot_Index ne].
    rewrite run_bytes_cons in H0. apply drop_next in H0. unfold slice_from. subst i2. by rewrite H0.
  - rewrite rv_vowel by done. destruct (ne _) eqn:E; [done|]. rewrite andb_false_r. done.
Qed.

Lemma rune_slots_chars w cs : chars w cs -> rune_slots w = slots 0 cs.
Proof. intros H. unfold rune_slots, go_range, slots. by rewrite (range_chars 0 w cs). Qed.

Lemma afterf_suffix P cs rest : afterf P cs = Some rest -> exists pre, cs = pre ++ rest.
Proof.
  induction cs as [|x cs IH]; cbn [afterf]; [done|]. destruct (P x).
  - intros [= ->]. by exists [x].
  - intros (pre & ->)%IH. by exists (x :: pre).
Qed.

Lemma r1f_suffix cs rest : r1f cs = Some rest -> exists pre, cs = pre ++ rest.
Proof.
  unfold r1f. destruct (afterf vow cs) as [cs'|] eqn:E; [|done]. intros H.
  apply afterf_suffix in E as [p1 ->]. apply afterf_suffix in H as [p2 ->].
  exists (p1 ++ p2). by rewrite app_assoc.
Qed.

Lemma rvf_suffix cs rest : rvf cs = Some rest -> exists pre, cs = pre ++ rest.
Proof.
  unfold rvf. destruct cs as [|x [|y cs']]; try done. destruct (vow y), (vow x).
  - intros [pre ->]%afterf_suffix. by exists (x :: y :: pre).
  - destruct cs' as [|z cs']; [done|]. intros [= ->]. by exists [x; y; z].
  - intros [pre ->]%afterf_suffix. by exists (x :: y :: pre).
  - intros [pre ->]%afterf_suffix. by exists (x :: y :: pre).
Qed.

Lemma R1R2RV_chars w cs :
  chars w cs ->
  R1R2RV w = Ok match ne (r1f cs) with
                | None => (None, None, None)
                | Some r1 => (Some r1, match r1f cs with Some rest => ne (r1f rest) | None => None end, ne (rvf cs))
                end.
Proof.
  intros Hc. unfold R1R2RV. rewrite (rune_slots_chars w cs) by done.
  pose proof (chars_bytes _ _ Hc) as Hw.
  rewrite r_loop_start by (by rewrite drop_0). change (match afterf vow cs with Some _ => _ | None => _ end) with (r1f cs).
  destruct (r1f cs) as [[|x rest]|] eqn:E; [done| |done]. cbn [ne].
  pose proof (r1f_suffix _ _ E) as [pre Hpre].
  assert (Hr : chars (run_bytes (x :: rest)) (x :: rest)).
  { rewrite Hpre in Hc. apply chars_app_inv in Hc as (s2 & _ & _ & Hc).
    pose proof (chars_bytes _ _ Hc) as Hs2. by rewrite Hs2 in Hc. }
  rewrite rv_part_spec by done. cbn [obind]. do 3 f_equal.
  rewrite (rune_slots_chars _ _ Hr). rewrite r_loop_start by (by rewrite drop_0). done.
Qed.
