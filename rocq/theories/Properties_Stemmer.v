(** * Properties C25-C27: the regions R1, R2, RV. *)
From Coq Require Import Lia.
From stdpp Require Import list.
From Verif Require Import Entities Utf8 SpecUtf8 ProofUtf8 ProofAnalyze Stemmer SpecStemmer ProofStemmer.
Open Scope N_scope.

Lemma ne_Some o x : ne o = Some x -> exists rest, o = Some rest /\ rest <> [] /\ x = run_bytes rest.
Proof. destruct o as [[|y l]|]; cbn; try done. intros [= <-]. eauto. Qed.

(** ** C25 *)
(** [boundary w x]: [x] is a suffix of [w] starting between two characters. *)
Definition boundary (w x : bytes) : Prop :=
  exists cs pre rest, chars w cs /\ cs = pre ++ rest /\ rest <> [] /\
    w = run_bytes pre ++ x /\ x = run_bytes rest.

Lemma boundary_intro w cs pre rest :
  chars w cs -> cs = pre ++ rest -> rest <> [] -> boundary w (run_bytes rest).
Proof.
  intros Hc Hp Hne. exists cs, pre, rest. split; [done|]. split; [done|]. split; [done|].
  split; [|done]. rewrite (chars_bytes _ _ Hc), Hp. by rewrite run_bytes_app.
Qed.

Theorem C25_regions_are_suffixes :
  forall w : bytes, exists r1 r2 rv, R1R2RV w = Ok (r1, r2, rv) /\
    (forall x, r1 = Some x -> boundary w x) /\
    (forall x, rv = Some x -> boundary w x) /\
    (forall y, r2 = Some y -> exists x, r1 = Some x /\ boundary x y).
Proof.
  intros w. destruct (chars_total w) as [cs Hc].
  rewrite (R1R2RV_chars w cs Hc). destruct (ne (r1f cs)) as [r1|] eqn:E.
  2:{ exists None, None, None. split; [done|]. split; [done|]. split; done. }
  eexists _, _, _. split; [reflexivity|].
  apply ne_Some in E as (rest & E & Hne & ->).
  destruct (r1f_suffix _ _ E) as [pre Hpre]. rewrite E.
  split; [|split].
  - intros x [= <-]. by eapply boundary_intro.
  - intros x Hx. apply ne_Some in Hx as (rv & Ev & Hvne & ->).
    destruct (rvf_suffix _ _ Ev) as [vpre Hvpre]. by eapply boundary_intro.
  - intros y Hy. apply ne_Some in Hy as (r2 & E2 & H2ne & ->).
    destruct (r1f_suffix _ _ E2) as [pre2 Hpre2]. eexists. split; [done|].
    eapply boundary_intro; [|done|done].
    rewrite Hpre in Hc. apply chars_app_inv in Hc as (s2 & _ & _ & Hc).
    pose proof (chars_bytes _ _ Hc) as Hs2. by rewrite Hs2 in Hc.
Qed.
Print Assumptions C25_regions_are_suffixes.

(** ** C26 *)
Theorem C26_r1_r2_regions :
  forall (w : bytes) cs r1 r2 rv,
    chars w cs -> R1R2RV w = Ok (r1, r2, rv) ->
    region (is_r1 cs) r1 /\
    (forall x, r1 = Some x -> exists cs1, chars x cs1 /\ is_r1 cs cs1 /\ region (is_r1 cs1) r2) /\
    (r1 = None -> r2 = None).
Proof.
  intros w cs r1 r2 rv Hc HR. rewrite (R1R2RV_chars w cs Hc) in HR.
  assert (Hreg : region (is_r1 cs) (ne (r1f cs))) by (apply region_ne; intros; apply r1f_spec).
  destruct (ne (r1f cs)) as [x|] eqn:E.
  - injection HR as <- <- <-. split; [done|]. split; [|done]. intros y [= <-].
    apply ne_Some in E as (rest & E & Hne & ->). exists rest. rewrite E.
    destruct (r1f_suffix _ _ E) as [pre Hpre].
    split.
    { rewrite Hpre in Hc. apply chars_app_inv in Hc as (s2 & _ & _ & Hc).
      pose proof (chars_bytes _ _ Hc) as Hs2. by rewrite Hs2 in Hc. }
    split; [by apply r1f_spec|]. apply region_ne. intros. apply r1f_spec.
  - injection HR as <- <- <-. split; [done|]. split; done.
Qed.
Print Assumptions C26_r1_r2_regions.

(** The regions are unique, so [region] determines the result. *)
Theorem C26_regions_unique :
  forall cs rest rest',
    (is_r1 cs rest -> is_r1 cs rest' -> rest = rest') /\
    (is_rv cs rest -> is_rv cs rest' -> rest = rest').
Proof.
  intros. split; intros H1 H2.
  - apply r1f_spec in H1, H2. congruence.
  - apply rvf_spec in H1, H2. congruence.
Qed.
Print Assumptions C26_regions_unique.

(** ** C27 *)
Theorem C27_rv_region :
  forall (w : bytes) cs r1 r2 rv,
    chars w cs -> R1R2RV w = Ok (r1, r2, rv) ->
    (r1 <> None -> region (is_rv cs) rv) /\ (r1 = None -> rv = None).
Proof.
  intros w cs r1 r2 rv Hc HR. rewrite (R1R2RV_chars w cs Hc) in HR.
  destruct (ne (r1f cs)) as [x|] eqn:E.
  - injection HR as <- <- <-. split; [|done]. intros _. apply region_ne. intros. apply rvf_spec.
  - injection HR as <- <- <-. done.
Qed.
Print Assumptions C27_rv_region.

(** The code comment promises the RV region for every word.  It fails for words
    without an R1, for instance the Spanish words leía, trío and oía. *)
Theorem C27_rv_region_refuted :
  exists w cs rest,
    w = bytes_str "leía"%string /\ chars w cs /\ is_rv cs rest /\ run_bytes rest = bytes_str "a"%string /\
    R1R2RV w = Ok (None, None, None).
Proof.
  exists (bytes_str "leía"%string).
  set (cs := map (fun r => (r, utf8 r)) [108; 101; 0xED; 97]).
  exists cs, (map (fun r => (r, utf8 r)) [97]). split; [done|]. split.
  - pose proof (chars_valid_concat [108; 101; 0xED; 97] [] []) as H.
    rewrite !app_nil_r in H. apply H; [|constructor]. repeat constructor; unfold scalar; lia.
  - split; [|split; [done|vm_compute; done]]. apply rvf_spec. vm_compute. done.
Qed.
Print Assumptions C27_rv_region_refuted.

Example C25_C26_C27_example :
  R1R2RV (bytes_str "macho"%string) = Ok (Some (bytes_str "ho"%string), None, Some (bytes_str "ho"%string)) /\
  R1R2RV (bytes_str "oliva"%string) = Ok (Some (bytes_str "iva"%string), Some (bytes_str "a"%string), Some (bytes_str "va"%string)) /\
  R1R2RV (bytes_str "trabajo"%string) = Ok (Some (bytes_str "ajo"%string), Some (bytes_str "o"%string), Some (bytes_str "bajo"%string)) /\
  R1R2RV (bytes_str "áureo"%string) = Ok (Some (bytes_str "eo"%string), None, Some (bytes_str "eo"%string)) /\
  R1R2RV (bytes_str "trío"%string) = Ok (None, None, None) /\
  R1R2RV [] = Ok (None, None, None).
Proof. vm_compute. done. Qed.

(** Not claimed as a property: the exported Stemmer type is a stub, Stem returns
    nil for every input. *)
Lemma Stem_is_a_stub : forall w, Stem w = None.
Proof. done. Qed.
