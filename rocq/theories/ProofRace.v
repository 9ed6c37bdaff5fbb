(** * Race freedom of disciplined calls. *)
From Coq Require Import Lia.
From stdpp Require Import list gmap.
From Verif Require Import Entities Search SpecSearch Repo Sem RepoWp SpecRepo ProofRepo ProofTotal Locks Race.
Open Scope nat_scope.

Definition part_of (l : loc) : part :=
  match l with LIndices | LObj _ | LResult => PI | LAliases => PM | LElem _ _ => PR end.

Lemma access_perm md L g h t j l w :
  tdisc md L g h t -> access t j l w -> l <> LResult ->
  canR md (part_of l) h /\ (w = true -> canW md (part_of l) h).
Proof.
  intros Hd Ha Hl. destruct Ha; simpl in *; destruct_and?; try done; split; try done; try (by apply canW_canR).
Qed.

Theorem no_race_between md L gh ts s : md <> Any -> pool_inv md L gh ts s -> ~ race_between ts.
Proof.
  intros Hm Hi (i & j & ti & tj & gi & gj & l & wi & wj & Hti & Htj & Hne & Hl & Ai & Aj & Hw).
  pose proof (pi_len _ _ _ _ _ Hi) as Hlen.
  destruct (lookup_lt_is_Some_2 gh i) as [[pi hi] Hgi]; [rewrite Hlen; by eapply lookup_lt_Some|].
  destruct (lookup_lt_is_Some_2 gh j) as [[pj hj] Hgj]; [rewrite Hlen; by eapply lookup_lt_Some|].
  destruct (pi_thr _ _ _ _ _ Hi _ _ _ _ Hti Hgi) as [Di _].
  destruct (pi_thr _ _ _ _ _ Hi _ _ _ _ Htj Hgj) as [Dj _].
  destruct (access_perm _ _ _ _ _ _ _ _ Di Ai Hl) as [Ri Wi].
  destruct (access_perm _ _ _ _ _ _ _ _ Dj Aj Hl) as [Rj Wj].
  destruct Hw as [->| ->].
  - rewrite (can_excl md _ hi hj Hm) in Rj; [done| |by apply Wi].
    by eapply (pool_inv_compat _ _ _ _ _ i j).
  - rewrite (can_excl md _ hj hi Hm) in Ri; [done| |by apply Wj].
    by eapply (pool_inv_compat _ _ _ _ _ j i).
Qed.

(** The indices are only accessed with their lock, whatever the calls. *)
Theorem no_race_on_indices md L gh ts s l : part_of l = PI -> pool_inv md L gh ts s -> ~ race_on l ts.
Proof.
  intros Hp Hi (i & j & ti & tj & gi & gj & wi & wj & Hti & Htj & Hne & Hl & Ai & Aj & Hw).
  pose proof (pi_len _ _ _ _ _ Hi) as Hlen.
  destruct (lookup_lt_is_Some_2 gh i) as [[pi hi] Hgi]; [rewrite Hlen; by eapply lookup_lt_Some|].
  destruct (lookup_lt_is_Some_2 gh j) as [[pj hj] Hgj]; [rewrite Hlen; by eapply lookup_lt_Some|].
  destruct (pi_thr _ _ _ _ _ Hi _ _ _ _ Hti Hgi) as [Di _].
  destruct (pi_thr _ _ _ _ _ Hi _ _ _ _ Htj Hgj) as [Dj _].
  destruct (access_perm _ _ _ _ _ _ _ _ Di Ai Hl) as [Ri Wi].
  destruct (access_perm _ _ _ _ _ _ _ _ Dj Aj Hl) as [Rj Wj].
  destruct (pool_inv_compat _ _ _ _ _ i j _ _ _ _ Hi Hgi Hgj Hne) as [[C1 C2] _].
  rewrite Hp in *.
  destruct Hw as [->| ->].
  - specialize (Wi eq_refl). destruct md; simpl in *; by rewrite C1 in Rj.
  - specialize (Wj eq_refl). destruct md; simpl in *; by rewrite C2 in Ri.
Qed.

(** ** The goroutines of Search *)
Definition search_inv (t : thr) : Prop :=
  match t with TSearch cs _ _ r _ => rl_inv cs r | _ => True end.

Lemma search_inv_step s t t' s' : search_inv t -> tstep s t (TNext t' s') -> search_inv t'.
Proof.
  intros Hi Hs. inversion Hs; simplify_eq; simpl in *; try done; try apply rl_inv_start.
  all: eapply rl_inv_insert; [done|done|try by auto|try by (intros; simplify_eq)|try by auto].
Qed.

Lemma search_inv_reach cs s p :
  rtc pstep (Pool (start cs) s) p ->
  match p with Pool ts _ => Forall search_inv ts | PCrashed => True end.
Proof.
  intros Hp. refine (rtc_ind_r (R := pstep) (fun p => match p with Pool ts _ => Forall search_inv ts | PCrashed => True end) _ _ _ p Hp).
  - apply Forall_lookup. intros i t Hi. unfold start in Hi. by apply list_lookup_fmap_inv in Hi as (c & -> & _).
  - intros y z _ Hs IH. inversion Hs; simplify_eq; [|done].
    apply Forall_insert; [done|]. eapply search_inv_step; [|done]. by eapply Forall_lookup_1.
Qed.

Theorem no_race_in_search cs q e r k : rl_inv cs r -> ~ race_within (TSearch cs q e r k).
Proof.
  intros [H1 H2] (g & g' & l & w & w' & Hne & Ha & Ha' & Hw).
  inversion Ha; simplify_eq; inversion Ha'; simplify_eq; try (by destruct Hw).
  all: try (rename select (cs !! j = _) into Hj); try (rename select (cs !! j0 = _) into Hj0).
  all: try (apply Hne; f_equal; eapply H1; eauto; done).
  all: rename select (Forall _ cs) into Hf; eapply Forall_lookup_1 in Hf; [|eassumption]; simpl in Hf; done.
Qed.
