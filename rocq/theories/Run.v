(** * Executing a given schedule.
    [run] follows one schedule of the step relation of Sem.v; it is used to
    exhibit interleavings.  The choices left open by the semantics (iteration
    order, spare capacity of append) are fixed; goroutine [j] of a call is
    chosen by the schedule. *)
From stdpp Require Import list gmap.
From Verif Require Import Entities Search Repo Sem.
Open Scope nat_scope.

Definition next_run (s : repo) (p : prog) : option (thr * repo) :=
  match p with
  | Ret _ | Throw => None
  | RLock m k =>
      let w := get_mu m s in
      if rw_pending w || rw_writer w then None
      else Some (TRun k, set_mu m (MkRW (S (rw_readers w)) false false) s)
  | RUnlock m k =>
      let w := get_mu m s in
      match rw_readers w with
      | S n => Some (TRun k, set_mu m (MkRW n (rw_pending w) (rw_writer w)) s)
      | 0 => None
      end
  | Lock m k =>
      let w := get_mu m s in
      if rw_pending w || rw_writer w then None
      else Some (TPend m k, set_mu m (MkRW (rw_readers w) true false) s)
  | Unlock m k =>
      let w := get_mu m s in
      if rw_writer w then Some (TRun k, set_mu m (MkRW (rw_readers w) (rw_pending w) false) s) else None
  | GetIndex n k => Some (TRun (k (i_map (r_I s) !! n)), s)
  | SetIndex n p k => Some (TRun k, set_I (i_set n p (r_I s)) s)
  | DelIndex n k => Some (TRun k, set_I (i_del n (r_I s)) s)
  | RangeIndices k => Some (TRun (k (map_to_list (i_map (r_I s))).*1), s)
  | NewIndex n k => Some (TRun (k (i_next (r_I s))), set_I (i_new n (r_I s)) s)
  | IdxPut p d k => Some (TRun k, set_I (i_put p d (r_I s)) s)
  | IdxSearch p q e k kp =>
      match i_search p q e (r_I s) with Ok sr => Some (TRun (k sr), s) | Panic => Some (TRun kp, s) end
  | IdxRead p k => Some (TRun (k (p ≫= fun p => i_heap (r_I s) !! p)), s)
  | GetAlias a k => Some (TRun (k (a_map (r_A s) !! a)), s)
  | SetAlias a sl k => Some (TRun k, set_A (a_set a sl (r_A s)) s)
  | DelAlias a k => Some (TRun k, set_A (a_del a (r_A s)) s)
  | RangeAliases k => Some (TRun (k (map_to_list (a_map (r_A s))).*1), s)
  | LoadElem sl i k => Some (TRun (k (a_load sl i (r_A s))), s)
  | StoreElem sl i v k => Some (TRun k, set_A (a_store sl i v (r_A s)) s)
  | Append sl v k =>
      let r := a_append sl v (S (sl_len sl)) (r_A s) in Some (TRun (k r.2), set_A r.1 s)
  | MakeSlice l k => let r := a_alloc l (length l) (r_A s) in Some (TRun (k r.2), set_A r.1 s)
  | GoPut ps d k => Some (TPut (map Some ps) d k, s)
  | GoSearch ps q e k => Some (TSearch (map SStart ps) q e [] k, s)
  end.

Definition all_none (cs : list (option (option ptr))) : bool :=
  forallb (fun c => match c with None => true | Some _ => false end) cs.
Definition all_done (cs : list schild) : bool :=
  forallb (fun c => match c with SDone => true | _ => false end) cs.

Definition next_of (s : repo) (t : thr) (j : nat) : option (thr * repo) :=
  match t with
  | TRun p => next_run s p
  | TPend m k => if rw_readers (get_mu m s) then Some (TRun k, set_mu m (MkRW 0 false true) s) else None
  | TPut cs d k =>
      if all_none cs then Some (TRun k, s)
      else match cs !! j with
           | Some (Some (Some p)) => Some (TPut (<[j := None]> cs) d k, set_I (i_put p d (r_I s)) s)
           | _ => None
           end
  | TSearch cs q e r k =>
      if all_done cs then Some (TRun (k r), s)
      else match cs !! j with
           | Some (SStart p) =>
               match i_search p q e (r_I s) with
               | Ok sr => Some (TSearch (<[j := SGot sr]> cs) q e r k, s)
               | Panic => None
               end
           | Some (SGot sr) =>
               if forallb (fun c => negb (holds_rl c)) cs then Some (TSearch (<[j := SHold sr]> cs) q e r k, s) else None
           | Some (SHold sr) => Some (TSearch (<[j := SRead sr r]> cs) q e r k, s)
           | Some (SRead sr old) => Some (TSearch (<[j := SRel]> cs) q e (old ++ sr) k, s)
           | Some SRel => Some (TSearch (<[j := SDone]> cs) q e r k, s)
           | _ => None
           end
  end.

(** A schedule: which call steps, and which of its goroutines.  Steps that are not
    possible are skipped. *)
Fixpoint run (l : list (nat * nat)) (ts : list thr) (s : repo) : list thr * repo :=
  match l with
  | [] => (ts, s)
  | (i, j) :: l =>
      match ts !! i ≫= fun t => next_of s t j with
      | Some (t', s') => run l (<[i := t']> ts) s'
      | None => run l ts s
      end
  end.

Lemma all_none_spec cs : all_none cs = true -> Forall (fun c => c = None) cs.
Proof. induction cs as [|[]]; simpl; intros H; constructor; auto; done. Qed.
Lemma all_done_spec cs : all_done cs = true -> Forall (fun c => c = SDone) cs.
Proof. induction cs as [|[]]; simpl; intros H; constructor; auto; done. Qed.
Lemma none_holds_spec cs : forallb (fun c => negb (holds_rl c)) cs = true -> Forall (fun c => holds_rl c = false) cs.
Proof. induction cs as [|c]; simpl; intros H; constructor; destruct (holds_rl c); auto; done. Qed.

Lemma next_run_sound s p t' s' : next_run s p = Some (t', s') -> tstep s (TRun p) (TNext t' s').
Proof.
  destruct p; simpl; intros H; try discriminate H; try (injection H as <- <-; by econstructor; eauto).
  - destruct (rw_pending _) eqn:E1; [done|]. destruct (rw_writer _) eqn:E2; [done|]. injection H as <- <-. by econstructor.
  - destruct (rw_readers _) eqn:E1; [done|]. injection H as <- <-. by econstructor.
  - destruct (rw_pending _) eqn:E1; [done|]. destruct (rw_writer _) eqn:E2; [done|]. injection H as <- <-. by econstructor.
  - destruct (rw_writer _) eqn:E2; [|done]. injection H as <- <-. by econstructor.
  - destruct (i_search _ _ _ _) eqn:E; injection H as <- <-; by econstructor.
Qed.
Lemma next_of_sound s t j t' s' : next_of s t j = Some (t', s') -> tstep s t (TNext t' s').
Proof.
  destruct t; simpl; intros H.
  - by apply next_run_sound.
  - destruct (rw_readers _) eqn:E; [|done]. injection H as <- <-. by econstructor.
  - destruct (all_none cs) eqn:E.
    + injection H as <- <-. constructor. by apply all_none_spec.
    + destruct (cs !! j) as [[[p|]|]|] eqn:Ej; try done. injection H as <- <-. by econstructor.
  - destruct (all_done cs) eqn:E.
    + injection H as <- <-. constructor. by apply all_done_spec.
    + destruct (cs !! j) as [[]|] eqn:Ej; try done.
      * destruct (i_search _ _ _ _) eqn:Es; [|done]. injection H as <- <-. by econstructor.
      * destruct (forallb _ _) eqn:Ef; [|done]. injection H as <- <-. econstructor; [done|]. by apply none_holds_spec.
      * injection H as <- <-. by econstructor.
      * injection H as <- <-. by econstructor.
      * injection H as <- <-. by econstructor.
Qed.

Theorem run_sound l ts s : rtc pstep (Pool ts s) (Pool (run l ts s).1 (run l ts s).2).
Proof.
  revert ts s. induction l as [|[i j] l IH]; intros ts s; simpl; [apply rtc_refl|].
  destruct (ts !! i) as [t|] eqn:Ei; simpl; [|apply IH].
  destruct (next_of s t j) as [[t1 s1]|] eqn:E; [|apply IH].
  eapply rtc_l; [|by apply IH]. eapply P_step; [done|]. by eapply next_of_sound.
Qed.
