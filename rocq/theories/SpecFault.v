(** * Specification of the repository when tokenizer or builder may panic.
    The abstract machine of SpecRepo.v with one more bit: [dead], the index table was
    left locked for writing.  No proofs in this file. *)
From stdpp Require Import gmap list.
From Verif Require Import Entities Search SpecSearch Repo Sem SpecRepo Fault.

(** The calls that never look at the index table. *)
Definition alias_only (c : call) : Prop :=
  match c with
  | CHasAlias _ | CListAliases => True
  | CUnAlias _ i => i = ""%string
  | _ => False
  end.
Global Instance alias_only_dec c : Decision (alias_only c).
Proof. destruct c; simpl; apply _. Defined.

Definition fspec (f : fault) (ckn : bool) (tk : Tokenizer) (c : call) (v : view) (dead : bool)
  (o : out) (dead' : bool) : Prop :=
  if dead then
    dead' = true /\ if decide (alias_only c) then spec ckn tk c v o else o = OBlock
  else
  match c with
  | CPut n d =>
      match v_idx v !! n with
      | Some _ =>
          dead' = false /\
          if decide (v_leakI v <> 0%nat) then o = OBlock
          else if f_text f (req_statement d) then o = OCrash
          else spec ckn tk c v o
      | None =>
          if v_leakA v then o = OBlock /\ dead' = false
          else if decide (v_leakI v <> 0%nat) then o = OBlock /\ dead' = false
          else match v_ali v !! n with
               | None =>
                   if f_build f n then o = OPanic v /\ dead' = true
                   else if f_text f (req_statement d) then
                     o = OPanic (MkView (<[n := []]> (v_idx v)) (v_ali v) (v_leakI v) (v_leakA v)) /\ dead' = true
                   else spec ckn tk c v o /\ dead' = false
               | Some [] => o = ODone OUnit v /\ dead' = false
               | Some l =>
                   dead' = false /\ if f_text f (req_statement d) then o = OCrash else spec ckn tk c v o
               end
      end
  | CSearch n q e =>
      dead' = false /\
      if f_text f q then
        match v_idx v !! n with
        | Some _ => o = OPanic v
        | None =>
            if v_leakA v then o = OBlock
            else match v_ali v !! n with
                 | None => spec ckn tk c v o
                 | Some [] => o = ODone (OResults []) v
                 | Some [_] => o = OPanic v
                 | Some _ => o = OCrash
                 end
        end
      else spec ckn tk c v o
  | _ => dead' = false /\ spec ckn tk c v o
  end.

(** States reached from a new repo by calls issued one after the other, panics
    recovered by the caller. *)
Inductive freach (f : fault) (ckn : bool) (tk : Tokenizer) : repo -> view -> bool -> Prop :=
| FR_new : freach f ckn tk (NewIndexRepo ckn (NewMemoryIndexBuilder tk)) new_view false
| FR_done s v b c r s' v' b' :
    freach f ckn tk s v b -> faulty_result f c s (Done r s') ->
    fspec f ckn tk c v b (ODone (see s' r) v') b' -> freach f ckn tk s' v' b'
| FR_panic s v b c s' v' b' :
    freach f ckn tk s v b -> faulty_result f c s (Panicked s') ->
    fspec f ckn tk c v b (OPanic v') b' -> freach f ckn tk s' v' b'.

(** ** Concurrent calls *)

(** One goroutine per call of [cs], running with such a tokenizer and builder. *)
Definition fstart (f : fault) (cs : list call) : list thr := (fun c => TRun (faulty f (prog_of c))) <$> cs.

(** The same call with a tokenizer and a builder that never panic; what is left of
    the faults is a Search with an engine that panics. *)
Definition tamed (f : fault) (c : call) : call :=
  match c with CSearch n q e => CSearch n q (f_engine f q e) | _ => c end.

(** A Put has panicked. *)
Definition struck (cs : list call) (ts : list thr) (i : nat) (n : string) (d : DocRequest) : Prop :=
  cs !! i = Some (CPut n d) /\ ts !! i = Some (TRun Throw).

(** The next thing the call does is to ask for the mutex [m]. *)
Definition waits_for (m : mutex) (t : thr) : Prop := exists k, t = TRun (RLock m k) \/ t = TRun (Lock m k).
