(** * Specification of calls back into the repository.
    While Search runs the engine the repo behaves as if one more read lock of the
    index table had leaked; while Put runs the tokenizer, as if the table were locked
    for good (SpecFault.v).  No proofs in this file. *)
From stdpp Require Import gmap list.
From Verif Require Import Entities Search SpecSearch Repo Sem SpecRepo Fault SpecFault Reenter.

Definition hold (v : view) : view := MkView (v_idx v) (v_ali v) (S (v_leakI v)) (v_leakA v).
Definition release (v : view) : view := MkView (v_idx v) (v_ali v) (pred (v_leakI v)) (v_leakA v).

(** Some calls in a row, for a machine [sp]: the first that does not return ends them. *)
Fixpoint calls_spec (sp : call -> view -> out -> Prop) (cs : list call) (v : view) (o : out) : Prop :=
  match cs with
  | [] => o = ODone OUnit v
  | c :: cs => exists o1, sp c v o1 /\
      match o1 with ODone _ v1 => calls_spec sp cs v1 o | _ => o = o1 end
  end.

(** What a call does while the index table is locked for writing. *)
Definition locked_spec ckn tk (c : call) (v : view) (o : out) : Prop :=
  if decide (alias_only c) then spec ckn tk c v o else o = OBlock.

(** The index a name stands for, when it is one. *)
Definition target (v : view) (n : string) : option string :=
  match v_idx v !! n with
  | Some _ => Some n
  | None => if v_leakA v then None else
            match v_ali v !! n with
            | Some [x] => match v_idx v !! x with Some _ => Some x | None => None end
            | _ => None
            end
  end.

(** Search by an engine that makes the calls [cs] and then is [e]: they see a table
    that is held for reading, and are over when the answer is computed. *)
Definition rsearch_spec ckn tk (cs : list call) (n q : string) (e : Engine) (v : view) (o : out) : Prop :=
  match target v n with
  | None => spec ckn tk (CSearch n q e) v o
  | Some i =>
      exists o1, calls_spec (spec ckn tk) cs (hold v) o1 /\
        match o1 with
        | ODone _ v1 =>
            match search_name ckn tk (v_idx v) q e i with
            | Ok sr => o = ODone (OResults sr) (release v1)
            | Panic => o = OPanic (release v1)
            end
        | OPanic v1 => o = OPanic (release v1)
        | OCrash => o = OCrash
        | OBlock => o = OBlock
        end
  end.

(** Put with a tokenizer that makes the calls [cs].  A new index is in the table,
    empty, when they are made. *)
Definition rput_spec ckn tk (cs : list call) (n : string) (d : DocRequest) (v : view) (o : out) : Prop :=
  let run (idx0 idx' : gmap string (list DocRequest)) :=
    exists o1, calls_spec (locked_spec ckn tk) cs (MkView idx0 (v_ali v) (v_leakI v) (v_leakA v)) o1 /\
      match o1 with
      | ODone _ v1 => o = ODone OUnit (MkView idx' (v_ali v1) (v_leakI v1) (v_leakA v1))
      | _ => o = OBlock
      end in
  if decide (v_leakI v <> 0%nat) then spec ckn tk (CPut n d) v o
  else match target v n with
       | Some i => run (v_idx v) (put_each d [i] (v_idx v))
       | None =>
           if v_leakA v then o = OBlock
           else match v_ali v !! n with
                | None => run (<[n := []]> (v_idx v)) (<[n := [d]]> (v_idx v))
                | Some _ => spec ckn tk (CPut n d) v o
                end
       end.

Definition rspec ckn tk (x : rcall) : view -> out -> Prop :=
  match x with
  | Plain c => spec ckn tk c
  | RSearch cs n q e => rsearch_spec ckn tk cs n q e
  | RPut cs n d => rput_spec ckn tk cs n d
  end.

(** The calls that are modelled: such closures are not run by several goroutines. *)
Definition modelled (v : view) (x : rcall) : Prop :=
  match x with
  | Plain _ => True
  | RSearch _ n _ _ | RPut _ n _ =>
      is_Some (v_idx v !! n) \/ (length (default [] (v_ali v !! n)) <= 1)%nat
  end.

(** States reached from a new repo by such calls. *)
Inductive rreach ckn tk : repo -> view -> Prop :=
| RR_new : rreach ckn tk (NewIndexRepo ckn (NewMemoryIndexBuilder tk)) new_view
| RR_done s v x r s' v' :
    rreach ckn tk s v -> modelled v x -> rresult x s (Done r s') ->
    rspec ckn tk x v (ODone (see s' r) v') -> rreach ckn tk s' v'
| RR_panic s v x s' v' :
    rreach ckn tk s v -> modelled v x -> rresult x s (Panicked s') ->
    rspec ckn tk x v (OPanic v') -> rreach ckn tk s' v'.
