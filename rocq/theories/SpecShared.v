(** * Specification of a repo whose builder hands out objects it made before:
    an abstract machine in which names stand for objects and objects hold documents.
    No proofs in this file. *)
From stdpp Require Import gmap list.
From Verif Require Import Entities Search SpecSearch Repo Sem SpecRepo Shared.
Open Scope string_scope. Open Scope list_scope. Open Scope nat_scope.

(** [w_names]: the object each name stands for; [w_docs]: the documents of each object
    made so far, whether a name stands for it or not; the rest as in [view]. *)
Record world := MkW {
  w_names : gmap string nat;
  w_docs : list (list DocRequest);
  w_ali : gmap string (list string);
  w_leakI : nat;
  w_leakA : bool }.

(** What each name shows. *)
Definition shown (names : gmap string nat) (docs : list (list DocRequest)) : gmap string (list DocRequest) :=
  omap (fun p => docs !! p) names.
Definition seen (w : world) : view := MkView (shown (w_names w) (w_docs w)) (w_ali w) (w_leakI w) (w_leakA w).

(** Adding a document to the objects [ps], once for each time they are listed. *)
Definition add_to (d : DocRequest) (ps : list nat) (docs : list (list DocRequest)) : list (list DocRequest) :=
  foldr (fun p m => alter (fun reqs => reqs ++ [d]) p m) docs ps.

(** Only Drop, Rename and Put change what a name stands for. *)
Definition names_after (c : call) (b : obs) (names : gmap string nat) : gmap string nat :=
  match c, b with
  | CDrop n, OBool true => delete n names
  | CRename old new, OBool true =>
      match names !! old with Some p => delete old (<[new := p]> names) | None => names end
  | _, _ => names
  end.

Inductive sout :=
| SDone (o : obs) (w : world)
| SPanic (w : world)
| SCrash
| SBlock.

(** Every call but Put is what it is for the machine of SpecRepo.v looking at what the
    names show, and leaves the documents of all objects alone.  Put adds to objects;
    for a new name the object is the one the builder hands out, or a new one. *)
Definition sspec (give : string -> option nat) (ckn : bool) (tk : Tokenizer) (c : call) (w : world) (o : sout) : Prop :=
  let next c b v := MkW (names_after c b (w_names w)) (w_docs w) (v_ali v) (v_leakI v) (v_leakA v) in
  let set names docs := MkW names docs (w_ali w) (w_leakI w) (w_leakA w) in
  match c with
  | CPut n d =>
      match w_names w !! n with
      | Some p =>
          if decide (w_leakI w <> 0%nat) then o = SBlock
          else o = SDone OUnit (set (w_names w) (add_to d [p] (w_docs w)))
      | None =>
          if w_leakA w then o = SBlock
          else if decide (w_leakI w <> 0%nat) then o = SBlock
          else match w_ali w !! n with
               | Some l =>
                   if decide (Exists (fun x => w_names w !! x = None) l) then o = SCrash
                   else o = SDone OUnit (set (w_names w) (add_to d (omap (fun x => w_names w !! x) l) (w_docs w)))
               | None =>
                   match give n with
                   | Some p => o = SDone OUnit (set (<[n := p]> (w_names w)) (add_to d [p] (w_docs w)))
                   | None => o = SDone OUnit (set (<[n := length (w_docs w)]> (w_names w)) (w_docs w ++ [[d]]))
                   end
               end
      end
  | _ =>
      exists o', spec ckn tk c (seen w) o' /\
        o = match o' with
            | ODone b v => SDone b (next c b v)
            | OPanic v => SPanic (next c OUnit v)
            | OCrash => SCrash
            | OBlock => SBlock
            end
  end.

Definition new_world (pool : list (string * list DocRequest)) : world := MkW ∅ pool.*2 ∅ 0 false.

(** The builder's addresses are those of its objects. *)
Definition gives (give : string -> option nat) (pool : list (string * list DocRequest)) : Prop :=
  forall n p, give n = Some p -> p < length pool.

(** States reached from a new repo by calls issued one after the other, panics
    recovered by the caller. *)
Inductive sreach (give : string -> option nat) (ckn : bool) (tk : Tokenizer) : repo -> world -> Prop :=
| SR_new pool : gives give pool -> sreach give ckn tk (pooled ckn tk pool) (new_world pool)
| SR_done s w c r s' w' :
    sreach give ckn tk s w -> shared_result give c s (Done r s') ->
    sspec give ckn tk c w (SDone (see s' r) w') -> sreach give ckn tk s' w'
| SR_panic s w c s' w' :
    sreach give ckn tk s w -> shared_result give c s (Panicked s') ->
    sspec give ckn tk c w (SPanic w') -> sreach give ckn tk s' w'.
