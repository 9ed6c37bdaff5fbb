(** * Specification for C94: two calls at the same time.
    No proofs in this file. *)
From stdpp Require Import gmap list.
From Verif Require Import Entities Search SpecSearch Repo Sem SpecRepo SpecConc SpecLin SpecLook.
Open Scope nat_scope.

(** [c] and [c'] get in each other's way in [v]:
    - two Puts under a name that is neither an index nor an alias;
    - such a Put and a Rename to its name, unless the renamed index holds just one
      document, which no search tells apart from the one that is put;
    - two Drops, or a Drop and a Rename, of the same existing index. *)
Definition at_odds (tk : Tokenizer) (v : view) (c c' : call) : Prop :=
  match c, c' with
  | CPut n _, CPut m _ => m = n /\ v_idx v !! n = None /\ v_ali v !! n = None
  | CPut n d, CRename old new =>
      new = n /\ v_idx v !! n = None /\ v_ali v !! n = None /\
      exists reqs, v_idx v !! old = Some reqs /\ ~ Forall2 (same_doc tk) reqs [d]
  | CDrop n, CDrop m => m = n /\ is_Some (v_idx v !! n)
  | CDrop n, CRename old _ => old = n /\ is_Some (v_idx v !! n)
  | _, _ => False
  end.
Definition clashing (tk : Tokenizer) (v : view) (c c' : call) : Prop := at_odds tk v c c' \/ at_odds tk v c' c.

(** The comparison leaves out Rename together with UnAlias of an index or with
    ListAliases. *)
Definition comparable (c c' : call) : Prop :=
  match c with
  | CRename _ _ => match c' with CUnAlias _ _ | CListAliases => False | _ => True end
  | _ => True
  end.

(** Issued one after the other, [c] first, the calls kill the
    process. *)
Definition deadly_turns (ckn : bool) (tk : Tokenizer) (v : view) (c c' : call) : Prop :=
  spec ckn tk c v OCrash \/ exists a v1, explained ckn tk c a v v1 /\ spec ckn tk c' v1 OCrash.
