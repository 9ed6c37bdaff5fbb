(** * Specification: names that belong to one client, and names that all clients use.
    No proofs in this file. *)
From stdpp Require Import gmap list.
From Verif Require Import Entities Search Repo Sem SpecRepo SpecConc SpecLin SpecClient.
Open Scope nat_scope.

(** A name belongs to the client with a number, or is shared by all. *)
Definition owners := string -> option nat.

Definition may_use (own : owners) (i : nat) (n : string) : Prop := own n = Some i \/ own n = None.

(** What client [i] may ask for: it creates, drops, renames and aliases only names of
    its own; it puts documents also into what is shared, and may list shared indices
    in its aliases.  It may look at everything. *)
Definition obeys (own : owners) (i : nat) (c : call) : Prop :=
  match c with
  | CPut n _ => may_use own i n
  | CDrop n => own n = Some i
  | CRename old new => own old = Some i /\ own new = Some i
  | CAlias a x => own a = Some i /\ may_use own i x
  | CUnAlias a x => own a = Some i /\ (x = ""%string \/ may_use own i x)
  | CList | CListAliases | CHas _ | CHasAlias _ | CSearch _ _ _ | CString _ => True
  end.

(** Aliases list only indices of their owner and shared ones; what is shared exists. *)
Record arranged (own : owners) (v : view) : Prop := {
  arr_alias : forall a l x, v_ali v !! a = Some l -> x ∈ l -> own x = own a \/ own x = None;
  arr_shared : forall n, own n = None -> is_Some (v_idx v !! n) \/ exists l, v_ali v !! n = Some l /\ l <> [] }.

(** Rename races with UnAlias (C62) and changes rows of ListAliases (C84). *)
Definition orderly (cs : list call) : Prop :=
  without_rename cs \/ (without_unalias cs /\ CListAliases ∉ cs).

(** The programs obey, each as its own client. *)
Definition obedient (own : owners) (ps : list client) : Prop :=
  forall i p, ps !! i = Some p -> makes_only (obeys own i) p.

(** ** One client among others *)

(** [c] is about names in [N] only.  UnAlias of one index may leave an alias without
    indices, which any Drop takes away; List, ListAliases and String show everything. *)
Definition within (N : string -> Prop) (c : call) : Prop :=
  match c with
  | CPut n _ | CDrop n | CHas n | CHasAlias n | CSearch n _ _ => N n
  | CRename x y | CAlias x y => N x /\ N y
  | CUnAlias a x => N a /\ x = ""%string
  | CList | CListAliases | CString _ => False
  end.

(** [c] changes nothing in [N]; it may look at it. *)
Definition spares (N : string -> Prop) (c : call) : Prop :=
  match c with
  | CPut n _ | CDrop n | CUnAlias n _ => ~ N n
  | CRename x y | CAlias x y => ~ N x /\ ~ N y
  | CList | CListAliases | CHas _ | CHasAlias _ | CSearch _ _ _ | CString _ => True
  end.

(** Aliases do not lead into [N] or out of it, and those in [N] list some index. *)
Record fenced (N : string -> Prop) (v : view) : Prop := {
  fe_alias : forall a l x, v_ali v !! a = Some l -> x ∈ l -> N x <-> N a;
  fe_full : forall a, N a -> v_ali v !! a <> Some [] }.

(** The names in [N] stand for the same. *)
Definition same_on (N : string -> Prop) (v v' : view) : Prop :=
  forall n, N n -> v_idx v' !! n = v_idx v !! n /\ v_ali v' !! n = v_ali v !! n.

(** Client [i] uses names in [N] only, the others leave them alone. *)
Definition alone_in (N : string -> Prop) (i : nat) (ps : list client) : Prop :=
  forall j p, ps !! j = Some p -> makes_only (if decide (j = i) then within N else spares N) p.
