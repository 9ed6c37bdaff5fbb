(** * Specification of the repository: a small abstract machine.
    An index is the list of the documents put into it, an alias is a list of
    index names.  No pointers, slices, goroutines or maps of locks. *)
From stdpp Require Import gmap list.
From Verif Require Import Entities Search SpecSearch Repo Sem.

(** What a caller of the API can tell about a repo between two calls.
    [v_leakI] counts the calls that returned while still holding the lock of the
    index table for reading, [v_leakA] says that one returned while holding the
    lock of the alias table for writing. *)
Record view := MkView {
  v_idx : gmap string (list DocRequest);
  v_ali : gmap string (list string);
  v_leakI : nat;
  v_leakA : bool }.

Definition new_view : view := MkView ∅ ∅ 0 false.

(** What a call reports. *)
Inductive obs :=
| OUnit
| OBool (b : bool)
| ONames (l : list string)
| ORows (l : list (string * list string))
| OResults (l : list SearchResult)
| OError (msg : string)
| OText (s : string).

(** How a call ends: returns, panics in the caller's goroutine, kills the
    process, or never returns. *)
Inductive out :=
| ODone (o : obs) (v : view)
| OPanic (v : view)
| OCrash
| OBlock.

(** Searching an index that holds exactly the documents [reqs]. *)
Definition search_docs (ckn : bool) (tk : Tokenizer) (reqs : list DocRequest) (q : string) (e : Engine)
  : outcome (list SearchResult) :=
  mi_Search ckn (index_after "" tk reqs) q e.

(** Searching the index called [n]; a name without index panics. *)
Definition search_name (ckn : bool) (tk : Tokenizer) (idx : gmap string (list DocRequest))
  (q : string) (e : Engine) (n : string) : outcome (list SearchResult) :=
  match idx !! n with Some reqs => search_docs ckn tk reqs q e | None => Panic end.

(** Appending [d] to each of the indices [l] in turn. *)
Definition put_each (d : DocRequest) (l : list string) (idx : gmap string (list DocRequest))
  : gmap string (list DocRequest) :=
  foldr (fun n m => alter (fun reqs => reqs ++ [d]) n m) idx l.

Definition without (n : string) (l : list string) : list string := filter (fun x => x <> n) l.

(** An alias list after the index [n] was dropped; [None]: the alias goes too. *)
Definition drop_from (n : string) (l : list string) : option (list string) :=
  match without n l with [] => None | l' => Some l' end.

Definition renamed (old new x : string) : string := if decide (x = old) then new else x.

(** Results of a search over several indices: the block of each index, the
    blocks in any order. *)
Definition search_many ckn tk idx q e (l : list string) (o : out) (v : view) : Prop :=
  (exists blocks blocks',
     (search_name ckn tk idx q e <$> l) = (Ok <$> blocks) /\ blocks' ≡ₚ blocks /\
     o = ODone (OResults (concat blocks')) v) \/
  (Panic ∈ (search_name ckn tk idx q e <$> l) /\ o = OCrash).

Definition spec (ckn : bool) (tk : Tokenizer) (c : call) (v : view) (o : out) : Prop :=
  let idx := v_idx v in let ali := v_ali v in
  let set_idx idx' := MkView idx' ali (v_leakI v) (v_leakA v) in
  let set_ali ali' := MkView idx ali' (v_leakI v) (v_leakA v) in
  match c with
  | CList => exists l, l ≡ₚ (map_to_list idx).*1 /\ o = ODone (ONames l) v
  | CHas n => o = ODone (OBool (bool_decide (is_Some (idx !! n)))) v
  | CString _ => exists t, o = ODone (OText t) v
  | CHasAlias a =>
      if v_leakA v then o = OBlock
      else o = ODone (OBool (bool_decide (is_Some (ali !! a)))) v
  | CListAliases =>
      if v_leakA v then o = OBlock
      else exists l, l ≡ₚ map_to_list ali /\ o = ODone (ORows l) v
  | CAlias a i =>
      if decide (idx !! i = None) then o = ODone (OBool false) v
      else if v_leakA v then o = OBlock
      else let l := default [] (ali !! a) in
           if decide (i ∈ l) then o = ODone (OBool false) v
           else o = ODone (OBool true) (set_ali (<[a := l ++ [i]]> ali))
  | CUnAlias a i =>
      if decide (i = "") then
        if v_leakA v then o = OBlock
        else o = ODone (OBool (bool_decide (is_Some (ali !! a)))) (set_ali (delete a ali))
      else if decide (idx !! i = None) then
        o = ODone (OBool false) (MkView idx ali (S (v_leakI v)) (v_leakA v))
      else if v_leakA v then o = OBlock
      else match ali !! a with
           | None => o = ODone (OBool false) (MkView idx ali (v_leakI v) true)
           | Some l => o = ODone (OBool true) (set_ali (<[a := without i l]> ali))
           end
  | CRename old new =>
      if decide (v_leakI v <> 0%nat) then o = OBlock
      else match idx !! old with
           | None => o = ODone (OBool false) v
           | Some reqs =>
               o = ODone (OBool true)
                     (MkView (delete old (<[new := reqs]> idx)) (map (renamed old new) <$> ali)
                        (v_leakI v) (v_leakA v))
           end
  | CDrop n =>
      if decide (idx !! n = None) then o = ODone (OBool false) v
      else if decide (v_leakI v <> 0%nat) then o = OBlock
      else if v_leakA v then o = OBlock
      else o = ODone (OBool true)
                 (MkView (delete n idx) (omap (drop_from n) ali) (v_leakI v) (v_leakA v))
  | CPut n d =>
      match idx !! n with
      | Some _ =>
          if decide (v_leakI v <> 0%nat) then o = OBlock
          else o = ODone OUnit (set_idx (put_each d [n] idx))
      | None =>
          if v_leakA v then o = OBlock
          else if decide (v_leakI v <> 0%nat) then o = OBlock
          else match ali !! n with
               | None => o = ODone OUnit (set_idx (<[n := [d]]> idx))
               | Some l =>
                   if decide (Exists (fun x => idx !! x = None) l) then o = OCrash
                   else o = ODone OUnit (set_idx (put_each d l idx))
               end
      end
  | CSearch n q e =>
      match idx !! n with
      | Some reqs =>
          match search_docs ckn tk reqs q e with
          | Ok sr => o = ODone (OResults sr) v
          | Panic => o = OPanic v
          end
      | None =>
          if v_leakA v then o = OBlock
          else match ali !! n with
               | None => o = ODone (OError ("index with name '" ++ n ++ "' does not exist")) v
               | Some [x] =>
                   match search_name ckn tk idx q e x with
                   | Ok sr => o = ODone (OResults sr) v
                   | Panic => o = OPanic v
                   end
               | Some l => search_many ckn tk idx q e l o v
               end
      end
  end.

(** The value returned by the code, read in the memory it was returned in. *)
Definition see (s : repo) (r : ret) : obs :=
  match r with
  | RUnit => OUnit
  | RBool b => OBool b
  | RNames l => ONames l
  | RRows rows => ORows (map (fun row => (row.1, a_cont (r_A s) row.2)) rows)
  | RResults l => OResults l
  | RError m => OError m
  | RText t => OText t
  end.

(** A history of the abstract machine. *)
Inductive spec_history (ckn : bool) (tk : Tokenizer) : view -> list (call * out) -> view -> Prop :=
| SH_nil v : spec_history ckn tk v [] v
| SH_done v c o v1 l v2 :
    spec ckn tk c v (ODone o v1) -> spec_history ckn tk v1 l v2 ->
    spec_history ckn tk v ((c, ODone o v1) :: l) v2
| SH_panic v c v1 l v2 :
    spec ckn tk c v (OPanic v1) -> spec_history ckn tk v1 l v2 ->
    spec_history ckn tk v ((c, OPanic v1) :: l) v2.

(** No lock was ever left behind. *)
Definition unblocked (v : view) : Prop := v_leakI v = 0%nat /\ v_leakA v = false.

(** ** Calls issued at once *)

(** One goroutine per call, none of which has run yet. *)
Definition start (cs : list call) : list thr := (fun c => TRun (prog_of c)) <$> cs.

(** Rename and UnAlias do not both occur. *)
Definition without_rename (cs : list call) : Prop := forall old new, CRename old new ∉ cs.
Definition without_unalias (cs : list call) : Prop := forall a i, CUnAlias a i ∉ cs.
Definition separate (cs : list call) : Prop := without_rename cs \/ without_unalias cs.

(** The memory of the code, read as a view: every entry of the index table is an
    index filled with the documents of [v], the alias lists read as those of [v],
    and the locks are held by nobody but the calls that left them behind. *)
Record stores (tk : Tokenizer) (s : repo) (v : view) : Prop := {
  st_idx : forall n,
    match i_map (r_I s) !! n with
    | Some p => exists nm reqs, v_idx v !! n = Some reqs /\ i_heap (r_I s) !! p = Some (index_after nm tk reqs)
    | None => v_idx v !! n = None
    end;
  st_ali : a_cont (r_A s) <$> a_map (r_A s) = v_ali v;
  st_imu : r_imu s = MkRW (v_leakI v) false false;
  st_amu : r_amu s = MkRW 0 false (v_leakA v) }.

(** ** Histories *)

(** States of the code reached by a history of calls, together with the state of
    the abstract machine fed the same calls and giving the same observations.
    [ok] restricts which calls may be issued.  The history may also contain phases
    in which calls that [ok] allows in every state are issued at once, by any number
    of goroutines, and interleave in any way (Rename and UnAlias not both among them,
    no lock left behind before); once they have all returned or panicked, the
    machine continues in the state that the memory of the code stores. *)
Inductive reach_from (ckn : bool) (tk : Tokenizer) (ok : view -> call -> Prop) (s0 : repo) (v0 : view)
  : repo -> view -> Prop :=
| R_start : reach_from ckn tk ok s0 v0 s0 v0
| R_done s v c r s' v' :
    reach_from ckn tk ok s0 v0 s v -> ok v c ->
    call_result c s (Done r s') -> spec ckn tk c v (ODone (see s' r) v') ->
    reach_from ckn tk ok s0 v0 s' v'
| R_panic s v c s' v' :
    reach_from ckn tk ok s0 v0 s v -> ok v c ->
    call_result c s (Panicked s') -> spec ckn tk c v (OPanic v') ->
    reach_from ckn tk ok s0 v0 s' v'
| R_together s v cs ts s' v' :
    reach_from ckn tk ok s0 v0 s v -> (forall c, c ∈ cs -> forall v, ok v c) ->
    unblocked v -> separate cs ->
    rtc pstep (Pool (start cs) s) (Pool ts s') -> Forall finished ts ->
    stores tk s' v' ->
    reach_from ckn tk ok s0 v0 s' v'.

(** Starting from a new repo. *)
Definition reach (ckn : bool) (tk : Tokenizer) (ok : view -> call -> Prop) : repo -> view -> Prop :=
  reach_from ckn tk ok (NewIndexRepo ckn (NewMemoryIndexBuilder tk)) new_view.

Definition any_call (v : view) (c : call) : Prop := True.
Notation tracks ckn tk := (reach ckn tk any_call).

(** What a call does, in every execution (every map iteration order, goroutine
    schedule and slice growth); in each case some execution exists. *)
Definition always (c : call) (s : repo) (P : result -> Prop) : Prop :=
  (exists res, call_result c s res) /\ forall res, call_result c s res -> P res.

Definition returns ckn tk (ok : view -> call -> Prop) (c : call) (s : repo) (P : obs -> Prop) (v' : view) : Prop :=
  always c s (fun res => exists r s', res = Done r s' /\ P (see s' r) /\ reach ckn tk ok s' v').
Definition panics ckn tk (ok : view -> call -> Prop) (c : call) (s : repo) (v' : view) : Prop :=
  always c s (fun res => exists s', res = Panicked s' /\ reach ckn tk ok s' v').
(** After the call returned. *)
Definition after (c : call) (s s' : repo) : Prop := exists r, call_result c s (Done r s').
Definition crashes (c : call) (s : repo) : Prop := always c s (fun res => res = Crashed).
Definition blocks (c : call) (s : repo) : Prop := always c s (fun res => res = Blocked).



(** UnAlias of a missing association target. *)
Definition leaky (v : view) (c : call) : Prop :=
  exists a i, c = CUnAlias a i /\ i <> ""%string /\ (v_idx v !! i = None \/ v_ali v !! a = None).
