(** * Specification of the repository with any implementation of Index.
    The abstract machine of SpecRepo.v, in which an index is known by the name it was
    created under and the documents put into it since; searching it is up to the
    implementation.  No proofs in this file. *)
From stdpp Require Import gmap list.
From Verif Require Import Entities Search Repo Sem SpecRepo SpecConc SpecLin AnyIndex.

Record gview := MkGView {
  gv_idx : gmap string (string * list DocRequest);
  gv_ali : gmap string (list string);
  gv_leakI : nat;
  gv_leakA : bool }.

Definition new_gview : gview := MkGView ∅ ∅ 0 false.

Inductive gout :=
| GODone (o : obs) (v : gview)
| GOPanic (v : gview)
| GOCrash
| GOBlock.

Section SpecAny.
Context (im : implementation).

(** The object created for the name [x.1] after the Puts of [x.2]. *)
Definition object (x : string * list DocRequest) : im_state im :=
  fold_left (fun s d => im_put im d s) x.2 (im_new im x.1).

Definition gsearch_name (idx : gmap string (string * list DocRequest)) (q : string) (e : Engine) (n : string)
  : outcome (list SearchResult) :=
  match idx !! n with Some x => im_search im (object x) q e | None => Panic end.

Definition gput_each (d : DocRequest) (l : list string) (idx : gmap string (string * list DocRequest))
  : gmap string (string * list DocRequest) :=
  foldr (fun n m => alter (fun x => (x.1, x.2 ++ [d])) n m) idx l.

Definition gsearch_many idx q e (l : list string) (o : gout) (v : gview) : Prop :=
  (exists blocks blocks',
     (gsearch_name idx q e <$> l) = (Ok <$> blocks) /\ blocks' ≡ₚ blocks /\
     o = GODone (OResults (concat blocks')) v) \/
  (Panic ∈ (gsearch_name idx q e <$> l) /\ o = GOCrash).

Definition gspec (c : call) (v : gview) (o : gout) : Prop :=
  let idx := gv_idx v in let ali := gv_ali v in
  let set_idx idx' := MkGView idx' ali (gv_leakI v) (gv_leakA v) in
  let set_ali ali' := MkGView idx ali' (gv_leakI v) (gv_leakA v) in
  match c with
  | CList => exists l, l ≡ₚ (map_to_list idx).*1 /\ o = GODone (ONames l) v
  | CHas n => o = GODone (OBool (bool_decide (is_Some (idx !! n)))) v
  | CString _ => exists t, o = GODone (OText t) v
  | CHasAlias a =>
      if gv_leakA v then o = GOBlock
      else o = GODone (OBool (bool_decide (is_Some (ali !! a)))) v
  | CListAliases =>
      if gv_leakA v then o = GOBlock
      else exists l, l ≡ₚ map_to_list ali /\ o = GODone (ORows l) v
  | CAlias a i =>
      if decide (idx !! i = None) then o = GODone (OBool false) v
      else if gv_leakA v then o = GOBlock
      else let l := default [] (ali !! a) in
           if decide (i ∈ l) then o = GODone (OBool false) v
           else o = GODone (OBool true) (set_ali (<[a := l ++ [i]]> ali))
  | CUnAlias a i =>
      if decide (i = ""%string) then
        if gv_leakA v then o = GOBlock
        else o = GODone (OBool (bool_decide (is_Some (ali !! a)))) (set_ali (delete a ali))
      else if decide (idx !! i = None) then
        o = GODone (OBool false) (MkGView idx ali (S (gv_leakI v)) (gv_leakA v))
      else if gv_leakA v then o = GOBlock
      else match ali !! a with
           | None => o = GODone (OBool false) (MkGView idx ali (gv_leakI v) true)
           | Some l => o = GODone (OBool true) (set_ali (<[a := without i l]> ali))
           end
  | CRename old new =>
      if decide (gv_leakI v <> 0%nat) then o = GOBlock
      else match idx !! old with
           | None => o = GODone (OBool false) v
           | Some x =>
               o = GODone (OBool true)
                     (MkGView (delete old (<[new := x]> idx)) (map (renamed old new) <$> ali)
                        (gv_leakI v) (gv_leakA v))
           end
  | CDrop n =>
      if decide (idx !! n = None) then o = GODone (OBool false) v
      else if decide (gv_leakI v <> 0%nat) then o = GOBlock
      else if gv_leakA v then o = GOBlock
      else o = GODone (OBool true)
                 (MkGView (delete n idx) (omap (drop_from n) ali) (gv_leakI v) (gv_leakA v))
  | CPut n d =>
      match idx !! n with
      | Some _ =>
          if decide (gv_leakI v <> 0%nat) then o = GOBlock
          else o = GODone OUnit (set_idx (gput_each d [n] idx))
      | None =>
          if gv_leakA v then o = GOBlock
          else if decide (gv_leakI v <> 0%nat) then o = GOBlock
          else match ali !! n with
               | None => o = GODone OUnit (set_idx (<[n := (n, [d])]> idx))
               | Some l =>
                   if decide (Exists (fun x => idx !! x = None) l) then o = GOCrash
                   else o = GODone OUnit (set_idx (gput_each d l idx))
               end
      end
  | CSearch n q e =>
      match idx !! n with
      | Some x =>
          match im_search im (object x) q e with
          | Ok sr => o = GODone (OResults sr) v
          | Panic => o = GOPanic v
          end
      | None =>
          if gv_leakA v then o = GOBlock
          else match ali !! n with
               | None => o = GODone (OError ("index with name '" ++ n ++ "' does not exist")%string) v
               | Some [x] =>
                   match gsearch_name idx q e x with
                   | Ok sr => o = GODone (OResults sr) v
                   | Panic => o = GOPanic v
                   end
               | Some l => gsearch_many idx q e l o v
               end
      end
  end.

(** The value returned by the code, read in the memory it was returned in. *)
Definition gsee (s : grepo im) (r : ret) : obs :=
  match r with
  | RUnit => OUnit
  | RBool b => OBool b
  | RNames l => ONames l
  | RRows rows => ORows (map (fun row => (row.1, a_cont (g_A im s) row.2)) rows)
  | RResults l => OResults l
  | RError m => OError m
  | RText t => OText t
  end.

(** No lock was ever left behind. *)
Definition gunblocked (v : gview) : Prop := gv_leakI v = 0%nat /\ gv_leakA v = false.

(** The memory of the code holds the indices and aliases of [v]. *)
Record gshows (s : grepo im) (v : gview) : Prop := {
  gsh_idx : forall n,
    (gi_map im (g_I im s) !! n ≫= fun p => gi_heap im (g_I im s) !! p) = object <$> gv_idx v !! n;
  gsh_dom : forall n, is_Some (gi_map im (g_I im s) !! n) <-> is_Some (gv_idx v !! n);
  gsh_ali : a_cont (g_A im s) <$> a_map (g_A im s) = gv_ali v }.

(** The same, and the locks are held by nobody but the calls that left them behind. *)
Record gstores (s : grepo im) (v : gview) : Prop := {
  gst_shows : gshows s v;
  gst_imu : g_imu im s = MkRW (gv_leakI v) false false;
  gst_amu : g_amu im s = MkRW 0 false (gv_leakA v) }.

(** States reached from a new repo by calls issued one after the other, panics
    recovered by the caller, and phases in which calls are issued at once (Rename and
    UnAlias not both among them, no lock left behind before) and all finish; the
    machine then continues in a state that the memory of the code stores. *)
Inductive greach : grepo im -> gview -> Prop :=
| GR_new : greach (gnew im) new_gview
| GR_done s v c r s' v' :
    greach s v -> gcall_result im c s (GDone im r s') -> gspec c v (GODone (gsee s' r) v') -> greach s' v'
| GR_panic s v c s' v' :
    greach s v -> gcall_result im c s (GPanicked im s') -> gspec c v (GOPanic v') -> greach s' v'
| GR_together s v cs ts s' v' :
    greach s v -> gunblocked v -> separate cs ->
    rtc (gpstep im) (GPool im (start cs) s) (GPool im ts s') -> Forall finished ts ->
    gstores s' v' -> greach s' v'.

(** The code ended a call as the machine did. *)
Definition gmatch (res : gresult im) (o : gout) : Prop :=
  match res, o with
  | GDone _ r s', GODone ob v' => ob = gsee s' r /\ greach s' v'
  | GPanicked _ s', GOPanic v' => greach s' v'
  | GKilled _, GOCrash => True
  | GBlocked _, GOBlock => True
  | _, _ => False
  end.

(** ** Calls issued at once *)
(** The view without the creation names, to say which calls tolerate each other. *)
Definition plain (v : gview) : view := MkView (snd <$> gv_idx v) (gv_ali v) (gv_leakI v) (gv_leakA v).

Definition gforget (v : gview) : gview := MkGView (gv_idx v) (gv_ali v) 0 false.

Inductive gchain : gview -> list (nat * gview * gview) -> gview -> Prop :=
| gchain_nil v : gchain v [] v
| gchain_cons i v v1 log v2 : gchain v1 log v2 -> gchain v ((i, v, v1) :: log) v2.

Definition gexplained (c : call) (a : answer) (vb va : gview) : Prop :=
  match a with
  | Returned o => exists v1, gspec c vb (GODone o v1) /\ va = gforget v1
  | Threw => exists v1, gspec c vb (GOPanic v1) /\ va = gforget v1
  end.

(** A finished run in which every call ends as if the calls had been issued one
    after the other in some order. *)
Definition gserializable (v : gview) (cs : list call) (ts : list thr) (s' : grepo im) : Prop :=
  exists log v',
    log.*1.*1 ≡ₚ seq 0 (length cs) /\ gchain v log v' /\ gshows s' v' /\
    forall i p, ts !! i = Some (TRun p) ->
      exists c a vb va, cs !! i = Some c /\ (i, vb, va) ∈ log /\ gexplained c a vb va /\
        match p with Ret r => a = Returned (gsee s' r) | _ => p = Throw /\ a = Threw end.
End SpecAny.
