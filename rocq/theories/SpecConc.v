(** * Specification of concurrent calls: a machine with atomic sections.
    Every call consists of one or two atomic sections; between them other calls
    may run.  There are no locks, goroutines, slices or maps of slices.
    No proofs in this file. *)
From stdpp Require Import gmap list.
From Verif Require Import Entities Search SpecSearch Repo Sem SpecRepo.

(** ** Machines with atomic sections *)

(** A thread is between two sections, or inside a section whose effect has taken
    place. *)
Inductive athr (X B : Type) := Between (x : X) | Inside (b : B).
Arguments Between {X B}. Arguments Inside {X B}.
Inductive apool (X B W : Type) := APool (l : list (athr X B)) (w : W) | ACrashed.
Arguments APool {X B W}. Arguments ACrashed {X B W}.

Section machine.
  Context {X B W : Type} (eff : X -> W -> B -> W -> Prop) (fin : B -> X -> Prop)
    (crashX : X -> W -> Prop) (crashB : B -> Prop).

  Inductive astep : apool X B W -> apool X B W -> Prop :=
  | as_commit l w i x b w' :
      l !! i = Some (Between x) -> eff x w b w' -> astep (APool l w) (APool (<[i := Inside b]> l) w')
  | as_return l w i b x :
      l !! i = Some (Inside b) -> fin b x -> astep (APool l w) (APool (<[i := Between x]> l) w)
  | as_crash_x l w i x : l !! i = Some (Between x) -> crashX x w -> astep (APool l w) ACrashed
  | as_crash_b l w i b : l !! i = Some (Inside b) -> crashB b -> astep (APool l w) ACrashed.
End machine.

(** ** The repo *)

(** [c_idx]: which index object each name stands for; [c_obj]: the name every
    object was created with and the documents put into it; [c_ali]: the alias
    lists. *)
Record cview := MkC {
  c_idx : gmap string nat;
  c_obj : gmap nat (string * list DocRequest);
  c_ali : gmap string (list string) }.

Inductive answer := Returned (o : obs) | Threw.

(** A call between two sections: not started, a Put that has looked its target
    up ([None]: no index and no alias of that name), a Drop or UnAlias that has
    seen that the index exists, or finished. *)
Inductive stage :=
| Todo (c : call)
| PutAt (n : string) (d : DocRequest) (targets : option (list (option nat)))
| DropAt (n : string)
| UnAliasAt (a i : string)
| Answered (a : answer).

(** A call inside a section: on its way to the next stage, or collecting the
    results of the searches of several indices. *)
Inductive leaving :=
| Next (x : stage)
| Gather (l : list (outcome (list SearchResult))).

Definition ret_obs (o : obs) : leaving := Next (Answered (Returned o)).

(** What [n] stands for: an index, or the indices of an alias. *)
Definition targets (w : cview) (n : string) : option (list (option nat)) :=
  match c_idx w !! n with
  | Some p => Some [Some p]
  | None => match c_ali w !! n with
            | Some l => Some ((fun x => c_idx w !! x) <$> l)
            | None => None
            end
  end.

Definition search_obj (ckn : bool) (tk : Tokenizer) (w : cview) (q : string) (e : Engine) (op : option nat)
  : outcome (list SearchResult) :=
  match op ≫= (fun p => c_obj w !! p) with
  | Some (_, reqs) => search_docs ckn tk reqs q e
  | None => Panic
  end.

(** Adding [d] to the objects [ps]. *)
Definition put_objs (d : DocRequest) (ps : list (option nat)) (obj : gmap nat (string * list DocRequest))
  : gmap nat (string * list DocRequest) :=
  foldr (fun op m => match op with
                     | Some p => alter (fun x : string * list DocRequest => (x.1, x.2 ++ [d])) p m
                     | None => m
                     end) obj ps.

(** What String() prints: every index in some order, each followed by a newline. *)
Fixpoint text_of (tk : Tokenizer) (show : MemoryIndex -> string) (w : cview) (names : list string) : string :=
  match names with
  | [] => ""
  | n :: rest =>
      match c_idx w !! n ≫= (fun p => c_obj w !! p) with
      | Some (nm, reqs) => show (index_after nm tk reqs)
      | None => "<nil>"
      end ++ String (ascii_of_N 10) "" ++ text_of tk show w rest
  end%string.

(** One section: the call at stage [x] changes [w] to [w'] and goes on as [b]. *)
Definition section (ckn : bool) (tk : Tokenizer) (x : stage) (w : cview) (b : leaving) (w' : cview) : Prop :=
  let idx := c_idx w in let obj := c_obj w in let ali := c_ali w in
  match x with
  | Todo CList => exists l, l ≡ₚ (map_to_list idx).*1 /\ b = ret_obs (ONames l) /\ w' = w
  | Todo CListAliases => exists l, l ≡ₚ map_to_list ali /\ b = ret_obs (ORows l) /\ w' = w
  | Todo (CHas n) => b = ret_obs (OBool (bool_decide (is_Some (idx !! n)))) /\ w' = w
  | Todo (CHasAlias a) => b = ret_obs (OBool (bool_decide (is_Some (ali !! a)))) /\ w' = w
  | Todo (CString show) =>
      exists names, names ≡ₚ (map_to_list idx).*1 /\ b = ret_obs (OText (text_of tk show w names)) /\ w' = w
  | Todo (CAlias a i) =>
      let l := default [] (ali !! a) in
      if decide (idx !! i = None \/ i ∈ l) then b = ret_obs (OBool false) /\ w' = w
      else b = ret_obs (OBool true) /\ w' = MkC idx obj (<[a := l ++ [i]]> ali)
  | Todo (CUnAlias a i) =>
      if decide (i = ""%string) then
        b = ret_obs (OBool (bool_decide (is_Some (ali !! a)))) /\ w' = MkC idx obj (delete a ali)
      else if decide (idx !! i = None) then b = ret_obs (OBool false) /\ w' = w
      else b = Next (UnAliasAt a i) /\ w' = w
  | UnAliasAt a i =>
      match ali !! a with
      | None => b = ret_obs (OBool false) /\ w' = w
      | Some l => b = ret_obs (OBool true) /\ w' = MkC idx obj (<[a := without i l]> ali)
      end
  | Todo (CRename old new) =>
      match idx !! old with
      | None => b = ret_obs (OBool false) /\ w' = w
      | Some p => b = ret_obs (OBool true) /\
          w' = MkC (delete old (<[new := p]> idx)) obj (map (renamed old new) <$> ali)
      end
  | Todo (CDrop n) =>
      if decide (idx !! n = None) then b = ret_obs (OBool false) /\ w' = w
      else b = Next (DropAt n) /\ w' = w
  | DropAt n =>
      b = ret_obs (OBool true) /\ w' = MkC (delete n idx) obj (omap (drop_from n) ali)
  | Todo (CPut n d) => b = Next (PutAt n d (targets w n)) /\ w' = w
  | PutAt n d None =>
      exists p, obj !! p = None /\ b = ret_obs OUnit /\ w' = MkC (<[n := p]> idx) (<[p := (n, [d])]> obj) ali
  | PutAt n d (Some ps) =>
      None ∉ ps /\ b = ret_obs OUnit /\ w' = MkC idx (put_objs d ps obj) ali
  | Todo (CSearch n q e) =>
      w' = w /\
      match targets w n with
      | None => b = ret_obs (OError ("index with name '" ++ n ++ "' does not exist"))
      | Some [op] =>
          match search_obj ckn tk w q e op with
          | Ok sr => b = ret_obs (OResults sr)
          | Panic => b = Next (Answered Threw)
          end
      | Some ops => b = Gather (search_obj ckn tk w q e <$> ops)
      end
  | Answered _ => False
  end.

Definition leave (b : leaving) (x : stage) : Prop :=
  match b with
  | Next x' => x = x'
  | Gather l => exists bl bl', l = (Ok <$> bl) /\ bl' ≡ₚ bl /\ x = Answered (Returned (OResults (concat bl')))
  end.

(** A Put through an alias that lists a missing index, and a goroutine of Search
    that panics, kill the process. *)
Definition dies_before (x : stage) (w : cview) : Prop :=
  match x with PutAt _ _ (Some ps) => None ∈ ps | _ => False end.
Definition dies_inside (b : leaving) : Prop :=
  match b with Gather l => Panic ∈ l | _ => False end.

Notation cthr := (athr stage leaving).
Definition dies (w : cview) (t : cthr) : Prop :=
  match t with Between x => dies_before x w | Inside b => dies_inside b end.
Notation cpool := (apool stage leaving cview).
Notation cstep ckn tk := (astep (section ckn tk) leave dies_before dies_inside).

Definition cstart (cs : list call) : list cthr := (fun c => Between (Todo c)) <$> cs.

(** The sequential view of a concurrent one. *)
Definition view_of (w : cview) : view :=
  MkView (omap (fun p => snd <$> c_obj w !! p) (c_idx w)) (c_ali w) 0 false.

(** ** Relating the memory of the code to the machine *)

(** The index table and the objects in it. *)
Definition shows_indices (tk : Tokenizer) (s : repo) (w : cview) : Prop :=
  i_map (r_I s) = c_idx w /\
  forall n p, c_idx w !! n = Some p ->
    exists nm reqs, c_obj w !! p = Some (nm, reqs) /\ i_heap (r_I s) !! p = Some (index_after nm tk reqs).
(** The alias table and the alias lists. *)
Definition shows_aliases (s : repo) (w : cview) : Prop :=
  a_cont (r_A s) <$> a_map (r_A s) = c_ali w.

(** The value returned by the code and the answer of the machine.  The rows of
    ListAliases are slices, whose elements are read later. *)
Definition answers (p : prog) (a : answer) : Prop :=
  match p, a with
  | Ret (RRows rows), Returned (ORows l) => rows.*1 = l.*1
  | Ret (RRows _), _ => False
  | Ret r, Returned o => forall s, see s r = o
  | Throw, Threw => True
  | _, _ => False
  end.

(** The code and the machine agree on everything that can be observed: the
    answers of the calls that have returned, the index table whenever no call
    holds its lock for writing, the alias table whenever neither lock is held for
    writing, and everything once all calls have returned.  The elements of rows
    returned by ListAliases are compared, as they can be read at the moment, if
    [rows] asks for it. *)
Record agrees (tk : Tokenizer) (rows : bool) (ts : list thr) (s : repo) (l : list cthr) (w : cview) : Prop := {
  ag_len : length l = length ts;
  ag_answer : forall i p, ts !! i = Some (TRun p) -> finished (TRun p) ->
    exists a, l !! i = Some (Between (Answered a)) /\ answers p a;
  ag_indices : rw_writer (r_imu s) = false \/ Forall finished ts -> shows_indices tk s w;
  ag_aliases : (rw_writer (r_imu s) = false /\ rw_writer (r_amu s) = false) \/ Forall finished ts ->
    shows_aliases s w;
  ag_rows : rows = true ->
    forall i r, ts !! i = Some (TRun (Ret r)) -> l !! i = Some (Between (Answered (Returned (see s r)))) }.

(** [R] relates the states of the code running the calls to states of the
    machine; every step of a call is a sequence of steps of the machine in which
    only this call takes part. *)
Record simulation (ckn : bool) (tk : Tokenizer) (rows : bool)
  (R : list thr -> repo -> list cthr -> cview -> Prop) : Prop := {
  sim_next : forall ts s l w i t t' s', R ts s l w -> ts !! i = Some t -> tstep s t (TNext t' s') ->
    exists l' w', R (<[i := t']> ts) s' l' w' /\ rtc (cstep ckn tk) (APool l w) (APool l' w') /\
      forall j, j <> i -> l' !! j = l !! j;
  sim_dies : forall ts s l w i t, R ts s l w -> ts !! i = Some t -> tstep s t TCrash ->
    exists a, l !! i = Some a /\ dies w a;
  sim_agrees : forall ts s l w, R ts s l w -> agrees tk rows ts s l w }.
