(** * Property C80: the assertions of the project's own tests. *)
From Coq Require Import Lia.
From stdpp Require Import gmap list.
From Verif Require Import Stemmer Entities Utf8 SpecUtf8 ProofUtf8 StopWords Search SpecSearch Analyze ProofAnalyze
  ProofHits Properties_Search Repo Sem SpecRepo ProofRepo ProofTotal ProofReach Properties_Repo Properties_Analyze
  Properties_Readme Properties_Filters.
Open Scope nat_scope.
Open Scope string_scope.
Open Scope list_scope.

(** ** Test_intersection (search_linear_search_test.go:9-69) *)

Theorem C80_intersection_tests :
  go_intersection [] [] = Ok [] /\
  go_intersection [0; 1; 2; 3; 4; 5]%Z [] = Ok [] /\
  go_intersection [] [0; 1; 2; 3; 4; 5]%Z = Ok [] /\
  go_intersection [0; 1; 2; 3; 4; 5]%Z [0; 1; 2; 3; 4; 5]%Z = Ok [0; 1; 2; 3; 4; 5]%Z /\
  go_intersection [0; 1; 2; 3; 4; 5]%Z [0; 5; 6]%Z = Ok [0; 5]%Z /\
  go_intersection [0]%Z [1]%Z = Ok [] /\
  go_intersection [0]%Z [0]%Z = Ok [0]%Z.
Proof. split_and!; vm_compute; reflexivity. Qed.
Print Assumptions C80_intersection_tests.

(** ** TestRV (stemmer_spanish_snowball_test.go:8-73) *)
Definition some (w : string) : option bytes := Some (bytes_str w).
Theorem C80_stemmer_tests :
  R1R2RV (bytes_str "macho") = Ok (some "ho", None, some "ho") /\
  R1R2RV (bytes_str "oliva") = Ok (some "iva", some "a", some "va") /\
  R1R2RV (bytes_str "trabajo") = Ok (some "ajo", some "o", some "bajo") /\
  R1R2RV (bytes_str "áureo") = Ok (some "eo", None, some "eo").
Proof. split_and!; vm_compute; reflexivity. Qed.
Print Assumptions C80_stemmer_tests.

(** ** The tests of the engines *)

(** The documents put, the query, the IDs expected and the hits of each of them. *)
Record stest := MkTest { st_docs : list (string * string); st_query : string; st_ids : list string; st_hits : Z }.

Definition search_tests : list stest := [
  (* search_linear_search_test.go:81-96, search_hits_search_test.go:19-34 *)
  MkTest [("doc1", "programacion en java"); ("doc2", "programacion en php"); ("doc3", "desarrollo web")]
    "programacion" ["doc1"; "doc2"] 1;
  (* search_linear_search_test.go:98-124, search_hits_search_test.go:36-62 *)
  MkTest [("doc1", "curso de programacion en java"); ("doc2", "curso de programacion en php");
          ("doc3", "tutorial de java para principiantes"); ("doc4", "desarrollo web frontend")]
    "programacion java" ["doc1"] 2;
  (* search_linear_search_test.go:126-135, search_hits_search_test.go:157-164 *)
  MkTest [("doc1", "programacion en php"); ("doc2", "desarrollo java")] "programacion java" [] 2;
  (* search_linear_search_test.go:137-144, search_hits_search_test.go:141-147 *)
  MkTest [("doc1", "some content")] "" [] 0;
  (* search_linear_search_test.go:146-153, search_hits_search_test.go:149-155 *)
  MkTest [("doc1", "programacion en java")] "python" [] 1;
  (* search_linear_search_test.go:155-178 *)
  MkTest [("doc1", "curso completo de programacion en java"); ("doc2", "curso de programacion en php");
          ("doc3", "curso completo de desarrollo")]
    "curso completo programacion" ["doc1"] 3;
  (* search_linear_search_test.go:180-212, search_hits_search_test.go:191-225 *)
  MkTest [("doc1", "programacion java"); ("doc2", "java programacion"); ("doc3", "curso de programacion en java")]
    "programacion java" ["doc1"; "doc2"; "doc3"] 2;
  (* search_linear_search_test.go:214-251 *)
  MkTest [("doc1", "programacion java"); ("doc2", "programacion php"); ("doc3", "java tutorial")]
    "programacion java" ["doc1"] 2;
  (* search_hits_search_test.go:64-77 and 79-101 *)
  MkTest [("doc1", "java java java"); ("doc2", "java programming java"); ("doc3", "programming tutorial");
          ("doc4", "python programming")] "java" ["doc1"; "doc2"] 1;
  MkTest [("doc1", "java java java"); ("doc2", "java programming java"); ("doc3", "programming tutorial");
          ("doc4", "python programming")] "java programming" ["doc2"] 2;
  (* search_hits_search_test.go:104-139 *)
  MkTest [("doc1", "java programming guide"); ("doc2", "java programming tutorial java");
          ("doc3", "advanced java programming concepts")] "java programming" ["doc1"; "doc2"; "doc3"] 2;
  (* search_hits_search_test.go:166-189 *)
  MkTest [("doc1", "curso completo de programacion en java"); ("doc2", "curso de programacion en php");
          ("doc3", "curso completo de desarrollo"); ("doc4", "programacion completo tutorial")]
    "curso completo programacion" ["doc1"] 3;
  (* search_hits_search_test.go:227-258 *)
  MkTest [("doc1", "programacion java"); ("doc2", "programacion php"); ("doc3", "java tutorial");
          ("doc4", "advanced java programming")] "programacion java" ["doc1"] 2;
  (* search_hits_search_test.go:260-280 *)
  MkTest [("doc1", "test document one"); ("doc2", "test document two")] "test" ["doc1"; "doc2"] 1;
  (* index_memory_index_test.go:9-34 *)
  MkTest [("/course/java", "Curso de programación en Java (León)"); ("/course/php", "Curso de programación en PHP (León)")]
    "java" ["/course/java"] 1;
  (* index_memory_index_test.go:36-65 *)
  MkTest [("/course/java", "Curso de programacion en Java (León)"); ("/course/php", "Curso de programacion en PHP (León)")]
    "programacion" ["/course/java"; "/course/php"] 1
].

(** index_memory_index_test.go:67-110: here the two orders differ. *)
Definition order_docs : list (string * string) :=
  [("java-course", "programming course java"); ("python-course", "programming course python");
   ("go-course", "programming course golang"); ("js-course", "programming course javascript")].

(** The words of all those tests. *)
Definition test_words : list string :=
  ["programacion"; "programación"; "java"; "php"; "desarrollo"; "web"; "curso"; "tutorial"; "principiantes"; "frontend";
   "some"; "content"; "python"; "completo"; "programming"; "guide"; "advanced"; "concepts"; "test"; "document"; "one"; "two";
   "león"; "course"; "golang"; "javascript"; "go"].

(** The stemmer gives them different stems. *)
Definition stems_apart (stem : string -> bool -> string) : Prop :=
  forall x y, x ∈ test_words -> y ∈ test_words -> stem x true = stem y true -> x = y.

Definition requests (docs : list (string * string)) : list DocRequest := map (fun p => NewDocRequest p.1 p.2) docs.
Definition found (docs : list (string * string)) (ids : list string) (hits : Z) : list SearchResult :=
  flat_map (fun n => map (fun p => MkSR (NewDoc p.1 p.2) hits) (filter (fun p => p.1 = n) docs)) ids.

(** The pipeline can be computed on the text. *)
Definition easy (t : string) : bool :=
  l1_text t && forallb l1_text (ct_Tokenize (NewKeepAlphanumericTokenizer l1_IsNumber l1_IsLetter) t) &&
  forallb (fun w => bool_decide (w ∈ test_words)) (l1_words t).

Lemma easy_search IsNumber IsLetter ul stem ckn name docs q e :
  latin1 IsNumber IsLetter ul -> stems_apart stem -> opaque e ->
  forallb easy (q :: map snd docs) = true ->
  mi_Search ckn (index_after name (readme_pipeline IsNumber IsLetter ul stem) (requests docs)) q e =
  mi_Search ckn (index_after name l1_words (requests docs)) q e.
Proof.
  intros Hl Hs He Ht.
  assert (Hx : forall x, text_of (requests docs) q x -> easy x = true).
  { rewrite forallb_forall in Ht. intros x [->|(r & Hr & ->)]; [apply Ht; by left|].
    apply elem_of_list_fmap in Hr as (p & -> & Hp). apply Ht. right. apply in_map_iff. exists p. split; [done|].
    by apply elem_of_list_In. }
  assert (Hw : forall x w, text_of (requests docs) q x -> w ∈ l1_words x -> w ∈ test_words).
  { intros x w Hin Hw. apply Hx in Hin. unfold easy in Hin. apply andb_true_iff in Hin as [_ Hin].
    rewrite forallb_forall in Hin. specialize (Hin w). rewrite <- elem_of_list_In in Hin.
    apply Hin in Hw. by apply bool_decide_eq_true in Hw. }
  apply (C78_relabelling _ _ (fun t => stem t true)); [done|..].
  - intros x Hin. apply Hx in Hin. unfold easy in Hin. rewrite !andb_true_iff in Hin. destruct Hin as [[H1 H2] _].
    by apply l1_readme.
  - intros x y t u Hin1 Hin2 H1 H2 E. apply Hs; [by apply (Hw x)|by apply (Hw y)|done].
Qed.

Lemma outcome_eq_dec {A} : EqDecision A -> EqDecision (outcome A).
Proof. intros H x y. destruct x as [x|], y as [y|]; try (right; congruence); [|by left]. destruct (H x y); [left|right]; congruence. Defined.
Lemma sr_eq_dec : EqDecision SearchResult.
Proof. intros x y. unfold Decision. decide equality; [apply Z.eq_dec|]. decide equality; apply String.string_dec. Defined.
#[local] Existing Instances outcome_eq_dec sr_eq_dec.

(** Every test, with both engines: the test suite asks some of them of one engine only. *)
Theorem C80_engine_tests :
  forall IsNumber IsLetter ul stem ckn name srt t e,
    latin1 IsNumber IsLetter ul -> stems_apart stem -> sort_contract srt ->
    t ∈ search_tests -> e = LinearSearch \/ e = HitsSearch srt ->
    mi_Search ckn (index_after name (readme_pipeline IsNumber IsLetter ul stem) (requests (st_docs t))) (st_query t) e =
      Ok (found (st_docs t) (st_ids t) (st_hits t)) /\
    map (fun x => doc_Name (sr_Document x)) (found (st_docs t) (st_ids t) (st_hits t)) = st_ids t /\
    Forall (fun x => sr_Hits x = st_hits t) (found (st_docs t) (st_ids t) (st_hits t)).
Proof.
  intros IsNumber IsLetter ul stem ckn name srt t e Hl Hs Hsrt Ht He.
  set (good := fun e t =>
    forallb easy (st_query t :: map snd (st_docs t)) &&
    bool_decide (mi_Search ckn (index_after name l1_words (requests (st_docs t))) (st_query t) e =
      Ok (found (st_docs t) (st_ids t) (st_hits t))) &&
    bool_decide (map (fun x => doc_Name (sr_Document x)) (found (st_docs t) (st_ids t) (st_hits t)) = st_ids t) &&
    bool_decide (Forall (fun x => sr_Hits x = st_hits t) (found (st_docs t) (st_ids t) (st_hits t)))).
  assert (G : good LinearSearch t = true /\ good (HitsSearch insertion_sort) t = true).
  { assert (G1 : forallb (good LinearSearch) search_tests = true) by (destruct ckn; vm_compute; reflexivity).
    assert (G2 : forallb (good (HitsSearch insertion_sort)) search_tests = true) by (destruct ckn; vm_compute; reflexivity).
    rewrite forallb_forall in G1, G2. apply elem_of_list_In in Ht. by split; [apply G1|apply G2]. }
  unfold good in G. rewrite !andb_true_iff, !bool_decide_eq_true in G.
  destruct G as [[[[G1 G2] G3] G4] [[[_ G5] _] _]].
  split; [|done]. rewrite easy_search; [|done|done| |done].
  - destruct He as [->| ->]; [done|].
    by rewrite (C05_order_determined _ _ insertion_sort) by (done || apply insertion_sort_contract).
  - destruct C78_engines_opaque as (_ & _ & H1 & H2). destruct He as [->| ->]; [done|apply H2].
Qed.
Print Assumptions C80_engine_tests.

(** "Deterministic": LinearSearch answers in the order of the Puts, HitsSearch in the
    order of the IDs (index_memory_index_test.go:67-110). *)
Theorem C80_order_test :
  forall IsNumber IsLetter ul stem ckn name srt,
    latin1 IsNumber IsLetter ul -> stems_apart stem -> sort_contract srt ->
    let tk := readme_pipeline IsNumber IsLetter ul stem in
    mi_Search ckn (index_after name tk (requests order_docs)) "programming" (HitsSearch srt) =
      Ok (found order_docs ["go-course"; "java-course"; "js-course"; "python-course"] 1) /\
    mi_Search ckn (index_after name tk (requests order_docs)) "programming" LinearSearch =
      Ok (found order_docs ["java-course"; "python-course"; "go-course"; "js-course"] 1).
Proof.
  intros IsNumber IsLetter ul stem ckn name srt Hl Hs Hsrt tk. unfold tk.
  destruct C78_engines_opaque as (_ & _ & H1 & H2).
  rewrite !easy_search; try done; try (vm_compute; reflexivity).
  rewrite (C05_order_determined _ _ insertion_sort) by (done || apply insertion_sort_contract).
  split; destruct ckn; vm_compute; reflexivity.
Qed.
Print Assumptions C80_order_test.

(** "No phantom documents appear" (search_hits_search_test.go:282-311): the documents
    are put in the order of an iteration over a map, that is, in any order. *)
Definition phantom_docs : list (string * string) :=
  [("course_java", "Curso de programacion en Java"); ("course_php", "Curso de programacion en PHP");
   ("course_go", "Curso de programacion en Go")].

Theorem C80_phantom_test :
  forall IsNumber IsLetter ul stem ckn name srt docs,
    latin1 IsNumber IsLetter ul -> stems_apart stem -> sort_contract srt -> docs ≡ₚ phantom_docs ->
    mi_Search ckn (index_after name (readme_pipeline IsNumber IsLetter ul stem) (requests docs)) "programacion" (HitsSearch srt) =
      Ok (found phantom_docs ["course_go"; "course_java"; "course_php"] 1).
Proof.
  intros IsNumber IsLetter ul stem ckn name srt docs Hl Hs Hsrt Hp.
  destruct C78_engines_opaque as (_ & _ & _ & H2).
  rewrite easy_search; try done.
  2:{ rewrite forallb_forall. intros x Hx. assert (Hx' : x ∈ "programacion" :: map snd phantom_docs).
      { rewrite <- Hp. by apply elem_of_list_In. }
      clear Hx. revert x Hx'. apply Forall_forall. repeat (constructor; [vm_compute; reflexivity|]). constructor. }
  rewrite (C05_order_determined _ _ insertion_sort) by (done || apply insertion_sort_contract).
  assert (Hin : docs ∈ permutations phantom_docs) by (apply permutations_Permutation; by symmetry).
  clear Hp. revert docs Hin. apply Forall_forall.
  repeat (constructor; [destruct ckn; vm_compute; reflexivity|]). constructor.
Qed.
Print Assumptions C80_phantom_test.

Example C80_engine_example :
  latin1 l1_IsNumber l1_IsLetter l1_ToLower /\ stems_apart (fun t _ => t) /\ sort_contract insertion_sort /\
  length search_tests = 16 /\ (exists docs, docs ≡ₚ phantom_docs /\ docs <> phantom_docs).
Proof.
  split_and!; [by intros r _|by intros x y _ _ ?|apply insertion_sort_contract|done|].
  exists (reverse phantom_docs). split; [apply reverse_Permutation|done].
Qed.

(** ** The tests of the repository (repos_repo_test.go) *)

(** A program and what is asserted of what its calls return.  [passes]: in every
    execution every call returns and its assertion holds. *)
Fixpoint passes (s : repo) (p : list (call * (obs -> Prop))) : Prop :=
  match p with
  | [] => True
  | (c, P) :: p =>
      always c s (fun res => exists r s', res = Done r s' /\ P (see s' r) /\ passes s' p)
  end.

Definition any (o : obs) : Prop := True.
Definition true_ (o : obs) : Prop := o = OBool true.
Definition false_ (o : obs) : Prop := o = OBool false.
(** The IDs of the results, which came without error, satisfy [P]. *)
Definition ids (P : list string -> Prop) (o : obs) : Prop :=
  exists l, o = OResults l /\ P (map (fun x => doc_Name (sr_Document x)) l).

Definition put n id text : call * (obs -> Prop) := (CPut n (NewDocRequest id text), any).
Definition alias a n : call * (obs -> Prop) := (CAlias a n, any).
Definition pulgar := put "dedos" "pulgar" "este fue a por huevos".
Definition naranjito := put "colores" "naranjito" "este es del 92".

(** Where the tests only ask that there is no error, the results are stated too. *)
Definition repo_tests (srt : list SearchResult -> list SearchResult) : list (list (call * (obs -> Prop))) := [
  (* 17-25 *) [pulgar; naranjito; (CAlias "dedos:latest" "dedos", true_)];
  (* 27-35 *) [pulgar; naranjito; (CAlias "dedos:latest" "sabores", false_)];
  (* 37-45 *) [pulgar; alias "dedos:latest" "dedos"; (CUnAlias "dedos:latest" "", true_)];
  (* 47-54 *) [pulgar; (CUnAlias "dedos:latest" "", false_)];
  (* 56-64 *) [pulgar; alias "dedos:latest" "dedos";
               (CSearch "dedos:latest" "huevos" NoopAllSearch, ids (eq ["pulgar"]))];
  (* 66-87 *) [pulgar; put "comida" "huevos" "los huevos son cuerpos redondeados";
               alias "huevos:latest" "dedos"; alias "huevos:latest" "comida";
               (CSearch "huevos:latest" "huevos" (HitsSearch srt), ids (fun l => l ≡ₚ ["pulgar"; "huevos"]))];
  (* 89-97 *) [pulgar; alias "dedos:latest" "dedos"; put "dedos:latest" "indice" "y este los casco";
               (CSearch "dedos:latest" "casco" NoopAllSearch, ids (eq ["pulgar"; "indice"]))];
  (* 99-109 *) [pulgar; alias "dedos:latest" "dedos"; (CRename "dedos" "dedos_v2", true_);
               (CSearch "dedos:latest" "huevos" NoopAllSearch, ids (eq ["pulgar"]))];
  (* 111-118 *) [pulgar; alias "dedos:latest" "dedos"; (CRename "deditos" "dedos_v2", false_)];
  (* 120-130 *) [pulgar; alias "dedos:latest" "dedos"; put "dedos_v2" "menique" "este los zampo";
               alias "dedos:latest" "dedos_v2";
               (CSearch "dedos:latest" "zampo" NoopAllSearch, ids (fun l => l ≡ₚ ["pulgar"; "menique"]))];
  (* 132-141 *) [pulgar; (CDrop "dedos", true_); (CHas "dedos", false_)];
  (* 143-148 *) [(CDrop "dedos", false_)];
  (* 150-160 *) [pulgar; alias "dedos:latest" "dedos"; (CDrop "dedos", true_); (CHasAlias "dedos:latest", false_)];
  (* 162-196 *) (map (fun p => put "courses" p.1 p.2) order_docs ++
               replicate 5 (CSearch "courses" "programming" (HitsSearch srt),
                            ids (eq ["go-course"; "java-course"; "js-course"; "python-course"])))%list
].

(** newTestIndexRepo (repos_repo_test.go:9-15). *)
Definition test_pipeline (IsNumber IsLetter : N -> bool) (ul : N -> N) : Tokenizer :=
  NewTokenizationPipeline (ct_Tokenize (NewKeepAlphanumericTokenizer IsNumber IsLetter)) [LowerCaseFilter ul].
Definition newTestIndexRepo (ckn : bool) (IsNumber IsLetter : N -> bool) (ul : N -> N) : repo :=
  NewIndexRepo ckn (NewMemoryIndexBuilder (test_pipeline IsNumber IsLetter ul)).

Fixpoint passes_abs ckn tk (v : view) (p : list (call * (obs -> Prop))) : Prop :=
  match p with
  | [] => True
  | (c, P) :: p => forall o, spec ckn tk c v o -> exists b v', o = ODone b v' /\ P b /\ passes_abs ckn tk v' p
  end.

Lemma passes_intro ckn tk s v p : tracks ckn tk s v -> passes_abs ckn tk v p -> passes s p.
Proof.
  revert s v. induction p as [|[c P] p IH]; intros s v Ht Hp; [done|]. cbn [passes passes_abs] in *.
  split; [apply call_total|]. intros res Hres. pose proof (reach_call _ _ any_call _ _ _ _ Ht I Hres) as Hx.
  destruct res as [r s'|s'| |].
  - destruct Hx as (v1 & Hx & Hr'). destruct (Hp _ Hx) as (b & v2 & E & HP & Hp'). simplify_eq.
    exists r, s'. split_and!; [done|done|]. by eapply IH.
  - destruct Hx as (v1 & Hx & Hr'). by destruct (Hp _ Hx) as (b & v2 & E & _).
  - by destruct (Hp _ Hx) as (b & v2 & E & _).
  - by destruct (Hp _ Hx) as (b & v2 & E & _).
Qed.

Section steps.
  Context (ckn : bool) (tk : Tokenizer) (idx : gmap string (list DocRequest)) (ali : gmap string (list string))
    (P : obs -> Prop) (p : list (call * (obs -> Prop))).
  Notation here := (MkView idx ali 0 false).
  Notation goes c o v := (P o -> passes_abs ckn tk v p -> passes_abs ckn tk here ((c, P) :: p)).
  Ltac go := intros; cbn [passes_abs]; intros o Ho; us Ho;
    repeat (first [rewrite decide_False in Ho by (first [done|congruence|intros E; by apply E])
                  |rewrite decide_True in Ho by (first [done|congruence])
                  |match goal with H : _ !! _ = _ |- _ => rewrite H in Ho end]);
    rewrite ?Ho; eauto 8.

  Lemma go_put_new n d : idx !! n = None -> ali !! n = None ->
    goes (CPut n d) OUnit (MkView (<[n := [d]]> idx) ali 0 false).
  Proof. go. Qed.
  Lemma go_put_index n d r : idx !! n = Some r -> goes (CPut n d) OUnit (MkView (put_each d [n] idx) ali 0 false).
  Proof. go. Qed.
  Lemma go_put_alias n d l : idx !! n = None -> ali !! n = Some l ->
    forallb (fun x => bool_decide (is_Some (idx !! x))) l = true ->
    goes (CPut n d) OUnit (MkView (put_each d l idx) ali 0 false).
  Proof.
    intros H1 H2 H3 HP Hp. cbn [passes_abs]. intros o Ho. us Ho. rewrite H1, decide_False, H2 in Ho by (intros E; by apply E).
    rewrite decide_False in Ho; [eauto 8|]. rewrite Exists_exists. intros (x & Hx & E). rewrite forallb_forall in H3.
    specialize (H3 x). rewrite <- elem_of_list_In, bool_decide_eq_true in H3. destruct (H3 Hx). congruence.
  Qed.
  Lemma go_alias a i r : idx !! i = Some r -> i ∉ default [] (ali !! a) ->
    goes (CAlias a i) (OBool true) (MkView idx (<[a := default [] (ali !! a) ++ [i]]> ali) 0 false).
  Proof. go. Qed.
  Lemma go_alias_none a i : idx !! i = None -> goes (CAlias a i) (OBool false) here.
  Proof. go. Qed.
  Lemma go_unalias a : goes (CUnAlias a "") (OBool (bool_decide (is_Some (ali !! a)))) (MkView idx (delete a ali) 0 false).
  Proof. go. Qed.
  Lemma go_rename n m r : idx !! n = Some r ->
    goes (CRename n m) (OBool true) (MkView (delete n (<[m := r]> idx)) (map (renamed n m) <$> ali) 0 false).
  Proof. go. Qed.
  Lemma go_rename_none n m : idx !! n = None -> goes (CRename n m) (OBool false) here.
  Proof. go. Qed.
  Lemma go_drop n r : idx !! n = Some r ->
    goes (CDrop n) (OBool true) (MkView (delete n idx) (omap (drop_from n) ali) 0 false).
  Proof. go. Qed.
  Lemma go_drop_none n : idx !! n = None -> goes (CDrop n) (OBool false) here.
  Proof. go. Qed.
  Lemma go_has n : goes (CHas n) (OBool (bool_decide (is_Some (idx !! n)))) here.
  Proof. go. Qed.
  Lemma go_has_alias n : goes (CHasAlias n) (OBool (bool_decide (is_Some (ali !! n)))) here.
  Proof. go. Qed.
  Lemma go_search n r q e l : idx !! n = Some r -> search_docs ckn tk r q e = Ok l ->
    goes (CSearch n q e) (OResults l) here.
  Proof. intros H1 H2 HP Hp. cbn [passes_abs]. intros o Ho. us Ho. rewrite H1, H2 in Ho. eauto 8. Qed.
  Lemma go_search_alias n x r q e l : idx !! n = None -> ali !! n = Some [x] -> idx !! x = Some r ->
    search_docs ckn tk r q e = Ok l -> goes (CSearch n q e) (OResults l) here.
  Proof.
    intros H1 H2 H3 H4 HP Hp. cbn [passes_abs]. intros o Ho. us Ho. rewrite H1, H2 in Ho. unfold search_name in Ho.
    rewrite H3, H4 in Ho. eauto 8.
  Qed.
  Lemma go_search_two n x y r1 r2 q e l1 l2 : idx !! n = None -> ali !! n = Some [x; y] ->
    idx !! x = Some r1 -> idx !! y = Some r2 ->
    search_docs ckn tk r1 q e = Ok l1 -> search_docs ckn tk r2 q e = Ok l2 ->
    P (OResults (l1 ++ l2)) -> P (OResults (l2 ++ l1)) -> passes_abs ckn tk here p ->
    passes_abs ckn tk here ((CSearch n q e, P) :: p).
  Proof.
    intros H1 H2 H3 H4 H5 H6 HP1 HP2 Hp. cbn [passes_abs]. intros o Ho. us Ho. rewrite H1, H2 in Ho.
    unfold search_many, search_name in Ho. cbn [fmap list_fmap] in Ho. rewrite H3, H4, H5, H6 in Ho.
    destruct Ho as [(bs & bs' & E & Hb & ->)|[Hin _]].
    - destruct bs as [|b1 [|b2 [|b3 bs]]]; try discriminate E. injection E as <- <-.
      symmetry in Hb. apply Permutation_length_2_inv in Hb as [->| ->]; cbn [concat]; rewrite app_nil_r; eauto 8.
    - by repeat (apply elem_of_cons in Hin as [Hin|Hin]; [done|]); apply elem_of_nil in Hin.
  Qed.
End steps.

(** The test pipeline, computed on a given text. *)
Definition l1_plain (t : string) : list string :=
  map (fun t => str_bytes (ToLower l1_ToLower (bytes_str t)))
    (ct_Tokenize (NewKeepAlphanumericTokenizer l1_IsNumber l1_IsLetter) t).
Definition plain (t : string) : bool :=
  l1_text t && forallb l1_text (ct_Tokenize (NewKeepAlphanumericTokenizer l1_IsNumber l1_IsLetter) t).

Lemma plain_search IsNumber IsLetter ul ckn reqs q e l :
  latin1 IsNumber IsLetter ul -> opaque e -> forallb plain (q :: map req_statement reqs) = true ->
  search_docs ckn l1_plain reqs q e = Ok l ->
  search_docs ckn (test_pipeline IsNumber IsLetter ul) reqs q e = Ok l.
Proof.
  intros Hl He Ht <-. unfold search_docs. apply (C78_relabelling _ _ (fun t => t)); [done|..].
  - rewrite forallb_forall in Ht. intros x Hx. assert (Hp : plain x = true).
    { destruct Hx as [->|(r & Hr & ->)]; apply Ht; [by left|right]. apply in_map_iff. exists r. split; [done|]. by apply elem_of_list_In. }
    unfold plain in Hp. apply andb_true_iff in Hp as [H1 H2]. rewrite map_id. unfold test_pipeline, NewTokenizationPipeline, pipeline_Tokenize, l1_plain.
    cbn [fold_left]. rewrite (l1_tokenize _ _ _ _ Hl H1). unfold LowerCaseFilter. apply map_ext_in. intros y Hy. f_equal.
    eapply l1_lower; [done|]. rewrite forallb_forall in H2. by apply H2.
  - by intros x y t u _ _ _ _.
Qed.

Theorem C80_repo_tests :
  forall IsNumber IsLetter ul ckn srt p,
    latin1 IsNumber IsLetter ul -> sort_contract srt -> p ∈ repo_tests srt ->
    passes (newTestIndexRepo ckn IsNumber IsLetter ul) p.
Proof.
  intros IsNumber IsLetter ul ckn srt p Hl Hs Hp. eapply passes_intro; [apply tracks_new|].
  destruct C78_engines_opaque as (_ & O1 & _ & O2).
  assert (HH : forall reqs q l, forallb plain (q :: map req_statement reqs) = true ->
    search_docs ckn l1_plain reqs q (HitsSearch insertion_sort) = Ok l ->
    search_docs ckn (test_pipeline IsNumber IsLetter ul) reqs q (HitsSearch srt) = Ok l).
  { intros reqs q l H1 H2. unfold search_docs in *.
    rewrite (C05_order_determined _ _ insertion_sort) by (done || apply insertion_sort_contract).
    exact (plain_search _ _ _ _ _ _ _ _ Hl (O2 insertion_sort) H1 H2). }
  assert (HN : forall reqs q l, forallb plain (q :: map req_statement reqs) = true ->
    search_docs ckn l1_plain reqs q NoopAllSearch = Ok l ->
    search_docs ckn (test_pipeline IsNumber IsLetter ul) reqs q NoopAllSearch = Ok l).
  { intros reqs q l H1 H2. by eapply plain_search. }
  Ltac calc := vm_compute; reflexivity.
  Ltac srch := lazymatch goal with
    | HN : context [NoopAllSearch] |- search_docs _ _ _ _ NoopAllSearch = _ => eapply HN
    | HH : context [HitsSearch insertion_sort] |- search_docs _ _ _ _ (HitsSearch _) = _ => eapply HH
    end; [calc|match goal with ckn : bool |- _ => destruct ckn; calc end].
  Ltac fin := lazymatch goal with
    | |- any _ => exact I
    | |- ids (eq _) _ => eexists; split; [reflexivity|calc]
    | |- ids _ _ => eexists; split; [reflexivity|vm_compute; first [reflexivity|apply Permutation_swap]]
    | |- _ => calc
    end.
  Ltac st := cbv beta; lazymatch goal with
    | |- passes_abs _ _ _ [] => exact I
    | |- passes_abs _ _ _ ((CPut _ _, _) :: _) =>
        first [eapply go_put_new; [calc|calc|fin|]|eapply go_put_index; [calc|fin|]|eapply go_put_alias; [calc|calc|calc|fin|]]
    | |- passes_abs _ _ _ ((CAlias _ _, _) :: _) =>
        first [eapply go_alias; [calc|apply (bool_decide_unpack _); vm_compute; exact I|fin|]|eapply go_alias_none; [calc|fin|]]
    | |- passes_abs _ _ _ ((CUnAlias _ _, _) :: _) => eapply go_unalias; [fin|]
    | |- passes_abs _ _ _ ((CRename _ _, _) :: _) => first [eapply go_rename; [calc|fin|]|eapply go_rename_none; [calc|fin|]]
    | |- passes_abs _ _ _ ((CDrop _, _) :: _) => first [eapply go_drop; [calc|fin|]|eapply go_drop_none; [calc|fin|]]
    | |- passes_abs _ _ _ ((CHas _, _) :: _) => eapply go_has; [fin|]
    | |- passes_abs _ _ _ ((CHasAlias _, _) :: _) => eapply go_has_alias; [fin|]
    | |- passes_abs _ _ _ ((CSearch _ _ _, _) :: _) =>
        first [eapply go_search; [calc|srch|fin|]|eapply go_search_alias; [calc|calc|calc|srch|fin|]
              |eapply go_search_two; [calc|calc|calc|calc|srch|srch|fin|fin|]]
    end.
  unfold repo_tests, pulgar, naranjito, put, alias, new_view in *.
  repeat (apply elem_of_cons in Hp as [->|Hp]; [cbn [map app order_docs replicate fst snd]; repeat st|]).
  by apply elem_of_nil in Hp.
Qed.
Print Assumptions C80_repo_tests.

(** A wrong assertion does not pass. *)
Example C80_repo_example :
  length (repo_tests insertion_sort) = 14 /\
  ~ passes (newTestIndexRepo true l1_IsNumber l1_IsLetter l1_ToLower) [(CDrop "dedos", true_)].
Proof.
  split; [done|]. intros [[res Hres] H].
  assert (Hp : passes (newTestIndexRepo true l1_IsNumber l1_IsLetter l1_ToLower) [(CDrop "dedos", false_)]).
  { apply (C80_repo_tests _ _ _ _ insertion_sort); [by intros r _|apply insertion_sort_contract|].
    unfold repo_tests. do 11 right. left. }
  destruct Hp as [_ Hp]. destruct (H _ Hres) as (r & s' & E & H1 & _), (Hp _ Hres) as (r2 & s2 & E2 & H2 & _).
  rewrite E in E2. injection E2 as <- <-. unfold true_, false_ in *. congruence.
Qed.
