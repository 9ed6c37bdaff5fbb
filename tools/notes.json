{
 "C03": {
  "note": "General law proved; the unconditional AND reading is refuted by a concrete index."
 },
 "C05": {
  "note": "Proved for every sort meeting sort_contract. That ties follow document order is refuted."
 },
 "C10": {
  "note": "A concrete pair of IDs with equal 64-bit FNV-1 hash, checked by computation."
 },
 "C16": {
  "note": "LinearSearch fully; for HitsSearch repetition changes hits, refuted variant given."
 },
 "C18": {
  "note": "unicode.IsLetter/IsNumber are arbitrary predicates on runes; UTF-8 decoding modelled after Go 1.23."
 },
 "C21": {
  "note": "unicode.ToLower is an arbitrary function on runes; ASCII behaviour is a hypothesis where needed."
 },
 "C23": {
  "note": "Stem is an arbitrary function. That the flag removes stop words is refuted."
 },
 "C24": {
  "note": "Assumes of unicode.ToLower only its ASCII behaviour."
 },
 "C27": {
  "note": "RV equals the Snowball region when R1 is not nil; the unconditional claim is refuted."
 },
 "C33": {
  "note": "That every Put is stored somewhere is refuted."
 },
 "C34": {
  "note": "Shows the leak and what it blocks; 'UnAlias is harmless' is refuted."
 },
 "C37": {
  "note": "Every order of blocks is possible; determinism is refuted."
 },
 "C40": {
  "note": "Drop also removes unrelated empty aliases (refuted variant)."
 },
 "C42": {
  "note": "Documents the self-rename defect; that documents are kept is refuted."
 },
 "C47": {
  "note": "Rows change under Rename only; the snapshot reading is refuted."
 },
 "C48": {
  "note": "Without leaked locks; with a leak refuted."
 },
 "C49": {
  "note": "For pools without Rename+UnAlias and without duplicate alias entries; both exceptions are refuted by witnesses. On the index table and the indices there is no race whatever the calls (C49_no_race_on_indices)."
 },
 "C51": {
  "note": "A witness schedule loses a document."
 },
 "C52": {
  "note": "Without Rename∥UnAlias; with them a dangling alias, a panic and a crash are exhibited."
 },
 "C54": {
  "note": "easyjson v0.9.0 modelled after its published source; invalid UTF-8 is replaced (refuted variant)."
 },
 "C55": {
  "note": "easyjson v0.9.0 modelled after its published source; the reader accepts some texts that are not JSON. json.Valid is assumed to accept JSON nested at most 10000 deep, which is its limit; the theorems are about such texts."
 },
 "C62": {
  "note": "Current names are not shown after Rename (refuted variant)."
 },
 "C64": {
  "note": "Completeness needs ascending posting lists (refuted otherwise)."
 },
 "C65": {
  "note": "AND semantics needs posting lists without repetition (refuted otherwise)."
 },
 "C66": {
  "note": "The README's complexity claim for HitsSearch is refuted by the calls it makes."
 },
 "C58": {
  "note": "For pools of pairwise tolerant calls; C68 shows mixes outside it that are not serializable."
 },
 "C68": {
  "note": "Witness runs, each checked against every sequential order."
 },
 "C69": {
  "note": "Panics of caller-supplied code; which texts and names panic is arbitrary."
 },
 "C70": {
  "note": "Blocking for ever is also proved for pools of concurrent calls started afterwards."
 },
 "C74": {
  "note": "The calls are a fixed list, made before the engine computes its answer; names standing for several indices (goroutines) are excluded by `modelled`."
 },
 "C75": {
  "note": "As C74; the calls are made before the text is split."
 },
 "C76": {
  "note": "Deadlocks exhibited in every state with the index."
 },
 "C77": {
  "note": "Phases must start with no lock left behind; what Rename and UnAlias do to each other is in C49 and C52."
 },
 "C78": {
  "note": "Engines of the package only; an engine supplied by a caller may look at the tokens."
 },
 "C79": {
  "note": "HitsSearch: for IDs with different hashes."
 },
 "C80": {
  "note": "The stemmer of kljensen/snowball is a parameter; that it gives the words of the tests different stems is a hypothesis."
 },
 "C81": {
  "note": "easyjson's lexer is modelled after its published source; json.Valid is a parameter that accepts only JSON."
 },
 "C82": {
  "note": "easyjson's writer is modelled after its published source."
 },
 "C83": {
  "note": "Extends C58: C83_calm shows that its pools are covered; here a call may take effect at a step of another call."
 },
 "C84": {
  "note": "C84_reading_during_rename_refuted is the negative half: with Rename the claim is false."
 },
 "C85": {
  "note": "C85_clients and C85_death put C83's condition on the calls actually made; C85_programs on the calls the programs can make. C85_election_refuted shows a condition is needed."
 },
 "C86": {
  "note": "C86_refused_refuted shows that the condition on UnAlias is needed."
 },
 "C87": {
  "note": "C87_not_created_refuted shows that shared names must exist at the start. Unlike C85 the conditions do not mention the calls of other clients, and a client may change its own names as often as it likes."
 },
 "C88": {
  "note": "C88_empty_alias_refuted shows why UnAlias of a single index is excepted. Unlike C85 and C87 nothing is asked of how the other programs treat one another."
 },
 "C89": {
  "note": "C89_readme_space_refuted refutes the README's space complexity of LinearSearch; copies made by slices.Copy (outside the repository) are not counted."
 },
 "C90": {
  "note": "C90_linearizable under C83's condition; the other theorems for all calls. A tokenizer or builder panics depending on its argument only (Fault.v)."
 },
 "C91": {
  "note": "Assumed of the implementation (AnyIndex.v): the methods return (Search may panic), Search does not change the object, the results depend on the object and the arguments only, and the builder makes a new object each time. C91_serializable under the condition of C58."
 },
 "C92": {
  "note": "Calls issued one after the other; String is excluded (C92_String_shows_more), its text is C62."
 },
 "C93": {
  "note": "Runs in which an UnAlias of a single index fails are excluded (it leaves a lock behind): by tidy sections, by kept answers, or by whole_unalias."
 },
 "C94": {
  "note": "Pairs of calls only; with a third call that looks, more pairs get in each other's way (C68). Rename with UnAlias races (C49) and with ListAliases changes the rows already returned (C84), so these pairs are left out."
 },
 "C95": {
  "note": "Interleavings of single accesses (Bare.v), sequentially consistent; Go may also abort on concurrent map writes. Reading a posting list, and ranging over the map, is one step."
 },
 "C96": {
  "note": "Happens-before as in go.dev/ref/mem for mutexes, go statements and WaitGroups (SpecHb.v), over the interleavings of Sem.v. Accesses made by a step that crashes are covered by C96_next_ordered. C96_rename_refuted is the witness that Rename has to be excluded."
 },
 "C97": {
  "note": "Ints.v repeats the engines with wrapping increments; the other arithmetic of the index is len. C97_hits_refuted is the witness that the bound in C97_hits is needed."
 },
 "C98": {
  "note": "Iter.v runs the programs of Repo.v with loops that take one key per step, as the Go specification describes them, including that entries removed meanwhile need not be produced. If Rename and UnAlias run at once Go may abort the process; that case is C49's and left out here."
 },
 "C99": {
  "note": "Shared.v replaces the call of the builder, the only one being in Put. The objects are MemoryIndexes with one tokenizer and are only changed through the repo while it is in use; each name gets the same object at every call of the builder. The self-race and the loss of isolation are shown by witnesses (C99_put_race_refuted, C99_isolation_refuted)."
 }
}
