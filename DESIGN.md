# Design: a Rocq (Coq 8.16.1) model of sonirico/visigoth

The Go code in `/repo` is read as text; nothing of it is built or run. The model
is made of small total Gallina definitions, each with a comment citing the file
and lines it models. The theorems that answer `properties.jsonl` are collected
in `rocq/theories/Properties_*.v`; `MANIFEST.json` maps each property to their
names.

## 1. Trusted base

1. Coq's kernel (8.16.1; `vcheck` also re-checks everything with `coqchk`).
2. Axioms: none. Every theorem named in `MANIFEST.json` is followed by
   `Print Assumptions` in its file, and every one of them prints *Closed under
   the global context*. No theorem uses functional extensionality, classical
   logic or any other library axiom. (`coqchk` on the whole library also lists
   the parameters of the module type `Under_rel` of `Coq.ssr.ssrunder`; they come
   with std++'s import of ssreflect and no theorem rests on them.)
3. That the definitions of section 3 mean what the Go text means. This is the
   part a reader has to check by eye. The mutation log (`seeded/LOG.jsonl`)
   records which wrong definitions the theorems would have noticed.
4. The reading of the statements: `properties.jsonl` against the theorem
   statements in `Properties_*.v` and the vocabulary of the `Spec*.v` files.
5. The assumptions about code outside `/repo` listed in section 4.

## 2. Layout

| files | role |
|---|---|
| `Entities Search Utf8 StopWords Analyze Stemmer Repo Sem Json Print Heap Trace Fault Reenter AnyIndex Bare Ints Iter Shared` | the model; no proofs |
| `SpecSearch SpecUtf8 SpecStemmer SpecRepo SpecConc SpecLin SpecHelp SpecClient SpecOwn SpecJson SpecAccept SpecFault SpecReenter SpecAny SpecLook SpecExact SpecPair SpecBare SpecHb SpecInts SpecShared Serial Race` | vocabulary of the statements; no proofs |
| `Proof*`, `RepoWp`, `Locks`, `Reduce` | proofs |
| `Run` | executes a given schedule; only used to exhibit interleavings |
| `Properties_*` | the theorems of `MANIFEST.json`, each with concrete instances (`Example`s) |

A theorem whose name ends in `_refuted` states that a natural-sounding stronger
claim is false, with a concrete program or input that breaks it.

## 3. What is modelled, file by file

| file of /repo | lines | model |
|---|---|---|
| `entities_doc.go`, `entities_request.go`, `entities_hash.go` | all (the `MimeType` constants as numbers) | `Entities.v` |
| `entities_common.go`, `stemmer_stem.go` | empty packages | nothing to model |
| `index_index.go`, `index_memory_index.go` | all | `Search.v` (immutable lists), `Heap.v` (backing arrays), `Trace.v` (`Put` and `intersection` counting their iterations), `Print.v` (`String`), `Bare.v` (one step per access, for goroutines without a repo) |
| `search_search.go` | interface `Indexer`, type `Engine` | `Search.v`; the `EngineType` constants have no behaviour |
| `search_noop_search.go`, `search_linear_search.go`, `search_hits_search.go` | all | `Search.v`; again in `Trace.v` as programs that call the `Indexer` one method at a time, and in `Ints.v` with integers that wrap around |
| `search_result.go` | all | `Entities.v`, `Search.v` |
| `search_result_easyjson.go` | all | `Json.v` |
| `analyze_*.go` | all; the stop-word table is transcribed mechanically | `Analyze.v`, `StopWords.v`, `Utf8.v` |
| `stemmer_spanish_snowball.go` | all, the stub `Stemmer.Stem` (it returns nil) included | `Stemmer.v` |
| `repos_repo.go` | all | `Repo.v` (text), `Sem.v` (meaning), `Fault.v` (when the tokenizer or builder panics), `Reenter.v` (when an engine or tokenizer calls the repo), `AnyIndex.v` (with any implementation of `Index`), `Shared.v` (with a builder that returns objects made before) |
| `*_test.go`, `README.md` | not modelled; used as a source of claims | |

### How Go is represented

| Go | model |
|----|-------|
| `string` | Coq `string`, a list of bytes; UTF-8 is decoded explicitly |
| `int` | `Z`, unbounded (lengths and counts), justified by C97, which has wrapping integers (`Ints.v`); JSON integers are range-checked to 64 bits |
| `uint64` (FNV) | `N` with explicit `mod 2^64` |
| slices that may be nil | `option (list _)` where nil is observable |
| alias lists, posting lists in `Heap.v` | (backing array, length, capacity) into a heap of arrays, because `ListAliases` leaks headers, `Rename` writes in place and `append` may or may not share |
| `map` | std++ `gmap`; an iteration is an arbitrary permutation of the keys |
| `Index` values in the repo | pointers into a heap of index objects; a missing key reads nil |
| panic | explicit outcome; a panic in a spawned goroutine ends the process |
| `sync.RWMutex` | readers, announced writer, writer inside (a waiting writer keeps new readers out) |
| goroutines + `WaitGroup` | fork/join node of the program tree |

The `IndexRepo` methods are written once, as program trees (`prog`): one node
per lock operation, map access, slice element access, allocation or call into
an index object. The tree has one step relation (`tstep`) used in two ways: one
call alone until it returns, panics, crashes or blocks (`call_result`,
`history`), and a pool of calls interleaved at every node (`pstep`).

### Simplifications, and why they are harmless or what they exclude

* Ranging over a map reads all its keys in one step (that loops taking one key at a
  time, `Iter.v`, do the same is C98). The loop bodies of the code
  only delete or overwrite the key just visited (`Drop`) or nothing (`Rename`
  writes elements, not entries), and the map is protected during the loop
  except for `Rename`, which ranges over `aliases` without `aliasesMu`; races of
  that loop are reported by C49, their consequences (Go may even abort with
  "concurrent map iteration and map write") are not explored beyond
  sequential consistency.
* `Bare.v`: reading a posting list (header and elements) is one step, as is ranging over
  the postings; a copy made by `Indexed` is a value. Every run of these steps
  is one of the finer steps, so the harmful runs of C95 are real; the calls proved
  harmless either write nothing or touch different halves of the index. Go may abort such programs with "concurrent map writes" instead.
* Every node is one atomic step and steps interleave in one order: sequential
  consistency. For race-free programs (C49 and C96 say which pools are) the Go memory
  model gives the same behaviours. For racy ones the witnesses only show what
  may happen at least.
* The model's `RWMutex` lets any waiting goroutine go first. Go's is fairer, so
  every behaviour of Go's mutex is one of the model's; safety results carry over,
  and the "never blocks for ever" results hold for the larger set. That something can
  happen (C93, the converse in C85) is shown by schedules in which every critical
  section runs while all locks are free, which every mutex allows.
* A tokenizer is a pure total function in the properties up to C68, engines are
  pure functions that may panic. C69-C71 add tokenizers and builders that panic:
  `faulty f` rewrites the program tree of a method, a bad Put inside goroutines being
  one goroutine that panics. C74-C76 add engines and tokenizers that call the repo
  they are run by (`Reenter.v`): a fixed list of calls, whose results they ignore,
  made before they do anything else, and only where a single index is searched or
  put to.
* `streams.MemReader` is a cursor over a slice: a search's stream is identified
  with the list of its results. `stream.Chan()` of the README is not modelled.
* The error of a failed Search is its message.
* Allocation failure and stack exhaustion are not modelled. Overflow of `int` is
  only modelled in the index and the engines (C97).
* `NewIndexRepo` is given a builder that makes a fresh `MemoryIndex`
  (`NewMemoryIndexBuilder`, the only one in the repository). `Shared.v` has builders
  that return objects made before, chosen by the name, from a finite stock (C99); a
  builder that answers differently to the same name is outside the model.

## 4. Assumptions about code outside /repo

Universally quantified parameters of the theorems, never axioms:

* tokenizer and filters supplied by the caller;
* `unicode.IsLetter`, `IsNumber`, `ToLower`: any functions on runes, with the
  ASCII behaviour as a hypothesis where a theorem needs it;
* `snowballSpanish.Stem`: any function on strings;
* `sort.Sort`: any function meeting `sort_contract` (permutes, and sorts if
  `Less` is a strict weak order, which C06 proves);
* `vago/slices.Copy(nil)`: nil or empty (`ckn`), both covered;
* `append`: any capacity at least the needed length;
* order of map iteration and of goroutines: any.

Fixed by definition, after published sources that are not in the sandbox:

* UTF-8 decoding/encoding, `strings.FieldsFunc`, `strings.Map`/`ToLower` of Go
  1.23 (`Utf8.v`);
* `hash/fnv.New64` (FNV-1) (`Entities.v`);
* easyjson v0.9.0 `jlexer`/`jwriter` (`Json.v`), with `encoding/json.Valid` as a
  parameter: where needed, it accepts JSON nested at most 10000 deep (C55) and
  nothing but JSON (C81), in the sense of the grammar of `SpecJson.v`;
* `fmt` verbs `%s`, `%d`, `%v` on `[]int`, `Sprintln` (`Print.v`).

## 5. How the properties are stated and proved

* C01-C17 (`Properties_Search.v`): everything is said about the list of requests
  put, in order (`SpecSearch.v`), not about the model's index. Invariant by
  induction over Puts, then exact results for the four engines. C05/C06: sorted
  permutations are unique. C09: an FNV-1 step is injective. C10: concrete
  64-bit collision, evaluated by the kernel. `Properties_Results.v` restates C01
  and C03 through the accessors of a result, as a caller reads them, and adds to
  C17 that the MIME type is ignored and that the ranking does not see the content.
* C18-C24, C56 (`Properties_Analyze.v`): splitting is specified on the characters
  of the text (`SpecUtf8.v`), by maximal runs.
* C25-C27 (`Properties_Stemmer.v`): regions specified on characters.
* C28-C47 (`Properties_Repo.v`): the abstract machine of `SpecRepo.v` (documents
  per index, names per alias, which locks have leaked) is refined by every call,
  for every history (C29), and exactly (every behaviour of the machine is a
  behaviour of the code).
* C48, C49 (`Properties_Conc.v`): lock discipline of the program trees, a measure
  that bounds every interleaving.
* C50-C53, C57, C58 (`Properties_Conc/Lin/Puts.v`): reduction of each call to one or
  two atomic sections (`SpecConc.v`), simulation of every interleaving by the
  machine with atomic sections, linearization points. C58 holds for pools of calls
  that pairwise tolerate each other (`tolerates` in `SpecLin.v`).
* C77 (`Properties_Phase.v`): a history (`tracks` in `SpecRepo.v`) may contain phases in
  which any calls ran at once; `ProofReach.v` restores the invariant at the end of a
  phase, so C28-C68 hold after such histories too. In restricted histories
  (C35, C44, C45, C47) a phase consists of calls that are allowed in every state.
* C84 (`Properties_Rows.v`): rows of `ListAliases` read under no lock. The sections of
  C57 also record which elements of alias lists they write (`WR` in `Reduce.v`).
* C68 (`Properties_Clash.v`): for the excluded mixes, concrete runs checked against
  every order of the calls by computation (`Serial.v`, proved sound). A Put
  beside a Drop of its target is covered by C83 (`SpecHelp.v`, `Properties_Help.v`): the
  Put takes effect just before the Drop. Its log of calls also explains the death of
  the process (C83_death).
* C85 (`SpecClient.v`, `Properties_Client.v`): client programs instead of fixed pools.
  The log of C83, for the calls made in the end, is replayed client by client.
  C86 (`Properties_Finish.v`): a run of clients is a run of the pool of all calls made,
  so C48, C49 and C52 carry over.
* C87 (`SpecOwn.v`, `Properties_Own.v`): clients that change only names of their own. A
  forward simulation from the atomic-section machine to clients taking turns
  (`ProofOwn.v`): a lookup stays valid because nobody else touches the name; a Put through
  an alias without indices takes effect at its lookup, a Search at its section with
  whichever answer it is going to give. C88 (`ProofFence.v`, `Properties_Fence.v`): one
  client alone, with the same bookkeeping (`ProofLink.v`); the sections of the others do
  not touch its names, and what a call does depends on them only.
* C78, C79 (`Properties_Filters.v`): the engines treat tokens as opaque keys; what a
  filter at the end of the pipeline does to results. C80 (`Properties_Tests.v`): the
  scenarios of all five test files of the project, for every execution.
* C54, C55, C59, C60 (`Properties_Json.v`): against the JSON grammar of
  `SpecJson.v`. C81, C82 (`Properties_Accept.v`): the accepted texts are exactly those
  of the looser grammar of `SpecAccept.v`, and the written bytes are given character
  by character.
* C61, C62 (`Properties_Print.v`), C63 (`Properties_Heap.v`), C64, C65
  (`Properties_Indexer.v`: any implementation of `Indexer`), C66, C67
  (`Properties_Trace.v`), C89 (`Properties_Cost.v`): loops with their iterations counted.
* C69-C71 (`Properties_Fault.v`): refinement of the machine of `SpecFault.v` by the
  rewritten programs, then consequences; for ever is proved for pools started in
  the locked state.
* C90 (`ProofStall.v`, `Properties_Stall.v`): the programs with faults, in any pool,
  follow the programs without (`stalled`), a struck Put remaining at the action that
  panicked; so C48, C49 and C83 carry over, and the lock discipline of `Locks.v` shows
  that a struck Put holds the index table and nothing else.
* C91 (`ProofAny.v`, `ProofAnySpec.v`, `Properties_Any.v`): an object of any
  implementation is simulated by a `MemoryIndex` without tokens whose documents record
  every Put (the name used and the document, written into one string), and a search by
  an engine that reads the record back and rebuilds the object. So C29, C48, C49 and
  C58 carry over. The record of a new index is empty between two steps of the Put that
  makes it; the lock discipline shows that nobody looks then.
* C92 (`SpecLook.v`, `ProofLook.v`, `Properties_Look.v`): `similar` is a bisimulation of
  the abstract machine, which C29 shows exact; List, Has, HasAlias, ListAliases, Rename
  and two searches per index tell views apart that are not similar.
* C93 (`SpecExact.v`, `ProofAlone.v`, `ProofNames.v`, `ProofWhole.v`, `Properties_Exact.v`):
  the proof of C57 shows what a section does when it is interrupted; run alone with
  the locks free it therefore ends as the machine says (`run_alone`). Reading sections
  can be made to give every order the machine allows; the other sections are
  deterministic up to the numbers of new objects, which the machine does not depend on
  (`ren`). Runs of the machine are first rearranged so that every section is entered and
  left at once.
* C94 (`SpecPair.v`, `ProofPair.v`, `Properties_Pair.v`): pairs that C83 does not cover are
  followed section by section in the machine of C57 (`turn`); sections that only change
  the tables commute with the writes to an object, which leaves few cases. C93 turns the
  bad runs of the machine into schedules.
* C95 (`Bare.v`, `SpecBare.v`, `ProofBare.v`, `Properties_Bare.v`): the methods of
  `MemoryIndex` with one step per access to memory. Readers leave the memory alone, so
  each of them runs as if alone; a Put without tokens and a reader of the postings keep to
  different halves of the index; the other pairs are driven to a race. That a Put run
  alone does what `h_Put` says (`C95_put_alone`), together with C49, justifies that the
  model of the repo treats a Put into an index object as one step.
* C96 (`SpecHb.v`, `ProofHb.v`, `Properties_Hb.v`): along a run, whoever made an access
  held a lock that protects the location; before another goroutine can hold it in a
  conflicting way the first must release it, and the release happens before the
  acquisition (`run_inv`). Children of a call borrow the locks of the caller, between
  the go statements and Wait. Inside a Search `rl` takes the place of the lock.
* C97 (`Ints.v`, `SpecInts.v`, `Properties_Ints.v`): loop counters stay below the length of a
  slice. The counts of HitsSearch are the unbounded ones wrapped around, because
  wrapping commutes with increments.
* C98 (`Iter.v`, `ProofIter.v`, `Properties_Iter.v`): the order in which a loop will take
  the keys is known only at its end, so a run with such loops is matched from its end
  backwards; the locks keep other calls from changing the keys, and the body of a loop
  changes only the key taken.
* C99 (`Shared.v`, `SpecShared.v`, `ProofShared.v`, `Properties_Shared.v`): the refinement of
  C29 with the invariant that names point to distinct objects left out; the locking
  discipline of a program does not depend on the builder (`disc_share`).
* C74-C76 (`Properties_Reenter.v`): the calls an engine makes run on a state whose
  index table has one reader more, so the refinement of C29 applies to them; while
  that reader is there no call changes the table (`calm` in `ProofReenter.v`).
* C72, C73 and the table theorem of C22 (`Properties_Readme.v`): consequences of C02
  and C29; the README's program is evaluated with the stemmer as a variable.

## 6. What the proofs found out about the code

* Where `int` has 32 bits, `HitsSearch` finds nothing for a query of 2^21 equal words if
  a matching ID was put 1024 times: the count of hits overflows (C97).
* `UnAlias` with an unknown index keeps `indicesMu` read-locked, with an unknown
  alias keeps `aliasesMu` write-locked (C34, C48).
* `Rename(x, x)` deletes the index (C42); `Rename` onto an existing index
  overwrites it and can duplicate alias entries (C43), after which a Put through
  the alias stores the document twice, from two racing goroutines (C49).
* `Rename` changes alias lists in place and without `aliasesMu`: rows obtained from
  `ListAliases` change under the caller (C47), and `Rename` with `UnAlias` can
  leave dangling aliases whose search panics or ends the process (C49, C52).
* `Put` does not defer its Unlock: a panicking tokenizer or builder during a first Put
  leaves `indicesMu` write-locked for ever (C70). In goroutines panics are not
  recovered: they end the process (C70, C71).
* Locks are held while caller-supplied code runs: engines or tokenizers that call the
  repo back can hang it for everybody (C74-C76).
* `UnAlias` may leave an empty alias; Puts through it vanish (C33). `Drop`
  removes such unrelated empty aliases (C40).
* Concurrent first Puts of a name can lose a document (C51). Drop, Rename, Put,
  Alias and UnAlias look a name up and act on it under separate lock acquisitions, so
  several mixes are not atomic (C68).
* `HitsSearch` identifies documents by the FNV-1 hash of their ID: repeated IDs
  and hash collisions break its AND semantics (C03, C07, C10), and it depends on
  repeated query tokens (C16). On other `Indexer`s it and `LinearSearch` need
  ascending, duplicate-free posting lists (C64, C65).
* All results of `HitsSearch` have equal hits unless an ID was put twice or collides, so
  there is no relevance ranking (C72).
* `HitsSearch` asks the index for every document it holds; the README's complexity
  claim is wrong (C66). `Put` is quadratic in the number of documents (C67). The
  README's space complexities are wrong too: `LinearSearch` reserves room for whole
  posting lists, `HitsSearch` keeps non-results (C89).
* `RV` is nil whenever R1 is (C27). The stemmer's `removeStopWords` parameter is
  passed to the library's `stemStopWords` and removes nothing (C23). Stop words of
  two words can never match a token (C22).
* `IndexRepo.String` shows the name an index was created with, not its current
  one (C62). The printed text does not determine the index (C61).
* JSON: invalid UTF-8 is replaced, so not everything is restored (C54); the
  reader accepts texts that are not JSON (C55; exactly which, C81).

## 7. What is not modelled

Weak-memory effects of racy executions; running time (only the numbers of calls
and loop iterations in C66, C67, C89); the Unicode tables; the snowball stemmer
itself; builders whose answer depends on more than the name, and implementations of
`Index` whose `Search` changes the object; `int` overflow outside the index and the engines; allocation failure;
`stream.Chan()`; what a caller sees that reads the rows of `ListAliases` while
`Rename` writes them (C84 shows that this is a race).

## 8. Mutation testing

`tools/mutate.py` applies one edit to one definition in a scratch copy, rebuilds,
replaces each proof that breaks by an admission to see how far the damage goes,
and reports which theorems of the manifest no longer check. `tools/mutlog.py`
turns that into `seeded/LOG.jsonl`. A theorem listed in `theorems_failed` is one
whose proof, or a proof it rests on, no longer goes through; that is evidence,
not proof, that its statement became false.
