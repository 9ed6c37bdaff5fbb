{"id": "C01", "title": "LinearSearch returns exactly the documents containing every query token", "statement": "After any sequence of Put calls on a fresh MemoryIndex, Search(q, LinearSearch) does not panic and returns, in insertion order and once per Put, exactly those documents whose indexed statement tokenises to a list containing every token of q; each result carries the document's ID and raw content and Hits = number of query tokens; a query with no tokens returns nothing.", "quantifier": "every tokenizer, every Put sequence, every query string, both nil-conventions of slices.Copy", "why_tests_cant": "the set of documents/queries/token overlaps is unbounded; tests use a handful of documents", "anchors": ["search_linear_search.go:LinearSearch", "search_linear_search.go:intersection", "index_memory_index.go:MemoryIndex.Put", "index_memory_index.go:MemoryIndex.Search", "index_memory_index.go:MemoryIndex.Indexed"]}
{"id": "C02", "title": "HitsSearch implements the same AND semantics when document IDs are distinguishable", "statement": "If no two indexed documents share an ID (or an ID hash), Search(q, HitsSearch) does not panic and returns exactly the documents whose statement contains every query token, once each, each with Hits = number of query tokens, ordered by ID (bytewise ascending).", "quantifier": "every tokenizer, every Put sequence with pairwise distinct ID hashes, every query, every sort.Sort implementation meeting its contract", "why_tests_cant": "unbounded inputs; correctness depends on hash distinctness and on the sorting algorithm", "anchors": ["search_hits_search.go:HitsSearch", "entities_hash.go:Doc.Hash", "search_result.go:SearchResults.Less"]}
{"id": "C03", "title": "Exact behaviour of HitsSearch when IDs repeat or collide", "statement": "For any Put sequence, HitsSearch groups documents by ID hash: a document position is reported iff the total number of (query-token occurrence, document of the group containing it) pairs reaches the number of query tokens and is positive; the reported document is the first of the group met in token-major order and Hits is that total. In particular AND semantics fails: two same-ID documents that contain one token each are both reported for a two-token query.", "quantifier": "every index content, every query", "why_tests_cant": "needs all combinations of repeated IDs and token distributions", "anchors": ["search_hits_search.go:HitsSearch", "entities_hash.go:Doc.Hash"]}
{"id": "C04", "title": "HitsSearch and LinearSearch agree", "statement": "Whenever the indexed documents have pairwise distinct ID hashes, HitsSearch and LinearSearch return the same results up to order for every query (README: both implement AND logic).", "quantifier": "every index with distinct ID hashes, every query", "why_tests_cant": "equivalence of two algorithms over all inputs", "anchors": ["search_hits_search.go:HitsSearch", "search_linear_search.go:LinearSearch", "README.md:Search Algorithms"]}
{"id": "C05", "title": "HitsSearch result order is determined, independent of the sorting algorithm", "statement": "Results are ordered by Hits descending, then ID ascending; since documents with equal ID hash yield the same result value, every correct (even unstable) implementation of sort.Sort yields the same list, even when different IDs collide. The order for ties is by ID and not by document order as the README states.", "quantifier": "every index, query and every permutation-and-sort function satisfying the sort contract", "why_tests_cant": "sort.Sort is unstable; tests see one algorithm on tiny inputs", "anchors": ["search_hits_search.go:HitsSearch", "search_result.go:SearchResults.Less", "search_result.go:SearchResults.Swap"]}
{"id": "C06", "title": "The ordering used for ranking is a strict weak order", "statement": "SearchResults.Less is irreflexive, transitive and its incomparability is transitive (incomparable = same Hits and same ID), so sort.Sort's precondition holds on every slice.", "quantifier": "every triple of results", "why_tests_cant": "all triples", "anchors": ["search_result.go:SearchResults.Less"]}
{"id": "C07", "title": "Re-indexing an ID does not replace the document", "statement": "Putting a document whose ID is already indexed appends a second document: NoopAllSearch and LinearSearch report both versions; HitsSearch on a one-token query reports the oldest matching content once per Put of that ID, matching or not, with Hits = number of matching versions, never a newer content.", "quantifier": "every index history, every repeated ID, every content", "why_tests_cant": "all histories", "anchors": ["index_memory_index.go:MemoryIndex.Put", "search_hits_search.go:HitsSearch"]}
{"id": "C08", "title": "Doc.Hash is FNV-1 64 of the ID only", "statement": "Doc.Hash depends only on the ID, never on the content, equals the FNV-1 64-bit fold of its bytes and always fits in 64 bits.", "quantifier": "every document", "why_tests_cant": "all byte strings", "anchors": ["entities_hash.go:Doc.Hash"]}
{"id": "C09", "title": "IDs differing in one byte never collide", "statement": "Two IDs of equal length that differ in exactly one byte position always have different hashes; more generally appending a common suffix never makes two different hashes equal.", "quantifier": "every pair of byte strings", "why_tests_cant": "2^64 hash space", "anchors": ["entities_hash.go:Doc.Hash"]}
{"id": "C10", "title": "Hash collisions conflate distinct documents", "statement": "FNV-1 64 is not injective on IDs: there are short printable IDs with equal hash, and an index with two documents of such IDs makes HitsSearch report a document for a token pair that no document contains and drop the second document's identity.", "quantifier": "all IDs (existence of a colliding pair and its effect)", "why_tests_cant": "a test suite never meets a 64-bit collision by chance", "anchors": ["entities_hash.go:Doc.Hash", "search_hits_search.go:HitsSearch"]}
{"id": "C11", "title": "Inverted index is sound, complete, ascending and duplicate free", "statement": "After any Put sequence, the posting list of every token is exactly the strictly ascending list of positions of documents whose tokenised statement contains that token; every position is in range for Document; unknown tokens have no posting list.", "quantifier": "every tokenizer, every Put sequence, every token", "why_tests_cant": "unbounded history invariant", "anchors": ["index_memory_index.go:MemoryIndex.Put", "index_memory_index.go:MemoryIndex.Indexed", "index_memory_index.go:MemoryIndex.Document"]}
{"id": "C12", "title": "The document store is append only", "statement": "Len equals the number of Puts and Document(i) is the ID and raw content of the i-th Put, for ever, whatever is put later; Document(i) panics exactly when i is out of range.", "quantifier": "every Put sequence and index", "why_tests_cant": "history property", "anchors": ["index_memory_index.go:MemoryIndex.Put", "index_memory_index.go:MemoryIndex.Len", "index_memory_index.go:MemoryIndex.Document"]}
{"id": "C13", "title": "intersection computes the set intersection of ascending lists", "statement": "For strictly ascending inputs intersection(a,b) is the strictly ascending list of the elements in both; it is commutative; for arbitrary non-strict ascending inputs each value occurs min(count a, count b) times; it never indexes out of range for any input.", "quantifier": "every pair of integer slices", "why_tests_cant": "unbounded lists", "anchors": ["search_linear_search.go:intersection"]}
{"id": "C14", "title": "NoopAllSearch and NoopZeroSearch", "statement": "NoopAllSearch returns every document in insertion order with Hits 0 whatever the query, NoopZeroSearch returns nothing.", "quantifier": "every index, every query", "why_tests_cant": "all inputs", "anchors": ["search_noop_search.go:NoopAllSearch", "search_noop_search.go:NoopZeroSearch"]}
{"id": "C15", "title": "Monotonicity of LinearSearch", "statement": "A further Put never removes, changes or reorders earlier LinearSearch results: it appends at most one result, iff the new document matches. Adding tokens to a query never adds documents.", "quantifier": "every index, every Put, every query and extension", "why_tests_cant": "relational property over all pairs of inputs", "anchors": ["search_linear_search.go:LinearSearch", "index_memory_index.go:MemoryIndex.Put"]}
{"id": "C16", "title": "Query token order and repetition do not change the matching documents", "statement": "Permuting the query tokens leaves the LinearSearch result list unchanged; repeating tokens leaves the documents unchanged but Hits counts occurrences (so Hits is not the number of unique tokens for queries with repeats). The same holds for HitsSearch with distinct ID hashes.", "quantifier": "every index, all pairs of token lists", "why_tests_cant": "relational property", "anchors": ["search_linear_search.go:LinearSearch", "search_hits_search.go:HitsSearch"]}
{"id": "C17", "title": "Only the statement is searchable, only the raw content is returned", "statement": "A document is matched by the tokens of its Statement and reported with its Content; NewDocRequest and NewDocRequestWithMime use the content as statement, NewDocRequestWith a separate one, and a DocRequest built as a plain struct literal has an empty statement, so with the alphanumeric tokenizer it is never matched by LinearSearch or HitsSearch (only listed by NoopAllSearch). The MIME type changes no answer of any engine, and other contents leave the IDs, places and counts that HitsSearch reports as they are.", "quantifier": "every request, every index, every query", "why_tests_cant": "all inputs", "anchors": ["entities_request.go:NewDocRequest", "entities_request.go:NewDocRequestWith", "entities_request.go:NewDocRequestWithMime", "index_memory_index.go:MemoryIndex.Put"]}
{"id": "C18", "title": "Tokenizer splits into maximal runs of kept characters", "statement": "Tokenize(text) cuts the text into exactly the maximal runs of characters accepted by at least one registered predicate, in order: every token is non-empty, consists only of kept characters, and text is separators and tokens alternately; nothing kept is lost. This holds for malformed UTF-8 too, each malformed byte being treated as U+FFFD.", "quantifier": "every text (any byte string), every set of predicates", "why_tests_cant": "all byte strings", "anchors": ["analyze_clean_tokenizer.go:CleanTokenizer.Tokenize", "analyze_clean_tokenizer.go:NewCleanTokenizer", "analyze_clean_tokenizer.go:NewKeepAlphanumericTokenizer"]}
{"id": "C19", "title": "Tokenisation is stable under rejoining", "statement": "Joining the tokens with any separator character that no predicate keeps and tokenising again gives the same tokens; a tokenizer with no predicates returns no tokens.", "quantifier": "every text and predicate set", "why_tests_cant": "all byte strings", "anchors": ["analyze_clean_tokenizer.go:CleanTokenizer.Tokenize"]}
{"id": "C20", "title": "The pipeline is the left-to-right composition of its filters", "statement": "Tokenize of a pipeline applies the tokenizer and then the filters in the order given; concatenating filter lists composes; with no filters it is the tokenizer.", "quantifier": "every tokenizer, filter list and text", "why_tests_cant": "all inputs", "anchors": ["analyze_compose.go:TokenizationPipeline.Tokenize", "analyze_compose.go:NewTokenizationPipeline"]}
{"id": "C21", "title": "Lower-casing filter", "statement": "LowerCaseFilter maps tokens one to one in order without modifying its input; on ASCII tokens it changes exactly A-Z; it is idempotent whenever the Unicode lower-case mapping is.", "quantifier": "every token list (any bytes)", "why_tests_cant": "all byte strings", "anchors": ["analyze_lowercase_filter.go:LowerCaseFilter.Filter"]}
{"id": "C22", "title": "Stop-word filter removes exactly the stop words", "statement": "StopWordsFilter keeps exactly the tokens not in the set, in order with multiplicity; it is idempotent; in the README pipeline no token handed to the stemmer is a stop word; the entry 'por qué' can never match a token because it contains a space.", "quantifier": "every token list, every stop-word set, every text", "why_tests_cant": "all inputs", "anchors": ["analyze_stopwords_filter.go:StopWordsFilter.Filter", "analyze_stopwords_filter.go:SpanishStopWords"]}
{"id": "C23", "title": "The stemmer filter never drops or merges tokens", "statement": "SpanishStemmerFilter returns one stem per token in order, whatever removeStopWords is, so NewSpanishStemmer(true) removes no stop word and never changes the number of query tokens.", "quantifier": "every token list, both flag values, every stemming function", "why_tests_cant": "all inputs", "anchors": ["analyze_stem_filter.go:SpanishStemmerFilter.Filter", "analyze_stem_filter.go:NewSpanishStemmer"]}
{"id": "C24", "title": "Searches are insensitive to ASCII letter case under the lower-casing pipeline", "statement": "With the alphanumeric tokenizer and the lower-case filter, two ASCII query texts equal up to letter case give the same results on every index, and a document is found by the same queries whatever the letter case of its ASCII statement.", "quantifier": "every ASCII text pair equal up to case, every index, every engine", "why_tests_cant": "relational property over all texts", "anchors": ["analyze_lowercase_filter.go:LowerCaseFilter.Filter", "analyze_compose.go:TokenizationPipeline.Tokenize"]}
{"id": "C25", "title": "R1, R2 and RV are suffixes at character boundaries", "statement": "R1R2RV never panics on any byte string; R1 and RV are suffixes of the word, R2 is a suffix of R1, each starting at a character boundary, or nil.", "quantifier": "every byte string", "why_tests_cant": "all byte strings incl. malformed UTF-8", "anchors": ["stemmer_spanish_snowball.go:R1R2RV"]}
{"id": "C26", "title": "R1 and R2 are the Snowball regions", "statement": "R1 is the part of the word after the first non-vowel following a vowel (nil if that part is empty or there is no such non-vowel), and R2 the same region of R1.", "quantifier": "every byte string", "why_tests_cant": "all words", "anchors": ["stemmer_spanish_snowball.go:R1R2RV"]}
{"id": "C27", "title": "RV is the Snowball region exactly when R1 is not nil", "statement": "When R1 is non-nil, RV is the region the code comment defines (nil standing for the empty end of word). When R1 is nil, RV is nil even for words whose RV region is not empty, such as the Spanish words 'leía' and 'trío'.", "quantifier": "every byte string", "why_tests_cant": "all words", "anchors": ["stemmer_spanish_snowball.go:R1R2RV"]}
{"id": "C28", "title": "Repo: a Put is visible to every later Search of that name", "statement": "In every reachable unblocked state, after Put(n,d) returns with n not an alias, Has(n) is true and Search(n,q,LinearSearch) succeeds and reports d last iff d's statement contains every query token, and otherwise reports exactly what it reported before (nothing if n did not exist).", "quantifier": "every reachable repo state, name, document, query", "why_tests_cant": "all histories", "anchors": ["repos_repo.go:IndexRepo.Put", "repos_repo.go:IndexRepo.Search", "repos_repo.go:IndexRepo.Has"]}
{"id": "C29", "title": "Repo refines a map of document lists and a map of alias lists", "statement": "Every sequential history of API calls on NewIndexRepo gives the outputs of, and stays in correspondence with, a simple abstract machine: a finite map from index name to the list of put documents, a finite map from alias to list of index names, and two leaked-lock flags.", "quantifier": "every finite history of API calls, every map iteration order, goroutine order and append growth policy", "why_tests_cant": "all histories and all schedules", "anchors": ["repos_repo.go:IndexRepo"]}
{"id": "C30", "title": "Index isolation", "statement": "Put, Drop and Rename change the documents only of the indices they name (directly or through an alias): Search on any other index gives the same results before and after.", "quantifier": "every reachable state, every call, every unrelated index", "why_tests_cant": "frame property over all histories", "anchors": ["repos_repo.go:IndexRepo.Put", "repos_repo.go:IndexRepo.Drop", "repos_repo.go:IndexRepo.Rename"]}
{"id": "C31", "title": "Alias adds exactly one association, only to existing indices", "statement": "Alias(a,i) returns true iff i exists and a does not already list i; then a lists the previous indices followed by i and no other alias or index changes; otherwise nothing changes.", "quantifier": "every reachable state, all names", "why_tests_cant": "all histories", "anchors": ["repos_repo.go:IndexRepo.Alias", "repos_repo.go:IndexRepo.HasAlias", "repos_repo.go:IndexRepo.ListAliases"]}
{"id": "C32", "title": "UnAlias removes exactly the requested association when both exist", "statement": "UnAlias(a,\"\") removes a entirely and reports whether it existed; UnAlias(a,i) with i and a existing returns true and removes i from a's list, changing nothing else; it returns true even if a did not list i, and an alias whose last index is removed this way still exists (unlike after Drop).", "quantifier": "every reachable state, all names", "why_tests_cant": "all histories", "anchors": ["repos_repo.go:IndexRepo.UnAlias"]}
{"id": "C33", "title": "A Put through an emptied alias is silently discarded", "statement": "If alias a exists with no indices (reachable through UnAlias) and no index is called a, Put(a,d) returns normally and changes no index, Search(a,...) succeeds with no results, and no index named a is created.", "quantifier": "every reachable state with an empty alias", "why_tests_cant": "all histories", "anchors": ["repos_repo.go:IndexRepo.Put", "repos_repo.go:IndexRepo.UnAlias", "repos_repo.go:IndexRepo.getIndices"]}
{"id": "C34", "title": "UnAlias leaks a lock exactly when the index or the alias is missing", "statement": "UnAlias(a,i) with i non-empty returns false holding a lock for ever iff i does not exist (read lock on indices) or i exists and a does not (write lock on aliases). After the first kind every later Put, Rename of an existing index and Drop of an existing index blocks for ever; after the second every later HasAlias, ListAliases, Alias of an existing index, UnAlias and Drop of an existing index, and every Put or Search of a name that is not an index, blocks for ever.", "quantifier": "every reachable state, all later calls", "why_tests_cant": "a blocked call never returns, so a test cannot observe it", "anchors": ["repos_repo.go:IndexRepo.UnAlias", "repos_repo.go:IndexRepo.indicesMu", "repos_repo.go:IndexRepo.aliasesMu"]}
{"id": "C35", "title": "No call blocks unless an UnAlias leaked a lock", "statement": "In every history in which no UnAlias(a,i) was called with a missing index or alias, no call ever blocks and both locks are free between calls; the history may contain phases of calls made at once, among which UnAlias only removes whole aliases.", "quantifier": "every finite history without a leaking UnAlias", "why_tests_cant": "all histories", "anchors": ["repos_repo.go:IndexRepo"]}
{"id": "C36", "title": "Put through an alias writes once to every aliased index and nowhere else", "statement": "In every reachable state with alias a (no index called a) listing distinct existing indices, Put(a,d) appends d to each of them, to nothing else, and does not create an index called a; the result does not depend on the order in which the goroutines run.", "quantifier": "every reachable state, every goroutine order", "why_tests_cant": "schedules", "anchors": ["repos_repo.go:IndexRepo.Put", "repos_repo.go:IndexRepo.getIndices"]}
{"id": "C37", "title": "Search through an alias returns each aliased index's results as one block", "statement": "Under every interleaving of the per-index goroutines, Search(a,q,e) on an alias returns a concatenation, in some order, of exactly the blocks e produces on each listed index; every order of the blocks is possible, so the order is not deterministic when at least two different blocks are non-empty.", "quantifier": "every state, every goroutine schedule", "why_tests_cant": "schedules cannot be enumerated by tests", "anchors": ["repos_repo.go:IndexRepo.Search"]}
{"id": "C38", "title": "An index hides an alias of the same name", "statement": "If both an index and an alias are called n, Put(n,...) and Search(n,...) act on the index only.", "quantifier": "every reachable state", "why_tests_cant": "all histories", "anchors": ["repos_repo.go:IndexRepo.Search", "repos_repo.go:IndexRepo.getIndices"]}
{"id": "C39", "title": "Search of an unknown name fails and changes nothing", "statement": "Search(n,...) returns the error index with name 'n' does not exist iff n is neither index nor alias; no Search changes any index, alias or lock.", "quantifier": "every reachable state, all names, queries, engines", "why_tests_cant": "all histories", "anchors": ["repos_repo.go:IndexRepo.Search"]}
{"id": "C40", "title": "Drop removes the index and every reference to it", "statement": "Drop(i) returns true iff i exists; then i is gone, every alias list loses its occurrences of i keeping the order of the others, an alias left with an empty list disappears (also an unrelated one that UnAlias had already emptied), and all other indices and aliases are unchanged; Put(i,...) afterwards starts a new empty index.", "quantifier": "every reachable unblocked state", "why_tests_cant": "all histories", "anchors": ["repos_repo.go:IndexRepo.Drop"]}
{"id": "C41", "title": "Rename to a fresh name moves the index and its aliases", "statement": "Rename(old,new) returns true iff old exists. If new differs from old and does not exist, new then has exactly old's documents, old is gone, every alias lists new wherever it listed old, and everything else is unchanged.", "quantifier": "every reachable unblocked state", "why_tests_cant": "all histories", "anchors": ["repos_repo.go:IndexRepo.Rename"]}
{"id": "C42", "title": "Rename of an index to its own name destroys it", "statement": "Rename(x,x) on an existing index returns true and deletes x with all its documents, while aliases keep listing x; afterwards Search through an alias listing x panics and Put through it crashes the process.", "quantifier": "every reachable unblocked state", "why_tests_cant": "all states; the crash is not recoverable by a caller", "anchors": ["repos_repo.go:IndexRepo.Rename", "repos_repo.go:IndexRepo.Search", "repos_repo.go:IndexRepo.Put"]}
{"id": "C43", "title": "Rename onto an existing index overwrites it and can duplicate alias entries", "statement": "Rename(old,new) with new existing (and different) discards new's documents; an alias that listed both then lists new twice, so Search through it reports every result twice and Put through it stores the document twice.", "quantifier": "every reachable unblocked state", "why_tests_cant": "all states", "anchors": ["repos_repo.go:IndexRepo.Rename"]}
{"id": "C44", "title": "Aliases never dangle unless an index is renamed to itself", "statement": "In every history without a Rename(x,x) of an existing index, also one with phases of calls made at once, every index listed by an alias exists, so no Search or Put panics or crashes (with an engine that does not panic).", "quantifier": "every finite history without self-rename", "why_tests_cant": "unbounded histories", "anchors": ["repos_repo.go:IndexRepo.Drop", "repos_repo.go:IndexRepo.Rename", "repos_repo.go:IndexRepo.Alias"]}
{"id": "C45", "title": "Alias lists have no duplicates unless Rename overwrote an index", "statement": "In every history in which no Rename targets an existing name, no alias lists an index twice; the history may contain phases of calls made at once, without Rename.", "quantifier": "every finite such history", "why_tests_cant": "unbounded histories", "anchors": ["repos_repo.go:IndexRepo.Alias", "repos_repo.go:IndexRepo.Rename"]}
{"id": "C46", "title": "List, Has, HasAlias and ListAliases agree", "statement": "List returns every index name exactly once, n is in it iff Has(n); ListAliases has one row per alias, a has a row iff HasAlias(a), and the row shows the current list of indices.", "quantifier": "every reachable state, every map iteration order", "why_tests_cant": "all histories", "anchors": ["repos_repo.go:IndexRepo.List", "repos_repo.go:IndexRepo.Has", "repos_repo.go:IndexRepo.HasAlias", "repos_repo.go:IndexRepo.ListAliases"]}
{"id": "C47", "title": "ListAliases results are stable except under Rename", "statement": "The rows returned by ListAliases keep their contents through all later calls except Rename, made one by one or at once, for every append growth policy; Rename rewrites rows already returned to the caller in place.", "quantifier": "every reachable state, every later history, every growth policy", "why_tests_cant": "aliasing across all histories and capacities", "anchors": ["repos_repo.go:IndexRepo.ListAliases", "repos_repo.go:IndexRepo.Rename", "repos_repo.go:IndexRepo.Alias"]}
{"id": "C48", "title": "Lock order: no deadlock among concurrent calls without a leaked lock", "statement": "For any number of concurrent API calls under any interleaving with Go's writer-preferring RWMutex, as long as no finished call still holds a lock, some unfinished call can take a step.", "quantifier": "every pool of concurrent calls, every reachable interleaving", "why_tests_cant": "schedules", "anchors": ["repos_repo.go:IndexRepo"]}
{"id": "C49", "title": "Data-race freedom without the Rename/UnAlias combination", "statement": "In every reachable interleaving of concurrent calls that do not include both Rename and UnAlias, no two goroutines are about to perform conflicting unsynchronised accesses to the index map, the alias map, an alias list element or an index object (Puts through duplicate-free aliases). Rename concurrent with UnAlias does race.", "quantifier": "every pool of concurrent calls, every interleaving", "why_tests_cant": "race detectors only see executed schedules", "anchors": ["repos_repo.go:IndexRepo.Rename", "repos_repo.go:IndexRepo.UnAlias", "repos_repo.go:IndexRepo.aliasesMu"]}
{"id": "C50", "title": "Concurrent Puts to an existing index lose nothing", "statement": "If index n exists and no Drop or Rename runs, then under every interleaving of any number of Puts and other calls every Put(n,d) that has returned has d stored in n, and n ends with exactly the documents put.", "quantifier": "every number of concurrent calls, every interleaving", "why_tests_cant": "schedules", "anchors": ["repos_repo.go:IndexRepo.Put", "repos_repo.go:IndexRepo.getIndices"]}
{"id": "C51", "title": "Concurrent first Puts of the same name can lose a document", "statement": "Two concurrent Puts of an index that does not exist yet have an interleaving in which both return and only one document is stored.", "quantifier": "existence over interleavings, for every pair of documents", "why_tests_cant": "needs a specific schedule", "anchors": ["repos_repo.go:IndexRepo.Put"]}
{"id": "C52", "title": "Aliases never dangle under concurrency unless Rename and UnAlias both run", "statement": "In every interleaving of concurrent calls that do not include both Rename and UnAlias (and rename no index to itself), every alias lists existing indices only, no Search or Put hits a missing index and the process survives; with Rename concurrent to UnAlias there is an interleaving after which Search panics and one in which Put kills the process.", "quantifier": "every pool, every interleaving", "why_tests_cant": "schedules", "anchors": ["repos_repo.go:IndexRepo.UnAlias", "repos_repo.go:IndexRepo.Rename"]}
{"id": "C53", "title": "A search never sees half of a multi-index Put", "statement": "A Put through an alias is atomic with respect to Search: a concurrent Search through the same alias sees the document in all the indices the Put writes or in none.", "quantifier": "every interleaving", "why_tests_cant": "schedules", "anchors": ["repos_repo.go:IndexRepo.Put", "repos_repo.go:IndexRepo.Search"]}
{"id": "C54", "title": "JSON round trip of search results", "statement": "UnmarshalJSON of MarshalJSON of a SearchResult restores it for every result whose strings are valid UTF-8, whatever characters they contain; malformed bytes come back as U+FFFD.", "quantifier": "every SearchResult", "why_tests_cant": "all strings and integers", "anchors": ["search_result_easyjson.go:MarshalJSON", "search_result_easyjson.go:UnmarshalJSON"]}
{"id": "C55", "title": "JSON decoding ignores unknown fields and keeps values for null or absent fields", "statement": "Decoding an object sets exactly the known fields present with a non-null value, the last occurrence winning, and ignores all others in any order.", "quantifier": "every JSON object over known and unknown keys", "why_tests_cant": "all documents", "anchors": ["search_result_easyjson.go:easyjsonBb771ebaDecodeGithubComSoniricoVisigoth", "search_result_easyjson.go:easyjsonBb771ebaDecodeGithubComSoniricoVisigoth1"]}
{"id": "C56", "title": "A query made of stop words only finds nothing", "statement": "With the README pipeline (or any pipeline ending in the stop-word filter) a query all of whose tokens are stop words has no tokens left, so LinearSearch and HitsSearch return no result whatever the index holds, including documents that contain those words verbatim.", "quantifier": "every such query, every index content", "why_tests_cant": "all queries and contents", "anchors": ["analyze_stopwords_filter.go", "search_linear_search.go:LinearSearch", "search_hits_search.go:HitsSearch"]}
{"id": "C57", "title": "Concurrent calls behave like interleaved atomic sections", "statement": "As long as Rename and UnAlias do not both run, every interleaving of concurrent calls is indistinguishable from an interleaving of a small machine in which Has, HasAlias, List, ListAliases, String, Alias, Rename and Search are one atomic step each and Put, Drop and UnAlias are two (look up, then change): every finished call gets the same answer, the index table agrees whenever its lock is not held for writing, the alias table whenever neither lock is, and everything agrees at the end.", "quantifier": "every reachable starting state, every number of concurrent calls, every interleaving", "why_tests_cant": "all schedules of lock operations and memory accesses", "anchors": ["repos_repo.go:IndexRepo", "repos_repo.go:IndexRepo.Put", "repos_repo.go:IndexRepo.Drop", "repos_repo.go:IndexRepo.UnAlias"]}
{"id": "C58", "title": "Concurrent calls that tolerate each other are linearizable", "statement": "Suppose no call changes what a concurrent Put is aimed at (no Drop or Rename of its index, no change of its alias, no second first Put, Alias or Rename to its new name), no index is dropped or renamed away by two calls, and UnAlias and ListAliases do not run beside Rename. Then every interleaving is linearizable: each call takes effect at one of its own steps and answers as if the calls had been issued one after the other in that order; a finished run is equivalent to some sequential order of all the calls.", "quantifier": "every reachable starting state, every number of concurrent calls, every interleaving", "why_tests_cant": "all schedules", "anchors": ["repos_repo.go:IndexRepo", "repos_repo.go:IndexRepo.Put", "repos_repo.go:IndexRepo.Search"]}
{"id": "C59", "title": "Encoded search results are harmless text", "statement": "MarshalJSON always writes well-formed UTF-8 on one line, without control characters, '<', '>', '&', U+2028 or U+2029, whatever bytes the document's ID and content hold, malformed UTF-8 and markup included; so the text can be placed inside HTML, a script element or a line-based protocol.", "quantifier": "every SearchResult, with arbitrary byte strings and any integer", "why_tests_cant": "all byte strings", "anchors": ["search_result_easyjson.go:SearchResult.MarshalJSON", "search_result_easyjson.go:SearchResult.MarshalEasyJSON"]}
{"id": "C60", "title": "Decoding terminates on every input", "statement": "UnmarshalJSON returns on every byte string, JSON or not, after a number of loop iterations bounded by its length; in particular an unfinished or malformed text cannot keep it looping.", "quantifier": "every byte string, every previous value", "why_tests_cant": "all inputs, including malformed ones", "anchors": ["search_result_easyjson.go:SearchResult.UnmarshalJSON", "search_result_easyjson.go:SearchResult.UnmarshalEasyJSON"]}
{"id": "C61", "title": "The printed form of an index lists its postings", "statement": "MemoryIndex.String writes the index's name and then, one line each and in any order, exactly the tokens that occur in its documents, each with the number of documents containing it and their positions in ascending order. The text is for people only: two indices with different contents can print the same text.", "quantifier": "every tokenizer, every sequence of Puts, every map iteration order", "why_tests_cant": "all contents and all iteration orders", "anchors": ["index_memory_index.go:MemoryIndex.String"]}
{"id": "C62", "title": "The printed form of a repo shows every index, under the name it was created with", "statement": "IndexRepo.String changes nothing and writes the printed form of every index exactly once; each index appears with the documents put into it under the name it was first created with, so after Rename the text still shows the old name although List, Has and Search only know the new one.", "quantifier": "every sequence of calls on a new repo, every map iteration order", "why_tests_cant": "all call sequences", "anchors": ["repos_repo.go:IndexRepo.String", "repos_repo.go:IndexRepo.Rename"]}
{"id": "C63", "title": "Callers cannot damage an index through the slices it hands out", "statement": "However callers write into the slices they got from Indexed (elements or spare capacity), Indexed, Len, Document and every engine answer as if only the Puts had happened; conversely a later Put never changes a slice a caller holds, and no two calls of Indexed share an array.", "quantifier": "every interleaved sequence of Puts, Indexed calls and writes, every append growth policy, either nil convention of slices.Copy", "why_tests_cant": "aliasing depends on capacities and on all histories", "anchors": ["index_memory_index.go:MemoryIndex.Indexed", "index_memory_index.go:MemoryIndex.Put"]}
{"id": "C64", "title": "LinearSearch on any Indexer", "statement": "For an arbitrary implementation of Indexer, sorted or not, LinearSearch only picks positions listed under every query token, in the order of the first token's list and no more often than there, panics only if Document panics on such a position, and finds all of them when the lists are ascending; with unsorted lists it may miss documents listed under every token.", "quantifier": "every Indexer, every query", "why_tests_cant": "all implementations of the interface", "anchors": ["search_linear_search.go:LinearSearch", "search_search.go:Indexer"]}
{"id": "C65", "title": "HitsSearch on any Indexer", "statement": "For an arbitrary Indexer whose documents have distinct hashes and which lists only existing positions, HitsSearch returns exactly the documents listed at least as often as there are query tokens, Hits being that number; this is the AND semantics, in whatever order the lists are, if no list repeats a position, and is not if one does.", "quantifier": "every such Indexer, every query, every correct sort", "why_tests_cant": "all implementations of the interface", "anchors": ["search_hits_search.go:HitsSearch", "search_search.go:Indexer"]}
{"id": "C66", "title": "What the engines ask of the index", "statement": "LinearSearch looks tokens up in order, stops as soon as the result is empty, and then fetches the returned documents only: at most one call per token plus one per result. HitsSearch looks up every token, fetches every listed document and then every document of the index, so the README's O(T x D + R log R) is wrong: no function of tokens, postings and results bounds its cost. NoopZeroSearch never calls the index; NoopAllSearch fetches every document once, in order, and looks no token up.", "quantifier": "every Indexer, every query", "why_tests_cant": "a bound over all indices and queries", "anchors": ["search_linear_search.go:LinearSearch", "search_hits_search.go:HitsSearch", "search_noop_search.go:NoopAllSearch", "search_noop_search.go:NoopZeroSearch"]}
{"id": "C67", "title": "The cost of Put", "statement": "For each token of the new document Put walks over all earlier documents containing it (plus one step for a token met before), although the position looked for can only be the last; filling an index with n documents that share their only token therefore takes exactly n(n-1)/2 steps.", "quantifier": "every tokenizer, every history of Puts", "why_tests_cant": "an exact count over all histories", "anchors": ["index_memory_index.go:MemoryIndex.Put"]}
{"id": "C68", "title": "Concurrent calls that no sequential order explains", "statement": "Outside the mixes of C58 and C83, concurrent calls of the repo are not equivalent to the same calls issued one after the other in any order: two Drops of one index, or a Drop and a Rename of it, both report success; two first Puts of a name, or a first Put and a Rename to that name, lose documents; a Put racing with a Rename, Alias or UnAlias of its target disagrees with a concurrent Search; UnAlias and Rename both succeed and leave the association; UnAlias racing with a Drop reports success although index and alias never existed together; the rows returned by ListAliases show a later Rename but not an earlier Alias.", "quantifier": "there exist schedules, one per mix", "why_tests_cant": "needs one precise interleaving, and a check against every sequential order", "anchors": ["repos_repo.go:IndexRepo.Drop", "repos_repo.go:IndexRepo.Put", "repos_repo.go:IndexRepo.Rename", "repos_repo.go:IndexRepo.UnAlias", "repos_repo.go:IndexRepo.ListAliases"]}
{"id": "C69", "title": "Panicking tokenizers and builders: the repository follows a small machine", "statement": "With a tokenizer that panics on some texts and a builder that panics on some names (nil ones included), every call on every reachable repo returns, panics, kills the process or blocks exactly as a small abstract machine says, whose only additional state is whether the index table was left locked; if nothing panics it is the machine of C29.", "quantifier": "every set of bad texts and bad names, every sequence of calls with recovered panics, every map iteration order and goroutine schedule", "why_tests_cant": "all histories and all faults", "anchors": ["repos_repo.go:IndexRepo.Put", "repos_repo.go:IndexRepo.Search", "index_memory_index.go:MemoryIndex.Put", "index_memory_index.go:MemoryIndex.Search"]}
{"id": "C70", "title": "A panic during a first Put disables the repository", "statement": "If the builder or the tokenizer panics while Put creates an index, the lock of the index table is never released: an empty index may have appeared, and from then on List, Has, Alias, UnAlias of an index, Put, Search, Rename, Drop and String block for ever, also concurrently, while HasAlias, ListAliases and UnAlias(a, \"\") still answer. A Put of a bad text to an existing index or non-empty alias kills the process.", "quantifier": "every fault, every reachable repo, every later pool of calls and interleaving", "why_tests_cant": "for-ever blocking under all schedules", "anchors": ["repos_repo.go:IndexRepo.Put"]}
{"id": "C71", "title": "A panic during a Search is harmless unless several indices are searched", "statement": "A Search whose text makes the tokenizer panic passes the panic on to the caller, keeps no lock and changes nothing; through an alias of two or more indices it kills the process. Texts the tokenizer accepts are searched as if it never panicked.", "quantifier": "every fault, every reachable repo, every engine", "why_tests_cant": "all histories and all faults", "anchors": ["repos_repo.go:IndexRepo.Search", "index_memory_index.go:MemoryIndex.Search"]}
{"id": "C72", "title": "HitsSearch does not rank by relevance", "statement": "With IDs that HitsSearch can tell apart all results of a query have the same Hits (the number of query tokens), so the order is the order of the IDs and says nothing about how well a document matches; a result ranks above another one only if some ID was put twice or two IDs collide. The README's \"best matches first\" is false.", "quantifier": "every history of Puts, every query, tokenizer and sort", "why_tests_cant": "the claim is about all indices and all result lists", "anchors": ["search_hits_search.go:HitsSearch", "search_result.go:SearchResults.Less"]}
{"id": "C73", "title": "The program of the README does what it shows", "statement": "On a new repo with the README's pipeline the three Puts return and the Search for \"programación java\" returns the course on Java with 2 hits, plus, in ID order, those courses for whose words the stemmer yields the stem of \"java\"; it is the only result exactly if the stemmer tells these words apart.", "quantifier": "every stemmer, every unicode tables that are right on Latin-1, every sort, every execution of the repo", "why_tests_cant": "holds for any stemmer and any goroutine schedule", "anchors": ["README.md:main", "repos_repo.go:IndexRepo.Put", "repos_repo.go:IndexRepo.Search", "analyze_compose.go:TokenizationPipeline.Tokenize"]}
{"id": "C74", "title": "Engines that call the repository back", "statement": "A Search whose engine (or tokenizer) first calls the repo it is run by does what a small machine says: the calls see the index table held for reading. If they only look, the results and the repo are as without them; aliases made by them are kept; but if they put, rename, or drop an existing index the Search never returns.", "quantifier": "every sequence of calls made by the engine, every reachable repo, every index name or alias of one index, every map iteration order and goroutine schedule", "why_tests_cant": "all histories, all closures' call sequences", "anchors": ["repos_repo.go:IndexRepo.Search"]}
{"id": "C75", "title": "Tokenizers that call the repository back", "statement": "A Put whose tokenizer calls the repo hangs for ever as soon as one of these calls is not HasAlias, ListAliases or UnAlias of a whole alias; a tokenizer that only asks HasAlias and ListAliases does no harm.", "quantifier": "every sequence of calls made by the tokenizer, every unblocked reachable repo, new names, indices and aliases of one index", "why_tests_cant": "all histories, all closures' call sequences", "anchors": ["repos_repo.go:IndexRepo.Put", "index_memory_index.go:MemoryIndex.Put"]}
{"id": "C76", "title": "One closure that calls back can freeze the repository for everybody", "statement": "An engine that asks about an index (a second read lock on indicesMu) and a concurrent Put can deadlock; a single Search whose engine puts, or a single Put whose tokenizer asks about an index, is enough. In each of these states every call other than HasAlias, ListAliases and UnAlias of a whole alias is stuck as well.", "quantifier": "every reachable repo with the index, every such call, every engine; there exists a schedule", "why_tests_cant": "needs a precise interleaving of a recursive read lock with a waiting writer", "anchors": ["repos_repo.go:IndexRepo.Search", "repos_repo.go:IndexRepo.Put"]}
{"id": "C77", "title": "Guarantees resume once concurrent calls have returned", "statement": "When calls issued at once (Rename and UnAlias not both among them) have all returned or panicked, the repo is again in a state tracked by the abstract machine, so every sequential guarantee holds from there on; the state is that of a run of atomic sections, and of the same calls in some order if they tolerate each other. Documents put concurrently into an existing index are found by every later Search; of two concurrent first Puts one can be lost for good.", "quantifier": "every history, itself with concurrent phases; every such set of calls; every interleaving that ends", "why_tests_cant": "all interleavings followed by all later calls", "anchors": ["repos_repo.go:IndexRepo", "repos_repo.go:IndexRepo.Put", "repos_repo.go:IndexRepo.Search"]}
{"id": "C78", "title": "Searches only compare tokens", "statement": "Replacing all tokens of documents and query one-to-one by others changes no result, order or hit count of any engine; in particular a stemmer that tells all words apart might as well be left out of the pipeline, whatever it outputs.", "quantifier": "every history of Puts, query, engine of the package, tokenizer and one-to-one replacement", "why_tests_cant": "all replacements of tokens", "anchors": ["search_linear_search.go:LinearSearch", "search_hits_search.go:HitsSearch", "search_noop_search.go:NoopAllSearch", "index_memory_index.go:MemoryIndex.Search"]}
{"id": "C79", "title": "Filters that merge tokens never lose results", "statement": "Adding a filter that maps tokens to tokens (lower-casing, stemming) to the end of the pipeline keeps every result of LinearSearch and HitsSearch, with the same hits and, for LinearSearch, in the same order. Adding a stop-word filter keeps every document found, provided some word of the query is not a stop word; a query of stop words only then finds nothing, although it found documents before.", "quantifier": "every pipeline, filter, history of Puts and query", "why_tests_cant": "all pipelines, texts and queries", "anchors": ["analyze_compose.go:TokenizationPipeline.Tokenize", "analyze_lowercase_filter.go:NewLowerCaseTokenizer", "analyze_stopwords_filter.go:NewStopWordsFilter", "analyze_stem_filter.go:NewSpanishStemmer"]}
{"id": "C80", "title": "The project's own tests cannot fail by chance", "statement": "What the test files assert of intersection, R1R2RV, LinearSearch, HitsSearch, MemoryIndex and IndexRepo holds in every execution: for every map iteration order and goroutine schedule, every correct sort, every stemmer that gives the words of the tests different stems, and both engines where the tests try one; so no test is flaky.", "quantifier": "the scenarios of the five test files; every execution, stemmer and sort", "why_tests_cant": "a test run sees one schedule, one stemmer and one sort", "anchors": ["search_linear_search_test.go:TestLinearSearch", "search_hits_search_test.go:TestHitsSearch", "index_memory_index_test.go:TestIndex_Search_One", "repos_repo_test.go:newTestIndexRepo"]}
{"id": "C81", "title": "Exactly which texts are decoded", "statement": "UnmarshalJSON succeeds on exactly the texts of a small grammar, with exactly the result the grammar gives, and reports an error on all others. The grammar is JSON with these liberties: control characters may stand in strings unescaped, hits may have leading zeros, and in strings and numbers of unknown fields escapes are not checked and groups of digits may be missing. Whether a text is accepted does not depend on the variable it is read into.", "quantifier": "every byte string, every previous value, every json.Valid that accepts only JSON", "why_tests_cant": "all byte strings", "anchors": ["search_result_easyjson.go:SearchResult.UnmarshalJSON", "search_result_easyjson.go:easyjsonBb771ebaDecodeGithubComSoniricoVisigoth", "search_result_easyjson.go:easyjsonBb771ebaDecodeGithubComSoniricoVisigoth1"]}
{"id": "C82", "title": "Exactly which bytes are encoded", "statement": "MarshalJSON writes {\"doc\":{\"id\":\"...\",\"raw\":\"...\"},\"hits\":n} without spaces: n in decimal without leading zeros; of the strings, tab, newline, carriage return, quote and backslash as two-character escapes, other control characters, <, >, &, U+2028 and U+2029 as \\u and four lower-case digits, every byte that is not part of a character as \\ufffd, and all other characters unchanged.", "quantifier": "every SearchResult, with arbitrary byte strings and any 64-bit integer", "why_tests_cant": "all byte strings", "anchors": ["search_result_easyjson.go:SearchResult.MarshalJSON", "search_result_easyjson.go:easyjsonBb771ebaEncodeGithubComSoniricoVisigoth", "search_result_easyjson.go:easyjsonBb771ebaEncodeGithubComSoniricoVisigoth1"]}
{"id": "C83", "title": "Documents on their way to an index that goes", "statement": "A Put whose index is dropped, or overwritten by a Rename, between its lookup and its write (or whose alias loses indices to Drops, even all of them) behaves as if it had come just before the Drop or Rename: pools of such calls are linearizable, every call taking effect between its first and last step; if they kill the process, so do some of them issued one after the other. A Put and a Drop of the same index at once both report success and leave the index gone or holding the new document only.", "quantifier": "every reachable repo, every pool of calls in which nobody renames the index of a Put away, no two calls drop the same index, and no other call makes an index or alias of the name of a Put that may find it missing; every interleaving", "why_tests_cant": "needs the schedules in which a Drop falls between the two critical sections of a Put", "anchors": ["repos_repo.go:IndexRepo.Put", "repos_repo.go:IndexRepo.Drop", "repos_repo.go:IndexRepo.Rename"]}
{"id": "C84", "title": "Rows of ListAliases may be read without a lock, except during Rename", "statement": "ListAliases hands out the slices of the alias table themselves, and callers read them under no lock. As long as no Rename runs, no goroutine of any call is ever about to write an element such a row shows, in whatever state the calls are, and the rows keep showing what they showed when they were returned: rows returned before the running calls were issued as well as rows returned by one of them. A Rename of an index that some alias contains always comes to a moment at which it is about to write such an element, so a caller that reads then races with it.", "quantifier": "every reachable repo, every history without Rename since the rows were returned, every pool of calls without Rename, every interleaving and every state of it; for Rename, every execution", "why_tests_cant": "the reader is the caller's code, outside all locks; a race shows in few schedules only", "anchors": ["repos_repo.go:IndexRepo.ListAliases", "repos_repo.go:IndexRepo.Alias", "repos_repo.go:IndexRepo.Rename"]}
{"id": "C85", "title": "Programs that use the repo at once see what they would see taking turns", "statement": "Client programs, each making calls that may depend on the answers it got before, run at once. Whatever they have seen at any moment, they can also see if they take turns, one whole call at a time, against the abstract machine; between calls and while no call changes the tables the repo shows the very same state; and if they kill the process, they can do so taking turns. Conversely, whatever they can see taking turns they can see at once (String and UnAlias of a single index excepted), so the two are the same. Two programs that both drop the same index to elect one of them show that the conditions on the calls are needed: taking turns exactly one is told true, at once both can be.", "quantifier": "any number of client programs of any length and branching, every reachable repo, every interleaving and every state of it, provided the calls made fit C83's condition (or all calls the programs can make tolerate one another)", "why_tests_cant": "all programs and all interleavings", "anchors": ["repos_repo.go:IndexRepo"]}
{"id": "C86", "title": "Programs that use the repo at once come to an end", "statement": "Every run of client programs is finite. Unless an UnAlias of a single index returns false, no client ever waits for ever, and from every state all programs can run to their end, after which both locks are free (or the process dies); after such an UnAlias a client can wait for ever. If not both Rename and UnAlias are called the clients' calls do not race; if besides aliases list existing indices, no index is renamed to itself and the engines are those of the package, no client sees a panic and the process lives.", "quantifier": "any number of client programs of any length and branching, every repo with free locks (for panics: every reachable repo), every interleaving and every state of it", "why_tests_cant": "all programs and all interleavings", "anchors": ["repos_repo.go:IndexRepo"]}
{"id": "C87", "title": "Programs with names of their own do not get in each other's way", "statement": "Client programs that create, alias, rename and drop only names of their own, put documents only into those and into shared indices (or shared aliases) that exist at the start, and look at whatever they like, run at once as if they took turns; that each of them changes what its own names stand for over and over again does not matter. If they kill the process, they can do so taking turns. That shared names exist at the start is needed: of two programs that put into the same new name one may not find what it has put.", "quantifier": "any number of client programs of any length and branching, every assignment of names to clients, every reachable repo, every interleaving and every state of it, provided the calls made contain no Rename, or neither UnAlias nor ListAliases", "why_tests_cant": "all programs and all interleavings", "anchors": ["repos_repo.go:IndexRepo"]}
{"id": "C88", "title": "A program that keeps to its own names is not disturbed by others", "statement": "A client program that uses only names of a certain set (creating, filling, searching, aliasing, renaming and dropping them) among other programs that change nothing in that set, but otherwise do what they like and may well disturb one another, sees at any moment only what it could see if it ran alone; in the end its names stand for what they would stand for then; and its calls kill the process only if they could alone. UnAlias of a single index is excepted: it may leave an alias without indices, and then another program's Drop of an unrelated index takes the alias away, which the first program can see.", "quantifier": "any number of client programs of any length and branching, every set of names, every reachable repo whose aliases do not lead into or out of the set, every interleaving and every state of it, provided the calls made do not contain both Rename and UnAlias", "why_tests_cant": "all programs, of the others too, and all interleavings", "anchors": ["repos_repo.go:IndexRepo", "repos_repo.go:IndexRepo.Drop"]}
{"id": "C89", "title": "The cost of LinearSearch, and what the engines store", "statement": "intersection makes at least as many loop iterations as its shorter argument has elements and at most as many as both have together less the number of results, and never outgrows the slice it makes first. All intersections of one LinearSearch together make at most twice as many iterations as the tokens are listed with documents, so the README's time O(T x D + I) is right; its space O(I) is wrong, because every intersection reserves as many elements as its longer argument has, even when nothing is found. HitsSearch keeps an entry for every hash of a document that contains at least one token, not only for results.", "quantifier": "every pair of slices, sorted or not; every Indexer and query", "why_tests_cant": "all slices and indices; cost is not observable through results", "anchors": ["search_linear_search.go:intersection", "search_linear_search.go:LinearSearch", "search_hits_search.go:HitsSearch"]}
{"id": "C90", "title": "Concurrent calls whose tokenizer or builder panics", "statement": "If the tokenizer panics on some texts or the builder on some names, calls running at once do to the repo just what they would do otherwise, except that the Puts that panic stop half way: every state they reach the same calls reach without faults, with the same finished calls, so those are still linearizable; they do not race more; and the process dies only if it could anyway or some Put has a bad text. Once such a Put has panicked the index table is locked for ever: it keeps its contents and no call that asks for it goes on. Nothing else gets stuck: in the end every call has finished or asks for that table.", "quantifier": "every tokenizer and builder and every set of texts and names they panic on, every pool of calls, every interleaving and every state of it", "why_tests_cant": "needs faulty callbacks and all schedules; waiting for ever cannot be observed", "anchors": ["repos_repo.go:IndexRepo.Put", "repos_repo.go:IndexRepo.Search", "index_memory_index.go:MemoryIndex.Put"]}
{"id": "C91", "title": "The repo works the same with any implementation of Index", "statement": "Let the builder make objects of any kind whose methods return (Search may panic), Search leaving the object as it is. Then every call does what an abstract machine says in which an index is a new object of that kind, made for the name of the Put that created it, to which the documents have been put since; nothing that machine allows is impossible; calls that tolerate one another are serializable; calls never wait for each other (unless an UnAlias left a lock behind), no run of them is infinite, and they do not race on indices, nor at all unless both Rename and UnAlias are among them. With MemoryIndex and one tokenizer that machine is the one of C29; with a tokenizer chosen by name a renamed index keeps the tokenizer it was made with.", "quantifier": "every implementation of Index, deterministic or chosen by the name, every history of calls issued one after the other and, in phases, at once, every pool of calls and every interleaving of it", "why_tests_cant": "quantifies over implementations of an interface; tests have one", "anchors": ["index_index.go:Index", "index_index.go:Builder", "repos_repo.go:NewIndexRepo", "repos_repo.go:IndexRepo.Put", "repos_repo.go:IndexRepo.Search"]}
{"id": "C92", "title": "Exactly what a program can find out about a repo", "statement": "Two repos with the same tokenizer, each reached by any calls, can be told apart by some program that makes calls one after the other (and does not use String) exactly if they differ in the names of their indices, in the documents of some index, one by one in the order of the Puts (ID, content and set of tokens), in whether a lock of the index table was left behind, in whether that of the alias table was, or, if it was not, in the aliases. If some program can, then a single call can. So of a request Put keeps the ID, the content and the set of tokens and nothing else; dropped, overwritten and renamed indices leave no trace. String can tell more: it shows the name an index was created with.", "quantifier": "every tokenizer, all pairs of reachable repos, all programs and all engines", "why_tests_cant": "quantifies over all continuations of two histories", "anchors": ["repos_repo.go:IndexRepo", "index_memory_index.go:MemoryIndex", "entities_request.go:DocRequest"]}
{"id": "C93", "title": "Everything the machine of atomic sections can do happens", "statement": "C57 says that concurrent calls do only what a machine does in which every call is one or two atomic sections. Conversely, for every run of that machine whose sections leave no lock behind there is a schedule of the goroutines after which the same calls have returned, with the same answers, the others have not, the memory holds the same indices and aliases, and all locks are free; and if the machine can die so can the process. So the machine describes the possible outcomes (answers and memory together) exactly, and they depend on nothing but the documents, names and aliases at the start: repos with different histories behave the same, String excepted. For instance of two Puts with the same new name either can lose its document, whatever else the repo holds.", "quantifier": "every reachable repo with free locks, every list of calls and every run of the machine; for the other direction every interleaving of calls that do not contain both Rename and UnAlias", "why_tests_cant": "that something is possible needs a schedule found for each of infinitely many outcomes", "anchors": ["repos_repo.go:IndexRepo", "repos_repo.go:IndexRepo.Put"]}
{"id": "C94", "title": "Exactly which two calls get in each other's way", "statement": "Two calls issued at the same time, of which not one is Rename and the other UnAlias or ListAliases, always end as if one had been issued after the other, with two kinds of exceptions, and for each of these there is a schedule in which they do not: two calls that create the same index (two Puts, or a Put and a Rename to its name) and two that remove the same index (two Drops, or a Drop and a Rename). Creating means that at the start the name is neither an index nor an alias; removing, that the index exists; a Rename to the name of the Put is harmless if the renamed index holds a single document that no search tells from the one put. The two calls kill the process exactly if they can one after the other. (Any index that exists holds a document, so none is ever empty.)", "quantifier": "every reachable repo with free locks, all pairs of calls as above with all arguments, every interleaving", "why_tests_cant": "both directions quantify over all states: that no schedule of a pair is bad, and that a bad one exists", "anchors": ["repos_repo.go:IndexRepo.Put", "repos_repo.go:IndexRepo.Drop", "repos_repo.go:IndexRepo.Rename"]}
{"id": "C95", "title": "A MemoryIndex shared by goroutines", "statement": "MemoryIndex can be used without a repo, and then nothing locks it. Any number of goroutines that only search, print or read it do not race, each gets the answer it would get alone, and the index stays as it is. In a group of any calls a data race is possible exactly if it has a Put and another call that is a Put too, reads the documents (Len, Document, an engine that does so), or looks at the postings (Indexed, String, an engine that does so) while the text put has tokens; NoopZeroSearch is safe. Otherwise each call answers as if alone and the index ends as the one Put leaves it. The races do harm whatever the index holds: of two Puts either document can be lost; the words of one can be filed under the other, so that a search returns a document without the word and nothing ever finds the right one; and three Puts can leave an index in which searching for a word of one of them panics from then on.", "quantifier": "every index built by Puts and Indexed calls whose callers may write into what they got, every growth policy of append, all calls with all arguments and all engines, every interleaving of the memory accesses", "why_tests_cant": "the project's tests use an index from one goroutine; the outcomes need particular interleavings of single memory accesses", "anchors": ["index_memory_index.go:MemoryIndex.Put", "index_memory_index.go:MemoryIndex.Search", "index_memory_index.go:MemoryIndex.Indexed", "index_memory_index.go:MemoryIndex.Document", "index_memory_index.go:MemoryIndex.String"]}
{"id": "C96", "title": "Conflicting accesses are ordered by synchronisation", "statement": "In the terms of the Go memory model: of any two accesses to the same memory, one of them a write, that goroutines of concurrent calls make, one happens before the other (through the order within goroutines, Unlock before Lock, the go statements, Done and Wait, and transitivity). This holds for all calls if not both Rename and UnAlias are among them, except that a Put through an alias that lists an index twice writes that index from two goroutines; without Rename, if every alias lists distinct existing indices, it holds without exception; for the table of indices, the indices themselves and the results of a Search it holds (up to that Put) whatever the calls are. The converse for the rest: wherever two goroutines can come to be about to make conflicting accesses, some run makes them with nothing that orders them; UnAlias and Rename are a case.", "quantifier": "every list of calls, every start with free locks (and, for the claim without exception, every reachable one with proper aliases), every run, every pair of its accesses however far apart", "why_tests_cant": "the race detector sees the runs it is given; the claim is about every pair of accesses in every run", "anchors": ["repos_repo.go:IndexRepo.Put", "repos_repo.go:IndexRepo.Search", "repos_repo.go:IndexRepo.Alias", "repos_repo.go:IndexRepo.UnAlias", "repos_repo.go:IndexRepo.Drop", "repos_repo.go:IndexRepo.Rename"]}
{"id": "C97", "title": "Integers of the machine", "statement": "The properties above count with unbounded integers; Go's int has 32 or 64 bits and wraps around. What Go guarantees of the lengths of slices is enough for Put, NoopAllSearch and LinearSearch to do the same with any width, on any Indexer. HitsSearch counts, for all documents with one hash together, how often a query token is met, and compares that number, wrapped around, with the number of tokens: it does what C03 says if documents times tokens fits into an int, and what it does otherwise is determined exactly. In particular n documents with one ID and a query that repeats a word of theirs m times find nothing if n*m, wrapped around, is less than m: with 32 bits an ID put 1024 times and a query of 2^21 equal words.", "quantifier": "every width of at least 2 bits, all documents, queries, tokenizers, hash functions being FNV-1, every way of sorting; for LinearSearch and NoopAllSearch every Indexer", "why_tests_cant": "needs inputs of millions of words and a 32-bit platform; the absence of overflow quantifies over all inputs", "anchors": ["search_hits_search.go:HitsSearch", "search_linear_search.go:intersection", "search_linear_search.go:LinearSearch", "search_noop_search.go:NoopAllSearch", "index_memory_index.go:MemoryIndex.Put"]}
{"id": "C98", "title": "Ranging over the maps key by key", "statement": "A Go loop over a map takes its keys one by one, from the map as it is then. With such loops in List, ListAliases, String, Drop (which deletes and overwrites entries of the map it ranges over) and Rename, other calls running between any two of their steps, calls that do not include both Rename and UnAlias reach only repos that they reach if each loop learns all keys at its start, and they can end with exactly the same answers and repos and be killed by a panic exactly if they could then. So the properties stated for the simpler loops hold of these. A call within a loop is never held up and no run is infinite; a loop takes no key twice and can end exactly when every key the map then has was taken.", "quantifier": "every list of calls without both Rename and UnAlias, every start with free locks, every order of the keys, every interleaving", "why_tests_cant": "the runtime picks the order of keys; the claim is about every order and every schedule", "anchors": ["repos_repo.go:IndexRepo.List", "repos_repo.go:IndexRepo.ListAliases", "repos_repo.go:IndexRepo.String", "repos_repo.go:IndexRepo.Drop", "repos_repo.go:IndexRepo.Rename"]}
{"id": "C99", "title": "Builders that hand out objects they made before", "statement": "Nothing obliges a builder to make a new index at each call; let it hand out an object it made before for some names, chosen by the name, and a new MemoryIndex for the others. Then every call does what a machine says in which names stand for objects and objects hold documents. All calls but Put answer, and change what the names show, as in C29; a Put to a name adds the document to every name of its object and to no other; names of one object give the same answers to every search; a Put through an alias stores the document in an object once for each listed name that stands for it; dropping a name empties nothing, so if it is put to again its old documents are back. As long as no two names stand for one object and the objects handed out are empty, Put too is as in C29. Concurrent calls do not wait for each other nor race with each other more than with new objects, but a Put through an alias with two names of one object races with itself.", "quantifier": "every builder of that kind with any finite number of objects, filled beforehand or not, every tokenizer, every history of calls; for the concurrent part every list of calls, every state with free locks and every interleaving", "why_tests_cant": "quantifies over builders, histories and schedules; the project has one builder, which makes a new object each time", "anchors": ["index_index.go:Builder", "repos_repo.go:NewIndexRepo", "repos_repo.go:IndexRepo.Put", "repos_repo.go:IndexRepo.Drop", "repos_repo.go:IndexRepo.Rename", "repos_repo.go:IndexRepo.Search"]}
