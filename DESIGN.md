# Formal model of sqvect (cortexdb v2) in Rocq

## Method

The model lives in `rocq/theories` (logical name `Verif`). Each area has

* `XModel.v`  – Gallina transcription of the Go functions, every definition
  citing the file and lines in `/repo` it models and each simplification;
* `XSpec.v`   – (where the statement needs vocabulary of its own) a small
  specification that does not mention the model's helpers;
* `XProofs.v` – lemmas;
* `XProps.v`  – the property theorems only, each followed by an `Example`
  showing a concrete non-trivial case meeting its hypotheses, and by
  `Print Assumptions`.

General modelling choices

* Go error returns are values: `outcome A := Ok a | Err e | Panic`.  Index out
  of range, nil dereference, bad `make` are `Panic`.
* SQLite tables are lists of rows in rowid order. `INSERT OR REPLACE` removes
  the conflicting row and appends. A transaction is a function on the whole
  table; a crash inside it exposes the table before or after.
* Floats: `float32` values at rest are 32-bit patterns (`N < 2^32`).
  Computation is on `spec_float` of the standard library (IEEE-754 with NaN,
  signed zeros, infinities; axiom-free), where the claim is about bits or
  ordering; on `Q`/`R` where the claim is about exact arithmetic, and the
  theorem says so.  Similarity functions are arbitrary functions where the Go
  API lets the user supply them.
* `sort.Slice`/`sort.Sort` are not stable: they are an arbitrary function that
  returns a permutation sorted by the comparison (`sort_ok`), so theorems hold
  for every tie-breaking.  Hand-written exchange sorts are transcribed.
* Go map iteration order and random numbers are arbitrary inputs.
* Goroutines are steps of an explicit transition system.
* A claim that is false of the faithful model is refuted by a theorem
  `…_refuted` with a concrete witness, and the strongest true part is proved
  under the suffix `_partial`.

## Plan per property

| id | modelled | proof |
|----|----------|-------|
| C01 | EncodeVector/DecodeVector over byte lists | round trip by induction |
| C02 | same | totality, canonicity, injectivity |
| C03 | AdaptVector and helpers, float ops abstract | case analysis + length lemmas |
| C04 | truncateWithImportance incl. its exchange sorts | permutation/sortedness of exchange sort |
| C05 | bit packing loops of Encode/Decode | bit-level induction |
| C06 | Train/Encode/Decode arithmetic over Q | inequalities over Q |
| C07 | binary quantiser, HammingDistance, SearchBinary | bitwise induction; SearchBinary on mixed lengths refuted |
| C08 | PQ Encode/Decode/Serialize/Deserialize | argmin induction, byte round trip, truncated input panics (refuted) |
| C09–C12, C14 | store state machine: Upsert, UpsertBatch, Delete*, Clear*, collections | invariants and frame lemmas over op lists |
| C13 | DeleteBatch as a sequence of autocommit chunks with crash points | refuted; chunk atomicity partial |
| C15 | DeleteDocument with per-connection foreign-key flag | refuted for a second pooled connection; proved when enforced |
| C16 | Search linear path | top-k specification for any tie-break |
| C17 | SearchWithFilter | refuted; soundness and full-candidate case partial |
| C18 | index path: processCandidates/scoreCandidates for arbitrary index answers | soundness; doc filter refuted |
| C19 | store + index product machine | refuted (update, delete+reinsert); single-insert histories partial |
| C20 | snapshot/crash/reopen | refuted; clean close proved |
| C21, C22 | SearchWithACL WHERE clause with SQL precedence | soundness/completeness; collection leak refuted |
| C23 | HybridSearch fusion | RRF value theorem; collection leak refuted |
| C24, C25 | filter AST, SQL builder with three-valued logic, evaluator | agreement on a fragment; refuted for NOT/NE on missing |
| C26 | faceted WHERE builder and SQL precedence | refuted for OR; proved for AND-only |
| C27 | RangeSearch distance conversion | monotonicity refuted for cosine; exactness w.r.t. its own distance proved |
| C28 | MMR, distance, random diversification | selection/NoDup/separation |
| C29 | rerankers | permutation |
| C30 | CollectTopKFromStream | refuted for early exit and k=0; partial for the rest |
| C31 | composite ids, LIKE patterns | refuted by separator collision; partial for separator-free ids |
| C32 | aggregations | fold equations |
| C33, C34 | Dump/Load on records; JSONL loop with fuel | field round trip; ACL loss and non-termination refuted |
| C35 | GetSessionHistory | suffix characterisation |
| C36 | Go RWMutex transition system | recursive read lock deadlock refuted; progress for non-nested calls |
| C37, C38 | HNSW Insert/Delete/Search with random levels | invariant by induction over operations |
| C39 | InsertBatchParallel link structure | refuted |
| C40, C41 | IVF | exactness; deletion corruption refuted |
| C42 | FlatIndex | exactness; k<=0 panic refuted |
| C43 | LSH tables | invariant table = multimap of stored ids |
| C44 | multi-index merge, HybridIndex | merge spec; delete leak refuted |
| C45 | graph tables | invariant |
| C46, C47 | BFS traversals | loop invariant against inductive path relation |
| C48 | PageRank over Q | invariant per iteration; mass equality for no dangling |
| C49 | community detection, components | partition invariant |
| C50 | JSON export/import records | round trip |
| C51 | graph batches | accounting |
| C52–C54 | geo grid index | invariant; stale cell, pole refutations |
| C55, C56 | router | argmax; persisted id collapse refuted |
| C57, C58 | memory buckets, search filter | injectivity partial/refuted; expiry |
| C59, C60 | chunk splitter, context packer | list induction |
| C61, C62 | hindsight metadata/recall, auto-retain counter | refuted/partial; counter spec |
| C63 | similarity functions on spec_float and R | symmetry by induction; Cauchy–Schwarz |
| C64 | closed flag | case analysis over operations |
| C65 | Vector validation accepts exactly the usable vectors (EncodingModel) | full specification, by induction and invariants |
| C66 | Dimension analysis counts exactly and picks a most common dimension (DimensionModel) | full specification, by induction and invariants |
| C67 | Referential integrity (StoreModel) | witness by computation, the true part by induction and case analysis |
| C68 | HNSW keeps the nearest links (HnswModel) | witness by computation, the true part by induction and case analysis |
| C69 | Document records reflect every operation (DimensionModel, StoreModel) | full specification, by induction and invariants |
| C70 | Listing calls agree with the stored rows (DimensionModel, StoreModel) | full specification, by induction and invariants |
| C71 | Filtered search returns the best of the embeddings that satisfy the filter (FilterModel) | witness by computation, the true part by induction and case analysis |
| C72 | A successful DeleteByFilter leaves no matching embedding (FilterModel) | witness by computation, the true part by induction and case analysis |
| C73 | Faceted search returns the best of the embeddings that match the facets (FacetModel) | witness by computation, the true part by induction and case analysis |
| C74 | Facet counts are exact (FacetModel) | witness by computation, the true part by induction and case analysis |
| C75 | Search with negative examples and recommendations rank by exact contrast (DiversityModel) | full specification, by induction and invariants |
| C76 | Anomaly scores are mean distances to the nearest neighbours (DiversityModel) | full specification, by induction and invariants |
| C77 | Streaming search delivers exactly the matching embeddings (StreamModel) | witness by computation, the true part by induction and case analysis |
| C78 | Merged streams lose, duplicate and reorder nothing (StreamModel) | full specification, by induction and invariants |
| C79 | Accepted asynchronous updates are stored (IncIndexModel) | witness by computation, the true part by induction and case analysis |
| C80 | Search with pending updates returns the best of both (IncIndexModel) | witness by computation, the true part by induction and case analysis |
| C81 | Multi-vector search combines every field search (MultiVecModel) | witness by computation, the true part by induction and case analysis |
| C82 | Reading an entity returns what was written (MultiVecModel) | witness by computation, the true part by induction and case analysis |
| C83 | Chat calls succeed or change nothing (ChatModel) | full specification, by induction and invariants |
| C84 | Semantic search over chat messages is exact (ChatModel) | witness by computation, the true part by induction and case analysis |
| C85 | Keyword search over chat messages respects user and session (ChatModel) | full specification, by induction and invariants |
| C86 | Dumps contain exactly the stored embeddings and load reports add up (IoModel) | full specification, by induction and invariants |
| C87 | Dump and Load round trip (IoModel) | full specification, by induction and invariants |
| C88 | Exactly which concurrent calls can block each other (LockModel) | full specification, by induction and invariants |
| C89 | Every graph edge can be read back and followed (GraphModel) | witness by computation, the true part by induction and case analysis |
| C90 | A limited neighbour search returns the first neighbours of the unlimited one (GraphModel) | witness by computation, the true part by induction and case analysis |
| C91 | Subgraph is the induced subgraph (GraphModel) | full specification, by induction and invariants |
| C92 | Graph batches are atomic and leave the last accepted value of every id (StoreModel, GraphModel) | full specification, by induction and invariants |
| C93 | PageRank replaces unusable damping factors by the default (StoreModel, GraphModel, GraphAlgoModel) | witness by computation, the true part by induction and case analysis |
| C94 | Communities are determined by the graph (StoreModel, GraphModel, GraphAlgoModel) | witness by computation, the true part by induction and case analysis |
| C95 | Average degree and density are the correctly rounded quotients (StoreModel, GraphModel, GraphAlgoModel) | full specification, by induction and invariants |
| C96 | Predicted edges are the best missing ones (StoreModel, GraphModel, GraphAlgoModel) | full specification, by induction and invariants |
| C97 | JSON round trip of finite graphs (GraphExportModel) | full specification, by induction and invariants |
| C98 | Bounding-box search never misses a point, and is exact when moves delete first (GeoModel) | full specification, by induction and invariants |
| C99 | Radius search within its window of cells is exact (GeoModel) | full specification, by induction and invariants |
| C100 | Polygon search counts ray crossings (GeoModel) | full specification, by induction and invariants |
| C101 | Points can be read back (GeoModel) | full specification, by induction and invariants |
| C102 | A router without a store names the first route with the highest positive score (RouterModel) | full specification, by induction and invariants |
| C103 | The registered routes are those added and not removed (RouterModel) | full specification, by induction and invariants |
| C104 | Route names are unique (RouterModel) | witness by computation, the true part by induction and case analysis |
| C105 | A failing Add registers nothing (RouterModel, SparseModel) | witness by computation, the true part by induction and case analysis |
| C106 | Caching an embedder does not change its answers (SparseModel) | full specification, by induction and invariants |
| C107 | A sparse router names the first route with the highest positive cosine (SparseModel) | full specification, by induction and invariants |
| C108 | Fitting a sparse encoder counts documents (SparseModel) | full specification, by induction and invariants |
| C109 | A query equal to an utterance is routed by a sparse router (SparseModel) | witness by computation, the true part by induction and case analysis |
| C110 | TopTerms returns the k heaviest terms (SparseModel) | full specification, by induction and invariants |
| C111 | A hybrid router decides from its two halves (SparseModel) | full specification, by induction and invariants |
| C112 | A hybrid answer is about one route (SparseModel) | witness by computation, the true part by induction and case analysis |
| C113 | Function calls are made for matched routes with their arguments (SparseModel) | full specification, by induction and invariants |
| C114 | A complete function call has every required argument (SparseModel) | witness by computation, the true part by induction and case analysis |
| C115 | Memories are what successful calls left (MemModel) | full specification, by induction and invariants |
| C116 | Memory search stays in the addressed place (MemModel) | full specification, by induction and invariants |
| C117 | Semantic memory search is exact (MemModel) | full specification, by induction and invariants |
| C118 | Lexical memory search is exact (MemModel) | full specification, by induction and invariants |
| C119 | A memory lives for its time to live (MemModel) | witness by computation, the true part by induction and case analysis |
| C120 | Reranking is the documented greedy trade-off (RagModel) | full specification, by induction and invariants |
| C121 | GraphRAG search returns exactly the chunks its seeds lead to (RagModel) | full specification, by induction and invariants |
| C122 | GraphRAG search fails exactly when the graph does (RagModel) | full specification, by induction and invariants |
| C123 | Chunk ids are distinct (RagModel) | full specification, by induction and invariants |
| C124 | Re-ingesting replaces a document (RagModel) | witness by computation, the true part by induction and case analysis |
| C125 | Different entities are different nodes (RagModel) | witness by computation, the true part by induction and case analysis |
| C126 | Reranking can be switched off (RagModel) | witness by computation, the true part by induction and case analysis |
| C127 | Recall fuses the enabled strategies (HindModel) | full specification, by induction and invariants |
| C128 | A failing reranker never loses results (HindModel) | full specification, by induction and invariants |
| C129 | A recalled memory is the memory retained (HindModel) | witness by computation, the true part by induction and case analysis |
| C130 | A retained memory stays (HindModel) | full specification, by induction and invariants |
| C131 | Recall finds a bank's memories (HindModel) | witness by computation, the true part by induction and case analysis |
| C132 | Reflect keeps to the token budget and shows what was recalled (HindModel) | full specification, by induction and invariants |
| C133 | Observation confidence is between 0.1 and 1 (HindModel) | full specification, by induction and invariants |
| C134 | RetainFromText counts are exact (HindModel) | full specification, by induction and invariants |
| C135 | Observations keep their provenance (HindModel) | witness by computation |
| C136 | A created bank is returned until it is deleted (HindModel) | full specification, by induction and invariants |
| C137 | The configured collection is used (HindModel) | witness by computation, the true part by induction and case analysis |
| C138 | Temporal recall keeps to the time range (HindModel) | full specification, by induction and invariants |
| C139 | Temporal and entity recall find every match (HindModel) | witness by computation, the true part by induction and case analysis |
| C140 | A fact without a type is a world fact (HindModel) | witness by computation, the true part by induction and case analysis |
| C141 | A created bank survives a restart (HindModel) | witness by computation, the true part by induction and case analysis |
| C142 | Deleting a bank removes its memories (HindModel) | witness by computation |
| C143 | Auto-retain fires at every TriggerEvery-th counted message (HindModel) | full specification, by induction and invariants |
| C144 | Results of the graph's vector index are current nodes with their true scores (GraphHnswModel) | full specification, by induction and invariants |
| C145 | The graph's vector index answers when there is anything to answer (GraphHnswModel) | full specification, by induction and invariants |
| C146 | The graph's vector index finds every node (GraphHnswModel) | witness by computation, the true part by induction and case analysis |
| C147 | Hybrid search scores every candidate as documented and returns the best (GraphHnswModel) | full specification, by induction and invariants |
| C148 | The edge weight counts for every hybrid result (GraphHnswModel) | witness by computation, the true part by induction and case analysis |
| C149 | Enabling the graph's index does not change what hybrid search finds (GraphHnswModel) | witness by computation, the true part by induction and case analysis |
| C150 | Vector search around a node ranks exactly its neighbourhood (GraphHnswModel) | full specification, by induction and invariants |
| C151 | A limit keeps the most similar nodes of the neighbourhood (GraphHnswModel) | witness by computation, the true part by induction and case analysis |
| C152 | Nodes similar to a node are exactly the best of the others (GraphHnswModel) | full specification, by induction and invariants |
| C153 | Index search weighted with closeness uses the nearest centre (GraphHnswModel) | full specification, by induction and invariants |
| C154 | The queries a text search runs (ToolTextModel) | full specification, by induction and invariants |
| C155 | Merged text candidates are the best found (ToolTextModel) | full specification, by induction and invariants |
| C156 | A text search without a limit uses the default (ToolTextModel) | witness by computation |
| C157 | Word-count vectors (ToolTextModel) | full specification, by induction and invariants |
| C158 | Texts with different word counts get different vectors when no hashes collide (ToolTextModel) | witness by computation, the true part by induction and case analysis |
| C159 | Entities written are exactly those asked for (ToolGraphModel) | full specification, by induction and invariants |
| C160 | A failed or incomplete entity write is visible as such (ToolGraphModel) | witness by computation, the true part by induction and case analysis |
| C161 | Relations written are exactly those asked for (ToolGraphModel) | full specification, by induction and invariants |
| C162 | Writing a relation again changes nothing (ToolGraphModel) | witness by computation, the true part by induction and case analysis |
| C163 | Chunks by entity are counted and ranked exactly (ToolGraphModel) | full specification, by induction and invariants |
| C164 | Every chunk linked to an entity is found (ToolGraphModel) | witness by computation, the true part by induction and case analysis |
| C165 | Expanding returns exactly the surrounding graph (ToolGraphModel) | full specification, by induction and invariants |
| C166 | Chunks are read in order and the context keeps its limits (ToolGraphModel) | full specification, by induction and invariants |
| C167 | Reading knowledge (KnowModel) | full specification, by induction and invariants |
| C168 | Deleting knowledge (KnowModel) | full specification, by induction and invariants |
| C169 | Deleting knowledge leaves nothing of it (DimensionModel, SearchModel, RagModel) | witness by computation, the true part by induction and case analysis |
| C170 | Saving knowledge (KnowModel) | full specification, by induction and invariants |
| C171 | Replacing knowledge is all or nothing (DimensionModel, SearchModel, RagModel) | witness by computation, the true part by induction and case analysis |
| C172 | Updating knowledge (KnowModel) | full specification, by induction and invariants |
| C173 | Updating keeps what was not asked to change (DimensionModel, SearchModel, RagModel) | witness by computation, the true part by induction and case analysis |
| C174 | Saving knowledge spares other knowledge (KnowModel) | full specification, by induction and invariants |
| C175 | Knowledge search hits (KnowModel) | full specification, by induction and invariants |
| C176 | A lost document does not fail a knowledge search (KnowModel) | witness by computation, the true part by induction and case analysis |
| C177 | A filter text means what it says (ParseModel) | full specification, by induction and invariants |
| C178 | A list of values in a filter text (ParseModel) | full specification, by induction and invariants |
| C179 | Ranges in a filter text (ParseModel) | witness by computation, the true part by induction and case analysis |
| C180 | No filter text crashes the program (ParseModel) | witness by computation, the true part by induction and case analysis |
| C181 | Parentheses in a filter text group (ParseModel) | witness by computation, the true part by induction and case analysis |
| C182 | Every operator of the table works, and quotes protect a value (ParseModel) | witness by computation, the true part by induction and case analysis |
| C183 | InsertText stores the text under its id (TextApiModel) | full specification, by induction and invariants |
| C184 | InsertTextBatch stores all texts or none (TextApiModel) | witness by computation, the true part by induction and case analysis |
| C185 | Text-only search returns the best matches in order (TextApiModel) | full specification, by induction and invariants |
| C186 | Text-only search honours collection and threshold (TextApiModel) | witness by computation, the true part by induction and case analysis |
| C187 | Text search is vector search for the text's vector (TextApiModel) | full specification, by induction and invariants |
| C188 | Empty texts are refused (TextApiModel) | witness by computation, the true part by induction and case analysis |
| C189 | Training the IVF index changes no data and succeeds exactly when it can (TrainModel) | full specification, by induction and invariants |
| C190 | A search after training is exact when the index is asked for enough (TrainModel) | full specification, by induction and invariants |
| C191 | Before any successful training an IVF store searches exhaustively (TrainModel) | full specification, by induction and invariants |
| C192 | A failed training leaves searches as they were (TrainModel) | witness by computation, the true part by induction and case analysis |
| C193 | Deleting an embedding from a trained store keeps searches working (TrainModel) | witness by computation, the true part by induction and case analysis |
| C194 | Lexical GraphRAG search answers exactly the reranked candidates (LexRagModel) | full specification, by induction and invariants |
| C195 | Lexical GraphRAG search is determined by the stored data (LexRagModel) | witness by computation, the true part by induction and case analysis |
| C196 | A graph written as GraphML and read back keeps nodes, edges and six decimals of each weight (GraphXmlModel) | full specification, by induction and invariants |
| C197 | A graph written as GEXF and read back keeps nodes, edges and weights (GraphXmlModel) | full specification, by induction and invariants |
| C198 | A graph written as GraphML or GEXF and read back is the graph that was written (GraphXmlModel) | witness by computation |
| C199 | What an export wrote is recognised by format detection (GraphXmlModel) | full specification, by induction and invariants |
| C200 | Format detection names the format of a document and leaves it to be imported (GraphXmlModel) | witness by computation |
| C201 | Quantised index stays close to the data (QStoreModel) | full specification, by induction and invariants |
| C202 | Quantised index after single inserts (QStoreModel) | witness by computation, the true part by induction and case analysis |
| C203 | Training again keeps what is indexed (QStoreModel) | witness by computation |
| C204 | Training learns from what is stored (QStoreModel) | full specification, by induction and invariants |
| C205 | Exporting and importing the index restores it (SnapModel) | full specification, by induction and invariants |
| C206 | IVF index comes back from its file (SnapModel) | full specification, by induction and invariants |
| C207 | Incomplete index files are reported (SnapModel) | full specification, by induction and invariants |
| C208 | Failed import leaves the index usable (SnapModel) | witness by computation |
| C209 | Successful import is used (SnapModel) | witness by computation, the true part by induction and case analysis |
| C210 | Failed export keeps the file (SnapModel) | witness by computation |
| C211 | Refused index calls change nothing (SnapModel) | full specification, by induction and invariants |
| C212 | Reopening keeps the quantised index (QStoreModel) | full specification, by induction and invariants |
| C213 | Reopening with another configuration keeps searches meaningful (QStoreModel) | witness by computation |
| C214 | A database file can always be opened again (StartModel) | full specification, by induction and invariants |
| C215 | A saved HNSW index survives any number of sessions (StartModel) | full specification, by induction and invariants |
| C216 | A saved IVF index survives any number of sessions, and the configuration is respected (StartModel) | witness by computation, the true part by induction and case analysis |
| C217 | A missing or damaged snapshot leads to a correct index (StartModel) | witness by computation, the true part by induction and case analysis |
| C218 | After proper closings a session finds what is stored (StartModel) | witness by computation, the true part by induction and case analysis |
| C219 | Interrupting the saving of the index does no harm (QStoreModel) | witness by computation, the true part by induction and case analysis |
| C220 | Log lines are whole and in order (LogModel) | witness by computation, the true part by induction and case analysis |
| C221 | A log line shows what was logged (LogModel) | witness by computation, the true part by induction and case analysis |
| C222 | Errors keep their kind and text (ErrModel) | full specification, by induction and invariants |
| C223 | A failing embedder is reported as such, with its cause (ErrModel) | witness by computation, the true part by induction and case analysis |
| C224 | The tools are the same by either way (McpModel) | witness by computation, the true part by induction and case analysis |
| C225 | Changing the dimension policy takes effect (AdaptModel) | witness by computation, the true part by induction and case analysis |
| C226 | Close leaves the current index on disk (AutoModel) | witness by computation, the true part by induction and case analysis |
| C227 | Nothing is saved after Close, and periodic saving ends (AutoModel) | full specification, by induction and invariants |
| C228 | The settings of automatic saving are obeyed (AutoModel) | witness by computation, the true part by induction and case analysis |
| C229 | Backup writes exactly the named file (BackupModel) | witness by computation, the true part by induction and case analysis |
| C230 | Whole-number arguments (ArgModel) | witness by computation, the true part by induction and case analysis |
| C231 | Boolean and list arguments (ArgModel) | full specification, by induction and invariants |
| C232 | Where an argument comes from (ArgModel) | witness by computation, the true part by induction and case analysis |
| C233 | Required parameters of a built schema (ArgModel) | witness by computation, the true part by induction and case analysis |
| C234 | Patterns found by reflection (ObserveModel) | witness by computation, the true part by induction and case analysis |
| C235 | Generalisations found by reflection (ObserveModel) | witness by computation, the true part by induction and case analysis |
| C236 | Observations that are stored (ObserveModel) | witness by computation, the true part by induction and case analysis |
| C237 | Text of a reflection (ReflectTextModel) | witness by computation, the true part by induction and case analysis |
| C238 | Compression ratio (RatioModel) | witness by computation, the true part by induction and case analysis |
| C239 | Mock embedder (MockModel) | witness by computation, the true part by induction and case analysis |

## Trusted base

* The kernel of Coq 8.16.1 (the build can be checked again with `coqchk`).
* The correspondence between `/repo` and the `*Model.v` files, made by reading; every definition cites its lines.
* SQLite, `database/sql`, the Go runtime and standard library behave as stated in "Method" and in the list of modelled code; they are not verified.
* Libraries: the standard library, and Flocq for facts about rounding. No axioms were added.
* `Print Assumptions` answers "Closed under the global context" for every theorem of `MANIFEST.json` except those in the table
  "Assumptions" below, which use the axioms of the standard library's real numbers.

## What is modelled, area by area

Each line names the Go code, the model files and what was simplified. The same
simplifications stand in the comments of the model files.

* **Vectors at rest** (`internal/encoding`, `dimension.go`, `similarity.go`; Encoding, Dimension, Similarity, FloatReal):
  float32 values are bit patterns; no fused multiply-add is assumed for Go's float arithmetic.
* **Quantisers** (`pkg/quantization`; Quant, PQ): scalar quantiser generic over an arithmetic, error bounds over exact rationals.
* **The store** (`store_crud.go`, `store_query.go`, `store_search.go`, `collections.go`, `document.go`, `store_init.go`; Store, Search, Sql, StoreIndex):
  SQLite tables are lists in rowid order; failures of statements are part of the environment of each call; the order in which several errors of one
  SQL statement would be noticed is not modelled; overflow of TopK*2 … TopK*12 is not modelled; an ACL column is a BLOB that SQLite reads as JSON text
  (trusted SQLite behaviour); the full-text index is an arbitrary function.
* **Indexes** (`pkg/index`; Hnsw, Ivf, Flat, Lsh, MultiIndex, IndexDist): random levels, clustering and map orders are arbitrary inputs; nil vectors and failing decodes
  are excluded from the HNSW model; vectors of different lengths in one index make the Go code panic and are excluded; `HNSWAdapter` swaps two arguments; LSH keeps the caller's slice.
* **Index files and snapshots** (`hnsw.go:100-157`, `ivf.go:41-84`, `io.go:398-471`, `store_index.go`; Snap, QStore, StoreIndex, Train): a gob file is the list of the encoded values;
  that gob gives back what it was given is trusted; files with negative counts are not modelled; the rebuild in QStore is sequential.
* **Quantisation in the store** (QStore): fixed dimension, StrictMode; deletion marks and links left out; exact rationals.
* **Advanced search, filters, facets, aggregations, reranking, diversity, streaming, incremental index, multi-vector, chat, dump and load**
  (AdvSearch, Filter, Parse, Facet, Agg, Rerank, Diversity, Stream, IncIndex, MultiVec, Chat, Io): TrimSpace for ASCII white space; ParseFloat, ToLower, Fields and JSON number texts are parameters;
  SUM and AVG arbitrary functions; group names are identifiers distinct from `count`/`agg_value`/table columns; channels are lists with the fate of each send an oracle;
  timestamps and progress reports out; created_at text order is time order (trusted); JSON text is represented by the decoded values, invalid UTF-8 replacement is a parameter, finite float32 survive JSON text exactly;
  export metadata and file handling out.
* **Locks** (Lock): only `SQLiteStore.mu`; other locks are leaf sections; RWMutex semantics trusted; the unsynchronised read of `s.closed` is not modelled.
* **Graph** (`pkg/graph`; Graph, GraphAlgo, GraphExport, GraphXml, GraphHnsw): vectors kept decoded, properties maps of strings, timestamps out, NaN weights are NULL and unreadable, row orders arbitrary;
  a failing statement in a transaction leaves it open; PageRank generic over numbers, exact theorem over Q; XML and JSON texts by decoded values.
* **Geo** (`pkg/geo`; Geo): haversine an arbitrary function; out-of-range float-to-int conversion arbitrary; radii over 10^8 cells excluded.
* **Semantic router** (`pkg/semantic-router`; Router, Sparse, Arg, Mock): embedder answers per call, handlers opaque, `math.Log` and regular expressions arbitrary; type coercion, the sources of an argument and the schema builder in Arg (ASCII lower case, keyword list given); route metadata, JSON of schemas and pointer sharing out.
* **Memory, knowledge, GraphRAG, tools, text calls** (`pkg/cortexdb`; Mem, Know, Rag, LexRag, ToolText, ToolGraph, TextApi): tokenisers, splitters, embedders, slugs, snippets, id generators and full-text search are parameters;
  times in whole seconds or out; scores not NaN; integer overflow of options not modelled; knowledge only on the path without an embedder.
* **Hindsight** (`pkg/hindsight`; Hind, Observe, ReflectText): formats and Sscanf parameters; strategies of one Recall see the same store; scheduling arbitrary; Observe takes the recalled memories as given, lower case is that of ASCII, cutting into words a parameter.

* **Sessions** (`store_init.go`, `store_index.go`, `store_close.go`; Start): opening, writing, saving and closing one file any number of times, with either index or none, each session with its own configuration; a snapshot that cannot be read back may be cut off anywhere; which sessions save is an oracle.
* **Interrupted saves** (`store_index.go:361-411`; QStore `save_both`): each of the two statements may fail or not be reached.
* **Logger** (`logger.go`; Log): goroutines are interleaved at single writes, mutexes are exclusive; values already rendered; one Fprintf is one atomic Write; the time is given with the call.
* **Errors** (`errors.go`; Err): values with identity, errors.Is of the standard library for chains with at most one wrapped error per layer (no errors.Join).
* **Tool dispatch** (`mcp.go`, names in `graphrag_tools.go` and `knowledge_memory_tooldefs.go`; Mcp): methods and decoding are parameters; schemas, descriptions and the MCP transport are out.
* **Dimension policy** (`store.go:82-104`; Adapt): on top of the store model, upserts only.
* **Periodic saving** (`store_index.go:465-517`, `store_close.go`; Auto): index and quantiser by version number; writers, timer, periodic save and one Close interleaved at single statements; a statement is atomic and fails on a closed database; unsynchronised reads of pointers are not modelled.
* **Backup** (`io.go:474-489`; Backup): the path as SQL literal; VACUUM INTO copies or fails as a whole (trusted SQLite behaviour); what SQLite makes of further text is a parameter.

Not modelled at all: the JSON schemas and descriptions of the tools, the MCP transport, the demo programs, `cmd/`.

## Findings

Statements that are false of the code, each with a proved witness (`…_refuted`); the notes in `MANIFEST.json` give the property. The main ones:

1. **Store and index drift**: updates do not reach the HNSW index, deleted and re-inserted ids vanish from it, a snapshot may be older than the data (C19, C20).
2. **Searches**: filters, collections, documents and thresholds are applied after the nearest candidates were cut, so matching embeddings are missed or foreign ones returned (C17, C18, C22, C23, C26, C186).
3. **Panics**: negative or zero k, truncated inputs, a lone quote in a filter, deletion from a trained IVF store, fewer vectors than texts, an index file cut short followed by a search (C08, C42, C180, C193, C184, C208).
4. **Atomicity**: DeleteBatch by chunks, entity writes over two batches, knowledge replacement, router Add (C13, C105, C160, C171).
5. **Isolation**: separator collisions in composite ids and memory buckets, bank filters after the cut, keyword recall ignoring the bank (C31, C57, C61).
6. **Deadlock**: a recursive read lock with a waiting writer (C36; exactly when, C88).
7. **Quantisation**: embeddings stored one at a time train the quantiser on the first one alone; training again reinterprets the codes; a configuration without a number of bits loses the quantiser but keeps the codes (C202, C203, C213).
8. **Index files**: a failed import destroys the index in use; an IVF file imported into an HNSW store reports success; an IVF store cannot import its own export; a failed export empties the file (C208–C210).
9. **Training**: a failed TrainIndex leaves an emptied index marked trained, which hides earlier embeddings; another number of centroids drops the configured NProbe (C192).
10. **Graph files**: GraphML rounds weights to six decimals and turns tiny ones into 1, vectors that are not finite come back as three zeros, edge vectors and GEXF edge properties are lost; a NaN edge silently drops its sibling edges from JSON; DetectFormat misjudges documents and consumes the reader (C50, C198, C200).
11. **Geo**: moving a point leaves it in its old cell; searches miss points beyond the poles and the antimeridian (C52, C53).
12. **Router**: euclidean similarity never routes; one embedding failure disables a cached route; the store keeps one utterance per route; a removed route comes back (C55, C56).
13. **Memory**: a time to live is cut to whole seconds, very long ones overflow, expired memories use up places of TopK (C119).
14. **GraphRAG and knowledge**: re-ingesting a shorter document leaves stale chunks; different names share an entity id (C++ and C#); Rerank=false is ignored; ACLs are lost on save; one lost document fails a whole search (C124–C126, C173, C176).
15. **Filter texts**: no text yields BETWEEN and the documented example is refused; parentheses are stripped although they do not match; operators inside quotes cut the value (C179–C182).
16. **Text calls and tools**: SearchTextOnly ignores collection and threshold; search_text without top_k returns nothing; a resent relation is stored twice (C156, C162, C186).
17. **Restarts**: the saved NProbe overrides the configured one; a snapshot cut off after its entry point makes Init panic, a damaged IVF snapshot the first search; snapshots are not invalidated by sessions that do not maintain them (C216–C218); nodes and quantiser are saved by two separate statements (C219).
18. **Logging**: a logger made by With has a mutex of its own, so its lines run into those of the logger it was made from; keys without values shift the pairs; line breaks forge lines (C220, C221).
19. **Errors and settings**: the embedder's error cannot be found with errors.Is (C223); a failing tool call returns a result that is not nil (C224); SetAutoDimAdapt has no effect (C225).
20. **Periodic saving**: it holds no lock of the store and can overwrite the snapshot of Close with an older one (C226); SaveOnClose and MinChanges are never read (C228).
21. **Backup**: the path is pasted into SQL text (C229).
## Assumptions

Printed for 569 theorems; 549 are closed under the global context. The others:

| theorem | axioms |
|---|---|
| `cosine_scores_are_numbers` | `sig_not_dec`, `sig_forall_dec`, `functional_extensionality_dep`, `classic` |
| `range_distance_monotone_partial` | `sig_not_dec`, `sig_forall_dec`, `functional_extensionality_dep`, `classic` |
| `geo_box_complete` | `sig_not_dec`, `sig_forall_dec`, `functional_extensionality_dep`, `classic` |
| `geo_box_exact` | `sig_not_dec`, `sig_forall_dec`, `functional_extensionality_dep`, `classic` |
| `geo_radius_exact` | `sig_not_dec`, `sig_forall_dec`, `functional_extensionality_dep`, `classic` |
| `geo_radius_finds_near` | `sig_not_dec`, `sig_forall_dec`, `functional_extensionality_dep`, `classic` |
| `geo_radius_pole_refuted` | `sig_not_dec`, `sig_forall_dec`, `functional_extensionality_dep`, `classic` |
| `geo_radius_antimeridian_refuted` | `sig_not_dec`, `sig_forall_dec`, `functional_extensionality_dep`, `classic` |
| `similarity_finite` | `sig_not_dec`, `sig_forall_dec`, `functional_extensionality_dep`, `classic` |
| `euclidean_zero_iff_equal` | `sig_not_dec`, `sig_forall_dec`, `functional_extensionality_dep`, `classic` |
| `exact_cosine_in_range` | `sig_not_dec`, `sig_forall_dec`, `functional_extensionality_dep` |
| `communities_are_components` | `sig_not_dec`, `sig_forall_dec`, `functional_extensionality_dep`, `classic` |
| `graph_degree_density_exact` | `sig_not_dec`, `sig_forall_dec`, `functional_extensionality_dep`, `classic` |
| `geo_polygon_exact` | `sig_not_dec`, `sig_forall_dec`, `functional_extensionality_dep`, `classic` |
| `bm25_fit_exact` | `sig_not_dec`, `sig_forall_dec`, `functional_extensionality_dep`, `classic` |
| `lexical_vector_exact` | `sig_not_dec`, `sig_forall_dec`, `functional_extensionality_dep`, `classic` |
| `chunks_by_entities_exact` | `sig_not_dec`, `sig_forall_dec`, `functional_extensionality_dep`, `classic` |
| `text_only_exact` | `sig_not_dec`, `sig_forall_dec`, `functional_extensionality_dep`, `classic` |
| `text_only_malformed_refuted` | `sig_not_dec`, `sig_forall_dec`, `functional_extensionality_dep`, `classic` |
| `graphml_weight_kept` | `sig_not_dec`, `sig_forall_dec`, `functional_extensionality_dep`, `classic` |

The axioms are `ClassicalDedekindReals.sig_not_dec`, `ClassicalDedekindReals.sig_forall_dec`,
`FunctionalExtensionality.functional_extensionality_dep` and `Classical_Prop.classic`, all of the standard library
(Reals and Logic).

## Results

239 properties: 116 proved as stated, 123 partial. Almost every partial one is false of the code as stated:
its `…_refuted` theorem is the witness, and the true part is a theorem beside it or a property of its own that is proved.
1112 edited versions of the model are recorded in `seeded/LOG.jsonl` with the theorems that rejected them.
