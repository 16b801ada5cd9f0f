{"id": "C01", "title": "Stored vectors come back bit for bit", "statement": "Whatever non-nil vector is encoded for storage, decoding the bytes returns exactly that vector: same length, same 32-bit pattern in every component (including NaN payloads, -0 and infinities), also when extra bytes follow the encoding.", "quantifier": "all vectors of length up to 2^31-1 over all 2^32 component bit patterns, all trailing byte strings", "why_tests_cant": "the space of vectors is infinite and component patterns such as NaN payloads are never sampled", "anchors": ["internal/encoding/utils.go:EncodeVector", "internal/encoding/utils.go:DecodeVector"]}
{"id": "C02", "title": "Vector decoding is total and canonical", "statement": "For every byte string, decoding a stored vector either reports an error or yields a vector whose re-encoding is exactly the prefix that was consumed; it never reads out of bounds, and two different vectors never share an encoding.", "quantifier": "all byte strings, all pairs of vectors", "why_tests_cant": "corrupt blobs of every shape would have to be enumerated", "anchors": ["internal/encoding/utils.go:DecodeVector", "internal/encoding/utils.go:EncodeVector"]}
{"id": "C03", "title": "Dimension adaptation yields the requested dimension or an error", "statement": "Adapting a vector of declared dimension s to dimension t returns the same vector when s = t, an error under the strict and warn-only policies when s and t differ, an error when the declared dimension is not the vector's length, and otherwise a vector of exactly t components.", "quantifier": "all vectors, all source/target dimensions, all policies, all rounding behaviours of the float operations and all random noise", "why_tests_cant": "every length pair and every policy value must be covered", "anchors": ["pkg/core/dimension.go:AdaptVector", "pkg/core/dimension.go:smartAdapt", "pkg/core/dimension.go:truncateWithImportance", "pkg/core/dimension.go:padWithNoise"]}
{"id": "C04", "title": "Smart truncation keeps the largest components in order", "statement": "When smart adaptation shrinks a vector, the components it keeps (before renormalisation) are a subsequence of the original in original order, and no dropped component has a larger absolute value than a kept one.", "quantifier": "all vectors without NaN, all smaller target dimensions", "why_tests_cant": "ordering claims over arbitrary real vectors cannot be enumerated", "anchors": ["pkg/core/dimension.go:truncateWithImportance"]}
{"id": "C05", "title": "Scalar quantiser codes survive packing", "statement": "Decoding the packed bytes of a scalar-quantised vector returns, for each dimension, the reconstruction of exactly the level that was computed for that dimension, for every bit width 1..8 and every dimension count; packing uses ceil(dim*bits/8) bytes.", "quantifier": "all dimensions, bit widths 1..8, all level sequences", "why_tests_cant": "bit-packing boundaries depend on every (dimension, width) combination", "anchors": ["pkg/quantization/scalar_quantization.go:Encode", "pkg/quantization/scalar_quantization.go:Decode"]}
{"id": "C06", "title": "Scalar quantisation error is bounded", "statement": "For a vector inside the trained range, each decoded component differs from the original by less than one quantisation step (max-min)/(2^bits-1); a vector outside the range is clamped to the range.", "quantifier": "all trained ranges, vectors and bit widths (exact arithmetic)", "why_tests_cant": "error bounds range over a continuum", "anchors": ["pkg/quantization/scalar_quantization.go:Train", "pkg/quantization/scalar_quantization.go:Encode", "pkg/quantization/scalar_quantization.go:Decode"]}
{"id": "C07", "title": "Binary codes and Hamming distance", "statement": "The binary code of a vector has bit i set exactly when component i exceeds its trained threshold, and the Hamming distance of two codes is the number of dimensions in which the codes differ (so it is symmetric, zero only for equal codes and satisfies the triangle inequality); codes of different length are reported as incomparable rather than close.", "quantifier": "all vectors, thresholds and code lengths", "why_tests_cant": "quantifies over all codes", "anchors": ["pkg/quantization/scalar_quantization.go:BinaryQuantizer.Encode", "pkg/quantization/scalar_quantization.go:HammingDistance", "pkg/quantization/scalar_quantization.go:SearchBinary"]}
{"id": "C08", "title": "Product quantiser encodes to nearest centroids and its codebooks round-trip", "statement": "Encoding chooses in every subspace a centroid no farther than any other, decoding a code returns the concatenation of the chosen centroids, and serialising then deserialising the codebooks restores them bit for bit; malformed serialised data is reported as an error.", "quantifier": "all codebooks, vectors, code strings and serialised byte strings", "why_tests_cant": "quantifies over all codebooks and corrupt inputs", "anchors": ["pkg/quantization/product_quantization.go:Encode", "pkg/quantization/product_quantization.go:Decode", "pkg/quantization/product_quantization.go:SerializeCodebooks", "pkg/quantization/product_quantization.go:DeserializeCodebooks"]}
{"id": "C09", "title": "A successful upsert is what a later get returns", "statement": "After a successful Upsert of an embedding, and any later operations that do not touch that id, its document or its collection, GetByID returns that embedding's content, metadata, document id and (dimension-adapted) vector; every other stored embedding is unchanged by the upsert.", "quantifier": "all stores reachable by any operation history, all embeddings", "why_tests_cant": "holds for every history", "anchors": ["pkg/core/store_crud.go:Upsert", "pkg/core/store_query.go:GetByID"]}
{"id": "C10", "title": "One row per id", "statement": "In every reachable store there is at most one embedding per id, at most one collection per name and per numeric id, and every stored embedding belongs to an existing collection.", "quantifier": "all operation histories", "why_tests_cant": "invariant over all histories", "anchors": ["pkg/core/store_crud.go:Upsert", "pkg/core/store_crud.go:UpsertBatch", "pkg/core/collections.go:CreateCollection", "pkg/core/store_init.go:createTables"]}
{"id": "C11", "title": "Batch upsert is all or nothing and equals one-by-one insertion", "statement": "UpsertBatch either fails and leaves the stored rows exactly as they were, or succeeds and leaves them exactly as inserting the items one after another (last writer wins for repeated ids).", "quantifier": "all batches and all prior states, including a crash at any point inside the call", "why_tests_cant": "every batch shape, failure position and crash point", "anchors": ["pkg/core/store_crud.go:UpsertBatch"]}
{"id": "C12", "title": "Delete removes exactly its target", "statement": "Delete(id) succeeds exactly when the id is stored (otherwise it reports not-found and changes nothing), afterwards the id is absent and every other row is untouched; DeleteBatch removes exactly the listed non-blank ids; DeleteByDocID and ClearByDocID remove exactly the rows of those documents; Clear removes all rows.", "quantifier": "all states, ids, id lists and document lists", "why_tests_cant": "every state and id list", "anchors": ["pkg/core/store_crud.go:Delete", "pkg/core/store_crud.go:DeleteBatch", "pkg/core/store_crud.go:DeleteByDocID", "pkg/core/store_crud.go:ClearByDocID", "pkg/core/store_crud.go:Clear"]}
{"id": "C13", "title": "Multi-chunk batch deletion is atomic", "statement": "DeleteBatch of any id list is atomic with respect to a crash: after recovery either all listed rows are gone or none is.", "quantifier": "all id lists and all crash points", "why_tests_cant": "crash points inside the loop over chunks", "anchors": ["pkg/core/store_crud.go:DeleteBatch"]}
{"id": "C14", "title": "Deleting a collection removes exactly its rows", "statement": "DeleteCollection(name) removes the collection and exactly the embeddings stored in it, and nothing else; deleting an unknown collection changes nothing.", "quantifier": "all reachable states", "why_tests_cant": "every history", "anchors": ["pkg/core/collections.go:DeleteCollection"]}
{"id": "C15", "title": "Deleting a document removes its embeddings", "statement": "After a successful DeleteDocument no embedding of that document is retrievable by id, by document or by search.", "quantifier": "all reachable states and all schedules of pooled connections", "why_tests_cant": "foreign-key enforcement is per connection, so the outcome depends on which pooled connection serves the call", "anchors": ["pkg/core/document.go:DeleteDocument", "pkg/core/store_init.go:Init"]}
{"id": "C16", "title": "Exact search returns the true top-k", "statement": "Without an approximate index, Search returns only stored embeddings that satisfy the collection, document, metadata and threshold options, each once and with its true similarity score, in non-increasing score order, and no qualifying embedding that was left out scores higher than one returned; the number returned is the minimum of TopK (10 when not positive) and the number qualifying.", "quantifier": "all stores, queries, options, similarity functions without NaN scores, and all tie-breaking orders", "why_tests_cant": "quantifies over all stores and rankings", "anchors": ["pkg/core/store_search.go:Search", "pkg/core/store_search.go:fetchCandidates", "pkg/core/store_search.go:scoreCandidates"]}
{"id": "C17", "title": "Metadata-filtered search is complete", "statement": "SearchWithFilter returns min(TopK, number of matching embeddings) results whenever that many stored embeddings match the metadata filter.", "quantifier": "all stores, queries and filters", "why_tests_cant": "needs adversarial score/filter correlations", "anchors": ["pkg/core/store_search.go:SearchWithFilter"]}
{"id": "C18", "title": "Indexed search returns only stored rows that satisfy the options", "statement": "With an approximate index enabled every search result is a stored embedding, with its current content and vector, satisfying the collection, document, metadata and threshold options, in non-increasing score order and at most TopK of them, whatever the index returned.", "quantifier": "all stores, all (possibly stale) index answers, all options", "why_tests_cant": "the index contents depend on the whole history", "anchors": ["pkg/core/store_search.go:searchWithHNSW", "pkg/core/store_search.go:processCandidates", "pkg/core/store_search.go:matchesFilter"]}
{"id": "C19", "title": "The index follows updates and deletions", "statement": "After an embedding is updated, or deleted and stored again, an indexed search whose query equals the new vector can return it: the index holds exactly the ids of the stored rows, each with its current vector.", "quantifier": "all histories of upserts and deletes on a store with the HNSW or IVF index", "why_tests_cant": "depends on the order of operations in a history", "anchors": ["pkg/core/store_crud.go:Upsert", "pkg/core/store_crud.go:Delete", "pkg/index/hnsw.go:Insert", "pkg/index/ivf.go:Add", "pkg/index/ivf.go:Delete"]}
{"id": "C20", "title": "Reopening after a crash finds every committed row through the index", "statement": "After a crash at any point and reopening, every committed embedding is known to the rebuilt or restored index.", "quantifier": "all histories and crash points", "why_tests_cant": "crash between commit and snapshot", "anchors": ["pkg/core/store_index.go:initHNSWIndex", "pkg/core/store_index.go:saveIndexSnapshot", "pkg/core/store_index.go:loadIndexSnapshot"]}
{"id": "C21", "title": "Access-controlled search never returns a row the caller may not see", "statement": "SearchWithACL returns only embeddings that are public (no access list) or whose access list contains one of the caller's principals, and every visible embedding is a candidate.", "quantifier": "all stores, principal lists and options", "why_tests_cant": "authorisation must hold for every row and principal set", "anchors": ["pkg/core/advanced_search.go:SearchWithACL"]}
{"id": "C22", "title": "Access-controlled search respects the collection option", "statement": "SearchWithACL with a collection returns only embeddings of that collection.", "quantifier": "all stores, principals and collections", "why_tests_cant": "SQL operator precedence on untested combinations", "anchors": ["pkg/core/advanced_search.go:SearchWithACL"]}
{"id": "C23", "title": "Hybrid search stays inside the collection and filter", "statement": "HybridSearch with a collection or metadata filter returns only embeddings of that collection that satisfy the filter, each once, ranked by the reciprocal-rank sum of its vector and keyword ranks.", "quantifier": "all stores, keyword-match sets and options", "why_tests_cant": "keyword hits from foreign collections need particular data", "anchors": ["pkg/core/advanced_search.go:HybridSearch"]}
{"id": "C24", "title": "SQL pre-filters agree with in-memory filters", "statement": "A metadata filter expression selects the same rows whether it is translated to SQL (pre-filter, delete-by-filter) or evaluated in memory (post-filter).", "quantifier": "all filter expressions and metadata maps", "why_tests_cant": "quantifies over an infinite expression language", "anchors": ["pkg/core/advanced_filter.go:BuildSQLFromFilter", "pkg/core/advanced_filter.go:evaluateFilter"]}
{"id": "C25", "title": "Delete-by-filter deletes only matching rows", "statement": "DeleteByFilter removes only embeddings whose metadata satisfies the given filter expression and refuses an empty filter.", "quantifier": "all filter expressions and stores", "why_tests_cant": "a dropped sub-condition shows only for particular operators", "anchors": ["pkg/core/store_crud.go:DeleteByFilter", "pkg/core/advanced_filter.go:BuildSQLFromFilter"]}
{"id": "C26", "title": "Faceted filters combine as written", "statement": "A faceted search returns only embeddings satisfying every top-level facet filter, with nested AND/OR groups read as parenthesised groups.", "quantifier": "all facet filter lists and rows", "why_tests_cant": "operator precedence in generated SQL", "anchors": ["pkg/core/faceted_search.go:buildFacetedWhereClause", "pkg/core/faceted_search.go:buildNestedCondition"]}
{"id": "C27", "title": "Range search returns exactly the rows within the radius", "statement": "RangeSearch returns exactly the (TopK nearest of the) embeddings whose distance to the query is at most the radius, nearest first, with distance derived from the configured similarity; a more similar embedding is never farther than a less similar one.", "quantifier": "all stores, radii and similarity values", "why_tests_cant": "requires sweeping similarity values across zero", "anchors": ["pkg/core/faceted_search.go:RangeSearch"]}
{"id": "C28", "title": "Result diversification only selects and never duplicates", "statement": "Diversity search returns a duplicate-free sub-selection of the candidates of the requested size (or all of them), and distance-based diversification keeps every pair at least the minimum distance apart.", "quantifier": "all candidate lists, sizes, similarity functions and random choices", "why_tests_cant": "all candidate lists and random draws", "anchors": ["pkg/core/advanced_search.go:diversifyMMR", "pkg/core/advanced_search.go:diversifyDistance", "pkg/core/advanced_search.go:diversifyRandom"]}
{"id": "C29", "title": "Rerankers return a reordering of the candidates", "statement": "Each built-in reranker returns a permutation of the candidates it was given, so reranked search returns a subset of the retrieved candidates, at most TopK, all above the threshold.", "quantifier": "all candidate lists and reranker configurations", "why_tests_cant": "all lists and score patterns", "anchors": ["pkg/core/reranker.go"]}
{"id": "C30", "title": "Collecting a stream gives the top k", "statement": "CollectTopKFromStream returns the k best distinct results of the stream, best first.", "quantifier": "all result streams and all k", "why_tests_cant": "all streams and k values, including zero", "anchors": ["pkg/core/streaming.go:CollectTopKFromStream", "pkg/core/streaming.go:MergeStreamResults"]}
{"id": "C31", "title": "Multi-vector entities do not interfere", "statement": "Storing, reading and deleting the vectors of one entity never affects the vectors of an entity with a different id.", "quantifier": "all entity ids and field names", "why_tests_cant": "adversarial ids containing the separator", "anchors": ["pkg/core/multi_vector.go:UpsertMultiVector", "pkg/core/multi_vector.go:GetMultiVector", "pkg/core/multi_vector.go:DeleteMultiVector"]}
{"id": "C32", "title": "Aggregations match the stored rows", "statement": "Count, sum, average, minimum, maximum and group-by aggregations whose filter values are texts report, on a store in which every embedding has metadata, the value computed from exactly the stored embeddings in the named collection whose fields equal the filter values; group counts are the numbers of embeddings with those group values and add up to the number of selected embeddings.", "quantifier": "all stores, fields and filters", "why_tests_cant": "all data sets", "anchors": ["pkg/core/aggregations.go"]}
{"id": "C33", "title": "Dump then load restores the data", "statement": "Loading a JSON dump into an empty store restores every dumped embedding including its access list, and the load counters add up to the number of items.", "quantifier": "all stores", "why_tests_cant": "all stores and field combinations", "anchors": ["pkg/core/io.go:Dump", "pkg/core/io.go:Load"]}
{"id": "C34", "title": "Loading terminates on malformed input", "statement": "Load terminates with an error or a report for every input.", "quantifier": "all input byte streams", "why_tests_cant": "non-termination cannot be observed by a finite test", "anchors": ["pkg/core/io.go:loadJSONL"]}
{"id": "C35", "title": "Session history is the newest messages in order", "statement": "GetSessionHistory(session, n) returns the newest n messages of that session and no other, oldest first.", "quantifier": "all message histories and limits", "why_tests_cant": "all histories", "anchors": ["pkg/core/chat.go:GetSessionHistory"]}
{"id": "C36", "title": "Concurrent calls never deadlock", "statement": "No schedule of concurrent store calls reaches a state in which some call waits forever: whenever calls are pending, some call can make progress.", "quantifier": "all schedules of readers and writers", "why_tests_cant": "schedules are unbounded and timing dependent", "anchors": ["pkg/core/collections.go:GetCollectionStats", "pkg/core/store_crud.go:Upsert", "pkg/core/advanced_search.go:HybridSearch"]}
{"id": "C37", "title": "HNSW search answers are sound", "statement": "For every index built by any sequence of inserts and deletes and any random level choices, Search returns at most k distinct ids that are stored and not deleted, each with its true distance, nearest first.", "quantifier": "all operation sequences, level draws, parameters and queries", "why_tests_cant": "the graph depends on random levels and history", "anchors": ["pkg/index/hnsw.go:Insert", "pkg/index/hnsw.go:Delete", "pkg/index/hnsw.go:Search", "pkg/index/hnsw.go:searchLayer"]}
{"id": "C38", "title": "HNSW graph stays well-formed", "statement": "Every reachable HNSW index only links existing nodes, keeps neighbour lists duplicate-free and within their caps, and has an entry point whenever it has nodes.", "quantifier": "all operation sequences and level draws", "why_tests_cant": "invariant over all histories", "anchors": ["pkg/index/hnsw.go:Insert", "pkg/index/hnsw.go:addConnection", "pkg/index/hnsw.go:selectNeighborsHeuristic"]}
{"id": "C39", "title": "Parallel bulk insertion is searchable", "statement": "After bulk insertion every inserted vector can be found by some search of the index.", "quantifier": "all input batches and worker counts", "why_tests_cant": "connectivity between worker partitions", "anchors": ["pkg/index/hnsw.go:InsertBatchParallel"]}
{"id": "C40", "title": "IVF search is exact when all lists are probed", "statement": "Probing every inverted list returns the true k nearest stored vectors; with fewer probes it returns the k nearest among the probed lists; only stored ids are returned.", "quantifier": "all trained indexes and queries", "why_tests_cant": "all data sets and centroids", "anchors": ["pkg/index/ivf.go:Add", "pkg/index/ivf.go:Search"]}
{"id": "C41", "title": "IVF deletion removes one id and keeps the rest searchable", "statement": "After deleting an id from an IVF index, searches return the remaining ids with their own vectors and never fail.", "quantifier": "all indexes and delete sequences", "why_tests_cant": "index renumbering errors appear only for particular layouts", "anchors": ["pkg/index/ivf.go:Delete", "pkg/index/ivf.go:Search"]}
{"id": "C42", "title": "Flat index search is exact", "statement": "FlatIndex.Search returns the k nearest stored vectors with true distances, nearest first, and RangeSearch returns exactly the vectors within the radius.", "quantifier": "all indexes, queries and k", "why_tests_cant": "all data sets and k including zero", "anchors": ["pkg/index/flat.go:Search", "pkg/index/flat.go:RangeSearch"]}
{"id": "C43", "title": "LSH finds an identical vector and forgets deleted ids", "statement": "A query equal to a stored vector always has that vector's id among its candidates, results are stored ids only, nearest first, and a deleted id is never returned.", "quantifier": "all hash functions, operation sequences and queries", "why_tests_cant": "hash tables depend on random projections and history", "anchors": ["pkg/index/lsh.go:Insert", "pkg/index/lsh.go:Search", "pkg/index/lsh.go:Delete"]}
{"id": "C44", "title": "Multi-index answers follow all member indexes", "statement": "Merged multi-index search returns the best distance per id over the member indexes, nearest first, and a deleted id is returned by no composite index.", "quantifier": "all member index contents", "why_tests_cant": "all combinations of member answers", "anchors": ["pkg/index/multi_index.go:searchMergeAll", "pkg/index/multi_index.go:HybridIndex"]}
{"id": "C45", "title": "Graph edges never dangle", "statement": "In every reachable graph each edge's endpoints are stored nodes; deleting a node removes exactly the node and its incident edges.", "quantifier": "all operation histories", "why_tests_cant": "invariant over all histories", "anchors": ["pkg/graph/graph.go:UpsertEdge", "pkg/graph/graph.go:DeleteNode", "pkg/graph/graph_batch.go"]}
{"id": "C46", "title": "Shortest path is a real path of minimal length", "statement": "In a graph whose edge weights are numbers and whose edges all have stored endpoints, ShortestPath returns a path of stored edges from the source to the target with no shorter path existing, reports its edge count and weight sum, and reports no path exactly when the target is unreachable.", "quantifier": "all graphs and endpoint pairs", "why_tests_cant": "all graphs, including cycles", "anchors": ["pkg/graph/graph_traversal.go:ShortestPath"]}
{"id": "C47", "title": "Neighbours are exactly the nodes within the given depth", "statement": "In a graph whose edge weights are numbers, Neighbors without a limit returns exactly the nodes at distance 1..depth along allowed edges in the chosen direction, each once and never the start node; Connected answers exactly whether an undirected path of bounded length exists.", "quantifier": "all graphs, depths, directions and edge-type filters", "why_tests_cant": "all graphs", "anchors": ["pkg/graph/graph_traversal.go:Neighbors", "pkg/graph/graph_traversal.go:Connected"]}
{"id": "C48", "title": "PageRank scores stay a sub-probability distribution", "statement": "PageRank returns one score per node, every score at least (1-d)/n, and scores summing to at most 1, exactly 1 when no node lacks outgoing edges.", "quantifier": "all graphs, iteration counts and damping factors (exact arithmetic)", "why_tests_cant": "all graphs and iteration counts", "anchors": ["pkg/graph/graph_algorithms.go:PageRank"]}
{"id": "C49", "title": "Community detection partitions the nodes", "statement": "Every node is in exactly one community, no community is empty, and communities contain only stored nodes; reported component counts equal the number of connected components.", "quantifier": "all graphs and map iteration orders", "why_tests_cant": "depends on iteration order", "anchors": ["pkg/graph/graph_algorithms.go:CommunityDetection", "pkg/graph/graph_algorithms.go:GetGraphStatistics"]}
{"id": "C50", "title": "Graph JSON export and import round-trip", "statement": "Importing a JSON export into an empty graph restores the same nodes and edges.", "quantifier": "all graphs", "why_tests_cant": "all graphs", "anchors": ["pkg/graph/graph_export.go:ExportGraph", "pkg/graph/graph_export.go:ImportGraph"]}
{"id": "C51", "title": "Batch graph operations account for every item", "statement": "For every batch of node or edge upserts or deletions the reported successes and failures add up to the batch size, successes are stored, and an id upserted in a batch is searchable like one upserted singly.", "quantifier": "all batches and states", "why_tests_cant": "all batches", "anchors": ["pkg/graph/graph_batch.go:UpsertNodesBatch", "pkg/graph/graph_batch.go:DeleteNodesBatch", "pkg/graph/graph_batch.go:ExecuteBatch"]}
{"id": "C52", "title": "Bounding-box search is exact", "statement": "After any history of inserts, moves and deletes, SearchBoundingBox returns exactly the current points inside the box, each once.", "quantifier": "all operation histories and boxes", "why_tests_cant": "stale grid entries need particular histories", "anchors": ["pkg/geo/geospatial.go:Insert", "pkg/geo/geospatial.go:Delete", "pkg/geo/geospatial.go:SearchBoundingBox"]}
{"id": "C53", "title": "Radius search is exact", "statement": "SearchRadius returns exactly the current points whose great-circle distance is at most the radius, nearest first.", "quantifier": "all point sets, centres and radii", "why_tests_cant": "poles and antimeridian are continuous domains", "anchors": ["pkg/geo/geospatial.go:SearchRadius", "pkg/geo/geospatial.go:getCandidateCells"]}
{"id": "C54", "title": "Nearest-neighbour geo search is exact", "statement": "After any history of inserts, moves and deletes, SearchKNN returns the k current points (all if fewer) with the smallest computed distances to the centre, nearest first, provided no computed distance is NaN.", "quantifier": "all point sets, centres and k", "why_tests_cant": "all point sets", "anchors": ["pkg/geo/geospatial.go:SearchKNN"]}
{"id": "C55", "title": "Routing picks the best route and respects the threshold", "statement": "Route returns a route whose best utterance score is maximal among all routes, with that score, and reports a match exactly when the score reaches the threshold.", "quantifier": "all route sets, embeddings and similarity values", "why_tests_cant": "all route sets", "anchors": ["pkg/semantic-router/router.go:Route"]}
{"id": "C56", "title": "Persisted routes keep all their utterances", "statement": "After adding routes to a router with a store, reopening the router restores every route with all its utterances.", "quantifier": "all route sets", "why_tests_cant": "interaction between two packages over all route sets", "anchors": ["pkg/semantic-router/router.go:persistRoute", "pkg/semantic-router/router.go:loadRoutesFromStore"]}
{"id": "C57", "title": "Memory scopes are isolated", "statement": "Two memory addresses (scope, user or session, namespace) that differ after normalisation never share a bucket, so a memory saved for one user is never returned by a search for another.", "quantifier": "all scope, user, session and namespace strings", "why_tests_cant": "adversarial identifiers containing the separator", "anchors": ["pkg/cortexdb/memory_api.go:resolveMemoryBucket", "pkg/cortexdb/memory_api.go:SearchMemory"]}
{"id": "C58", "title": "Expired memories are never returned by search", "statement": "SearchMemory never returns a memory whose time to live has elapsed, and returns at most TopK memories.", "quantifier": "all memory sets and clock values", "why_tests_cant": "all clock values", "anchors": ["pkg/cortexdb/memory_api.go:SearchMemory", "pkg/cortexdb/memory_api.go:memoryExpired"]}
{"id": "C59", "title": "Chunking loses no words", "statement": "Splitting a document produces chunks of at most ChunkSize words that in order cover every word of every paragraph, consecutive chunks of a paragraph overlapping in exactly ChunkOverlap words.", "quantifier": "all documents and chunk parameters", "why_tests_cant": "all documents and parameter combinations", "anchors": ["pkg/cortexdb/graphrag.go:splitGraphRAGText"]}
{"id": "C60", "title": "Context packing respects its budgets", "statement": "The packed context is an order-preserving selection of the ranked chunks with at most MaxContextChunks chunks, at most PerDocumentLimit per document, and within MaxContextChars unless it is the first chunk alone.", "quantifier": "all chunk lists and budgets", "why_tests_cant": "all chunk lists", "anchors": ["pkg/cortexdb/graphrag.go:packGraphRAGContext", "pkg/cortexdb/graphrag.go:rerankGraphRAGChunks"]}
{"id": "C61", "title": "Memory banks are isolated", "statement": "Recall for one bank returns only memories retained in that bank.", "quantifier": "all memories, metadata maps and requests", "why_tests_cant": "needs colliding metadata or keyword hits in other banks", "anchors": ["pkg/hindsight/hindsight.go:Recall", "pkg/hindsight/hindsight.go:keywordSearch", "pkg/hindsight/hindsight.go:buildMetadata"]}
{"id": "C62", "title": "Auto-retain fires once per N matching messages with a chronological window", "statement": "With auto-retain enabled, extraction fires exactly after every TriggerEvery matching messages and receives the newest WindowSize messages oldest first.", "quantifier": "all message sequences and configurations", "why_tests_cant": "all sequences", "anchors": ["pkg/hindsight/chat.go:AddMessage"]}
{"id": "C63", "title": "Similarity functions are symmetric and reject mismatched lengths", "statement": "Cosine, dot-product and negative Euclidean similarity give bit-identical results when their arguments are swapped, vectors of different length score 0 (cosine, dot) or minus infinity (Euclidean), and in exact arithmetic cosine lies in [-1,1] and a vector is at distance 0 only from itself.", "quantifier": "all pairs of float32 vectors including NaN and infinities", "why_tests_cant": "all pairs of vectors", "anchors": ["pkg/core/similarity.go"]}
{"id": "C64", "title": "A closed store refuses every operation", "statement": "After Close every store operation reports the closed error and changes nothing, and closing again is harmless.", "quantifier": "all histories after Close", "why_tests_cant": "all histories", "anchors": ["pkg/core/store_close.go:Close"]}
{"id": "C65", "title": "Vector validation accepts exactly the usable vectors", "statement": "Validating a vector succeeds exactly when it is non-empty and every component is a finite number; nil, empty, NaN and infinite inputs are refused.", "quantifier": "all vectors of float32 bit patterns", "why_tests_cant": "there are 2^32 component values and unbounded lengths", "anchors": ["internal/encoding/utils.go:ValidateVector"]}
{"id": "C66", "title": "Dimension analysis counts exactly and picks a most common dimension", "statement": "Analysing a set of vectors reports for every dimension exactly how many vectors have it, and a primary dimension that no other dimension outnumbers, whatever order the runtime iterates the map in.", "quantifier": "all vector collections and all map iteration orders", "why_tests_cant": "map iteration order is randomised per run", "anchors": ["pkg/core/dimension.go:AnalyzeDimensions"]}
{"id": "C67", "title": "Referential integrity", "statement": "In every reachable store every embedding's collection exists, every embedding's non-empty document exists, and document ids are unique.", "quantifier": "all operation histories, reopenings and schedules of pooled connections", "why_tests_cant": "all histories and connection schedules", "anchors": ["pkg/core/store_init.go:createTables", "pkg/core/store_crud.go", "pkg/core/document.go"]}
{"id": "C68", "title": "HNSW keeps the nearest links", "statement": "Whenever an HNSW node has more candidate links than its cap allows, the links kept are the nearest ones.", "quantifier": "every graph, candidate list, cap and distance function", "why_tests_cant": "depends on every geometry and on which ids are stored; tests use a few random vectors", "anchors": ["pkg/index/hnsw.go: selectNeighborsHeuristic"]}
{"id": "C69", "title": "Document records reflect every operation", "statement": "After any operation, GetDocument returns the record last created or updated for that id, \"not found\" if it was deleted or never created, and nothing else changes it; creating succeeds exactly for new ids and updating exactly for existing ones.", "quantifier": "every store state, operation and document id", "why_tests_cant": "a frame condition over every operation and every other id", "anchors": ["pkg/core/document.go"]}
{"id": "C70", "title": "Listing calls agree with the stored rows", "statement": "GetByDocID, GetDocumentsByType, ListDocuments, ListDocumentsWithInfo, GetCollectionStats, ListCollections and ListDocumentsWithFilter return exactly the stored items that match, each once, with the right counts.", "quantifier": "every history of operations, reopenings, document, type, author, limit", "why_tests_cant": "the lists are derived by separate SQL statements and must agree with GetByID after every history", "anchors": ["pkg/core/store_query.go", "pkg/core/collections.go: ListCollections, GetCollectionStats", "pkg/core/document.go: ListDocumentsWithFilter"]}
{"id": "C71", "title": "Filtered search returns the best of the embeddings that satisfy the filter", "statement": "SearchWithAdvancedFilter with a pre-filter, a post-filter or both returns the TopK most similar of exactly the embeddings in the collection that satisfy both filters.", "quantifier": "every filter expression, store, query, similarity and TopK", "why_tests_cant": "completeness over every stored set and every filter tree; tests look at a few rows", "anchors": ["pkg/core/advanced_search.go: SearchWithAdvancedFilter", "pkg/core/advanced_filter.go"]}
{"id": "C72", "title": "A successful DeleteByFilter leaves no matching embedding", "statement": "When DeleteByFilter reports success, no stored embedding satisfies the filter any more and every other embedding is unchanged.", "quantifier": "every filter expression, metadata and store", "why_tests_cant": "requires the SQL translation to agree with the filter on every metadata map", "anchors": ["pkg/core/store_delete.go: DeleteByFilter", "pkg/core/advanced_filter.go: BuildSQLFromFilter"]}
{"id": "C73", "title": "Faceted search returns the best of the embeddings that match the facets", "statement": "SearchWithFacets succeeds and returns the TopK best of exactly the stored embeddings in the collection that match every facet, the metadata filter and the threshold.", "quantifier": "every set of facets, store, query, similarity and TopK", "why_tests_cant": "completeness over every stored set and every facet tree", "anchors": ["pkg/core/faceted_search.go: SearchWithFacets, fetchCandidatesWithFacets"]}
{"id": "C74", "title": "Facet counts are exact", "statement": "The counts returned with a faceted search give, for each requested field, the most frequent values and the exact number of stored embeddings having each.", "quantifier": "every store, field and limit on the number of values", "why_tests_cant": "counts must agree with the store after every history", "anchors": ["pkg/core/faceted_search.go: computeFacetCounts"]}
{"id": "C75", "title": "Search with negative examples and recommendations rank by exact contrast", "statement": "SearchWithNegatives and RecommendSimilar return the TopK stored embeddings with the highest contrast (best similarity to a positive example minus the weighted best similarity to a negative one), best first, with that score, among exactly the qualifying stored embeddings.", "quantifier": "every reachable store, example list, weight, similarity and TopK", "why_tests_cant": "completeness over every stored set", "anchors": ["pkg/core/advanced_search.go: SearchWithNegatives, RecommendSimilar"]}
{"id": "C76", "title": "Anomaly scores are mean distances to the nearest neighbours", "statement": "FindAnomalies scores every stored embedding matching the options by its mean distance to its five nearest others (all others when there are fewer) and returns the TopK highest, best first.", "quantifier": "every reachable store, similarity, options and TopK", "why_tests_cant": "completeness over every stored set", "anchors": ["pkg/core/advanced_search.go: FindAnomalies"]}
{"id": "C77", "title": "Streaming search delivers exactly the matching embeddings", "statement": "A stream search delivers only stored embeddings that match the options, each at most once, with its similarity as score, batch by batch and best first within a batch; when nothing is cancelled it delivers all of them, and with early termination at least TopK good ones.", "quantifier": "every reachable store, query, batch size, cancellation point and timing of the consumer", "why_tests_cant": "timing and cancellation points cannot be enumerated", "anchors": ["pkg/core/streaming.go: StreamSearch"]}
{"id": "C78", "title": "Merged streams lose, duplicate and reorder nothing", "statement": "The merged stream of several result channels contains every result of every channel exactly once, those of one channel in their order, under every schedule.", "quantifier": "every list of channels and every goroutine schedule", "why_tests_cant": "schedules cannot be enumerated", "anchors": ["pkg/core/streaming.go: MergeStreamResults"]}
{"id": "C79", "title": "Accepted asynchronous updates are stored", "statement": "Every embedding AddAsync accepts is eventually handed to the store exactly once, in the order of acceptance, so that the last accepted version of an id is the stored one, whatever searches and Close run concurrently.", "quantifier": "every schedule of additions, worker steps, searches and Close", "why_tests_cant": "schedules cannot be enumerated", "anchors": ["pkg/core/streaming.go: AddAsync, processUpdates, SearchWithUpdates, Close"]}
{"id": "C80", "title": "Search with pending updates returns the best of both", "statement": "SearchWithUpdates returns the TopK best of the search results and the pending updates it examines, best first, each id once.", "quantifier": "every store, query, options and pending updates", "why_tests_cant": "all combinations of stored and pending embeddings", "anchors": ["pkg/core/streaming.go: SearchWithUpdates"]}
{"id": "C81", "title": "Multi-vector search combines every field search", "statement": "SearchMultiVector searches each requested field that has a query, skipping fields whose search fails, and returns each entity found exactly once under its own id, scored by the chosen combination (max, min, sum, average) of the weighted scores of its results, the TopK best first, or all when TopK is not positive, provided the combined scores are numbers.", "quantifier": "every store, set of query vectors, weights, aggregation, TopK and iteration order of the maps", "why_tests_cant": "all combinations of fields, weights and stored entities, and the map iteration order is random", "anchors": ["pkg/core/multi_vector.go:SearchMultiVector", "pkg/core/multi_vector.go:aggregateScores"]}
{"id": "C82", "title": "Reading an entity returns what was written", "statement": "After UpsertMultiVector succeeds, GetMultiVectorEntity returns exactly the given vectors for the named fields and the earlier ones for the others; a failing upsert changes nothing; after DeleteMultiVectorEntity the entity is not found and everything not belonging to it reads as before.", "quantifier": "every history of entity operations and ordinary operations that leave the reserved metadata key alone, including reopening", "why_tests_cant": "unbounded histories with partial re-upserts and failing transactions", "anchors": ["pkg/core/multi_vector.go:UpsertMultiVector", "pkg/core/multi_vector.go:GetMultiVectorEntity", "pkg/core/multi_vector.go:DeleteMultiVectorEntity"]}
{"id": "C83", "title": "Chat calls succeed or change nothing", "statement": "AddMessage succeeds exactly when the store is open, the id is new, the statement succeeds and, where foreign keys are enforced, the session exists; a refused call changes nothing. GetSession returns exactly the session created under the id, and session ids are unique.", "quantifier": "every history of CreateSession, AddMessage, close and reopen, with any failures", "why_tests_cant": "unbounded histories and failure points", "anchors": ["pkg/core/chat.go:AddMessage", "pkg/core/chat.go:CreateSession", "pkg/core/chat.go:GetSession"]}
{"id": "C84", "title": "Semantic search over chat messages is exact", "statement": "SearchChatHistory returns the limit most similar messages of the session that carry a vector, most similar first; SearchMessagesByUser does so over all sessions of the user except the excluded one, with limit 10 when the limit is not positive. Both only when the similarities are numbers, and for a non-negative limit of SearchChatHistory.", "quantifier": "every history of calls, similarity function, query vector and limit", "why_tests_cant": "all histories and vectors", "anchors": ["pkg/core/chat.go:SearchChatHistory", "pkg/core/chat.go:SearchMessagesByUser"]}
{"id": "C85", "title": "Keyword search over chat messages respects user and session", "statement": "KeywordSearchMessages returns, in the order of the full-text index, the first limit (10 when not positive) of the matching messages that lie in sessions of the user other than the excluded one.", "quantifier": "every history of calls and every answer of the full-text index", "why_tests_cant": "all histories and index answers", "anchors": ["pkg/core/chat.go:KeywordSearchMessages"]}
{"id": "C86", "title": "Dumps contain exactly the stored embeddings and load reports add up", "statement": "A dump of a store in JSON, JSON lines or CSV contains exactly the stored embeddings that satisfy the filter (all, without a filter), each once, and reports their number; a JSON dump whose vectors contain NaN or infinities is refused as a whole. The numbers of stored, failed and skipped items reported by Load add up to the number of items in its input, and with SkipExisting stored ids are left as they were.", "quantifier": "every reachable store, every filter the filter language can express, every input of Load", "why_tests_cant": "all stores and inputs", "anchors": ["pkg/core/io.go:Dump", "pkg/core/io.go:Load", "pkg/core/io.go:getAllEmbeddings", "pkg/core/io.go:processImportEmbedding"]}
{"id": "C87", "title": "Dump and Load round trip", "statement": "A JSON or JSON-lines dump with vectors, loaded into a store without embeddings that has the collections and documents they refer to and accepts their dimension, restores exactly the embeddings of the source, except that access lists are not carried and empty metadata comes back as none; every item is counted as stored.", "quantifier": "every reachable source and target store, every order in which rows are read", "why_tests_cant": "all stores", "anchors": ["pkg/core/io.go:Dump", "pkg/core/io.go:Load"]}
{"id": "C88", "title": "Exactly which concurrent calls can block each other", "statement": "Concurrent calls to one store can reach a state in which a call waits for ever exactly when one of them is GetCollectionStats, HybridSearch, SearchWithDiversity, SearchWithReranker, SearchMultiVector, Dump, UpsertBatch, Upsert or Load (which take the read lock while holding it) and another one takes the write lock (collection and batch deletion, DeleteDocument, multi-vector writes, training, import, setters, Init, Close, and the first Upsert). In every other combination, and under every schedule, all calls can finish.", "quantifier": "every number and combination of concurrent store calls, every execution path through them and every schedule", "why_tests_cant": "schedules cannot be enumerated by tests", "anchors": ["pkg/core/store.go", "pkg/core/store_crud.go:Upsert", "pkg/core/collections.go:GetCollectionStats", "pkg/core/io.go:Dump", "pkg/core/multi_vector.go:SearchMultiVector"]}
{"id": "C89", "title": "Every graph edge can be read back and followed", "statement": "Any edge that UpsertEdge accepted can be read, and traversals that meet it succeed.", "quantifier": "all graphs and edge weights", "why_tests_cant": "special floating-point values", "anchors": ["pkg/graph/graph.go:UpsertEdge", "pkg/graph/graph.go:GetEdges"]}
{"id": "C90", "title": "A limited neighbour search returns the first neighbours of the unlimited one", "statement": "Neighbors with a positive limit returns the first limit nodes of what the same call without a limit returns.", "quantifier": "all graphs, depths, directions, type filters and limits", "why_tests_cant": "all graphs", "anchors": ["pkg/graph/graph_traversal.go:Neighbors"]}
{"id": "C91", "title": "Subgraph is the induced subgraph", "statement": "In a graph whose edge weights are numbers, Subgraph returns exactly the stored nodes among the given ids and exactly the stored edges with both ends among them, each once when no id is given twice.", "quantifier": "all graphs and id lists", "why_tests_cant": "all graphs", "anchors": ["pkg/graph/graph_traversal.go:Subgraph"]}
{"id": "C92", "title": "Graph batches are atomic and leave the last accepted value of every id", "statement": "With foreign keys enforced, a node or edge batch that fails as a whole changes nothing; one that succeeds reports counts that add up to its size, and leaves for each id the last entry that was accepted and for all other ids the old row. ExecuteBatch has the effect and counts of the four batches in the order upsert nodes, delete nodes, upsert edges, delete edges, or no effect at all.", "quantifier": "all batches, states and statement failures", "why_tests_cant": "all batches and all points of failure", "anchors": ["pkg/graph/graph_batch.go:UpsertNodesBatch", "pkg/graph/graph_batch.go:UpsertEdgesBatch", "pkg/graph/graph_batch.go:DeleteNodesBatch", "pkg/graph/graph_batch.go:DeleteEdgesBatch", "pkg/graph/graph_batch.go:ExecuteBatch"]}
{"id": "C93", "title": "PageRank replaces unusable damping factors by the default", "statement": "Whatever damping factor is given, PageRank computes with one strictly above 0 and at most 1: the given one if it is, 0.85 otherwise.", "quantifier": "all float64 damping factors, all graphs", "why_tests_cant": "special floating-point values", "anchors": ["pkg/graph/graph_algorithms.go:PageRank"]}
{"id": "C94", "title": "Communities are determined by the graph", "statement": "CommunityDetection called twice on the same graph returns the same grouping, and two nodes share a community exactly when a path of edges joins them.", "quantifier": "all graphs and all map iteration orders", "why_tests_cant": "depends on map iteration order", "anchors": ["pkg/graph/graph_algorithms.go:CommunityDetection"]}
{"id": "C95", "title": "Average degree and density are the correctly rounded quotients", "statement": "For graphs of at most 2^53 nodes and edges, the reported average degree is the float64 nearest to 2E/N, the density is the float64 nearest to E divided by the float64 nearest to N(N-1), and 0 for a single node.", "quantifier": "all graphs of at most 2^53 nodes and edges", "why_tests_cant": "all graph sizes", "anchors": ["pkg/graph/graph_algorithms.go:GetGraphStatistics"]}
{"id": "C96", "title": "Predicted edges are the best missing ones", "statement": "PredictEdges proposes only stored nodes other than the given one that no edge joins to it, scored by vector similarity averaged with the share of common neighbours when there are any, keeps exactly those scoring above one half, and returns the best topK (10 by default) of them, best first; an unknown node is reported as not found.", "quantifier": "all graphs, similarity functions, row orders and topK", "why_tests_cant": "all graphs and similarity functions", "anchors": ["pkg/graph/graph_algorithms.go:PredictEdges"]}
{"id": "C97", "title": "JSON round trip of finite graphs", "statement": "Importing the JSON export of a graph whose numbers are finite, whose text is valid UTF-8 and whose property maps are absent or not empty into an empty graph restores exactly its nodes and edges, whatever order the database returns rows in.", "quantifier": "all graphs reachable by any history of graph calls with foreign keys on that meet the condition, all row orders", "why_tests_cant": "The claim ranges over all graphs and all row orders; tests export a handful of fixed graphs.", "anchors": ["pkg/graph/graph_export.go:ExportJSON", "pkg/graph/graph_export.go:ImportJSON"]}
{"id": "C98", "title": "Bounding-box search never misses a point, and is exact when moves delete first", "statement": "After any history SearchBoundingBox returns every current point inside the box, and only points that lie in the box and were inserted at some time. When no id is inserted again before being deleted, it returns exactly the current points inside the box, each once. Boxes with reversed or out-of-range borders are refused.", "quantifier": "all operation histories, boxes and coordinates (every float64)", "why_tests_cant": "all histories and all float64 coordinates, including cell borders", "anchors": ["pkg/geo/geospatial.go:Insert", "pkg/geo/geospatial.go:Delete", "pkg/geo/geospatial.go:SearchBoundingBox"]}
{"id": "C99", "title": "Radius search within its window of cells is exact", "statement": "When no id is inserted again before being deleted, SearchRadius returns exactly the current points in the window of 0.1-degree cells around the centre whose computed distance is at most the radius, nearest first, with the distance in the requested unit; every current point that differs from the centre by at most (n-1)/10 degrees in both coordinates, n being the number of cells on each side, is in that window.", "quantifier": "all histories without repeated inserts, all centres, all radii spanning at most 10^8 cells, all distance functions", "why_tests_cant": "continuous domains and rounding", "anchors": ["pkg/geo/geospatial.go:SearchRadius", "pkg/geo/geospatial.go:getCandidateCells"]}
{"id": "C100", "title": "Polygon search counts ray crossings", "statement": "After any history SearchPolygon refuses fewer than three corners and otherwise returns exactly the current points within the extent of the corners whose eastward ray crosses the outline an odd number of times.", "quantifier": "all histories and polygons", "why_tests_cant": "all polygons", "anchors": ["pkg/geo/geospatial.go:SearchPolygon"]}
{"id": "C101", "title": "Points can be read back", "statement": "After any history of inserts and deletes, GetPoint returns the last inserted version of an id that was not deleted since and nothing otherwise, and Size counts those ids; inserts with an empty id or coordinates out of range are refused and change nothing.", "quantifier": "all operation histories", "why_tests_cant": "all histories", "anchors": ["pkg/geo/geospatial.go:Insert", "pkg/geo/geospatial.go:Delete", "pkg/geo/geospatial.go:GetPoint", "pkg/geo/geospatial.go:Size"]}
{"id": "C102", "title": "A router without a store names the first route with the highest positive score", "statement": "With an embedder that answers each text always with the same vector, after any history of adding, removing and routing, Route names the first registered route among those whose best utterance has the highest positive similarity, reports that similarity, and matches exactly when it reaches the threshold; no route is named when no similarity is positive. RouteBatch answers every query as Route would.", "quantifier": "all histories, embedders, similarity functions, thresholds and queries", "why_tests_cant": "all histories of cached and uncached routing", "anchors": ["pkg/semantic-router/router.go:Route", "pkg/semantic-router/router.go:RouteBatch"]}
{"id": "C103", "title": "The registered routes are those added and not removed", "statement": "Add registers exactly a route with a new non-empty name and an utterance, AddBatch all of its routes or none, Remove drops the first route of a name, and List and Get show the result; the calls report success exactly in these cases on a router without a store.", "quantifier": "all call histories", "why_tests_cant": "all histories", "anchors": ["pkg/semantic-router/router.go:Add", "pkg/semantic-router/router.go:AddBatch", "pkg/semantic-router/router.go:Remove", "pkg/semantic-router/router.go:List", "pkg/semantic-router/router.go:Get"]}
{"id": "C104", "title": "Route names are unique", "statement": "At any time no two registered routes share a name.", "quantifier": "all call histories", "why_tests_cant": "all histories", "anchors": ["pkg/semantic-router/router.go:AddBatch"]}
{"id": "C105", "title": "A failing Add registers nothing", "statement": "When Add returns an error, the router's routes are unchanged.", "quantifier": "all calls, embedders and store states", "why_tests_cant": "all failure points", "anchors": ["pkg/semantic-router/router.go:Add", "pkg/semantic-router/hybrid.go:Add"]}
{"id": "C106", "title": "Caching an embedder does not change its answers", "statement": "With an embedder that never answers a wrong vector but may fail at any call, a caching embedder answers each text with its own vector, in the order of the texts, after any history of calls; it fails only when the embedder behind it fails, and never panics.", "quantifier": "all histories, texts, failures and map iteration orders", "why_tests_cant": "map iteration order and failure points", "anchors": ["pkg/semantic-router/embedder.go:Embed", "pkg/semantic-router/embedder.go:EmbedBatch"]}
{"id": "C107", "title": "A sparse router names the first route with the highest positive cosine", "statement": "SparseRouter.Route names the first route among those with the highest positive term cosine, matched exactly when it reaches the threshold, and with the built-in encoders only a route sharing a term with the query. Add accepts exactly routes with a new non-empty name and an utterance.", "quantifier": "all routers, encoders, queries and map iteration orders", "why_tests_cant": "map iteration order, all weights", "anchors": ["pkg/semantic-router/hybrid.go:Route", "pkg/semantic-router/sparse.go:SparseSimilarity"]}
{"id": "C108", "title": "Fitting a sparse encoder counts documents", "statement": "After any sequence of Fit calls the vocabulary lists every term ever seen once; the document frequency and inverse document frequency of a term follow the BM25 or TF-IDF formula for the number of documents of the last call containing it, and terms the last call did not contain keep their earlier weight; encoding weighs exactly the terms of the text (for TF-IDF the known ones) by the documented formula.", "quantifier": "all corpora, texts, parameters", "why_tests_cant": "all texts", "anchors": ["pkg/semantic-router/sparse.go:Fit", "pkg/semantic-router/sparse.go:EncodeSparse"]}
{"id": "C109", "title": "A query equal to an utterance is routed by a sparse router", "statement": "A query that is word for word an utterance of the only route and has a term is routed to it.", "quantifier": "all routes and encoders", "why_tests_cant": "all encoder states", "anchors": ["pkg/semantic-router/sparse.go:EncodeSparse", "pkg/semantic-router/hybrid.go:Route"]}
{"id": "C110", "title": "TopTerms returns the k heaviest terms", "statement": "TopTerms(vec, k) returns the k heaviest terms, heaviest first, all of them when k is not positive or too large.", "quantifier": "all vectors without NaN, all k", "why_tests_cant": "all vectors and iteration orders", "anchors": ["pkg/semantic-router/sparse.go:TopTerms"]}
{"id": "C111", "title": "A hybrid router decides from its two halves", "statement": "HybridRouter.Route reports the weighted sum of the scores of its halves, matches exactly when it reaches the threshold, and names the dense half's route if that half matched, else the sparse half's if that matched, else, only when the sum matches, that of the higher-scoring half.", "quantifier": "all routers, weights, thresholds and queries", "why_tests_cant": "all combinations of half answers", "anchors": ["pkg/semantic-router/hybrid.go:Route"]}
{"id": "C112", "title": "A hybrid answer is about one route", "statement": "HybridRouter.Route names a route only when it matched, and the reported score combines that route's own dense and sparse scores.", "quantifier": "all routers and queries", "why_tests_cant": "all combinations of half answers", "anchors": ["pkg/semantic-router/hybrid.go:Route"]}
{"id": "C113", "title": "Function calls are made for matched routes with their arguments", "statement": "FunctionRouter.Route returns a call exactly when a named route matched and a function was added under its name, using the last one added; arguments are what the compiled pattern or else the guess finds, missing lists exactly the required parameters without a value, and Execute runs the handler exactly for complete calls.", "quantifier": "all schemas, patterns that compile, texts and map iteration orders", "why_tests_cant": "all schemas and texts", "anchors": ["pkg/semantic-router/schema.go:Route", "pkg/semantic-router/schema.go:Extract", "pkg/semantic-router/schema.go:Execute"]}
{"id": "C114", "title": "A complete function call has every required argument", "statement": "A call marked complete carries a value for every required parameter.", "quantifier": "all schemas, registered patterns and texts", "why_tests_cant": "all patterns", "anchors": ["pkg/semantic-router/schema.go:Extract"]}
{"id": "C115", "title": "Memories are what successful calls left", "statement": "After every history of SaveMemory, UpdateMemory, DeleteMemory and chat calls, GetMemory shows a memory exactly when it was saved and not deleted, with the role, content, importance, time to live, metadata and creation time that the successful calls gave it, in the place its last save addressed; a well-formed save is accepted and answers what GetMemory then shows.", "quantifier": "all histories of calls, all statement failures, clocks and embedders", "why_tests_cant": "the result depends on the whole history", "anchors": ["pkg/cortexdb/memory_api.go:SaveMemory", "pkg/cortexdb/memory_api.go:UpdateMemory", "pkg/cortexdb/memory_api.go:GetMemory", "pkg/cortexdb/memory_api.go:DeleteMemory"]}
{"id": "C116", "title": "Memory search stays in the addressed place", "statement": "When owners contain no colon and chat sessions are not named like memory buckets, every memory SearchMemory returns belongs to the scope, owner and namespace the request addresses.", "quantifier": "all histories, all requests", "why_tests_cant": "all histories and identifiers", "anchors": ["pkg/cortexdb/memory_api.go:SearchMemory", "pkg/cortexdb/memory_api.go:resolveMemoryBucket"]}
{"id": "C117", "title": "Semantic memory search is exact", "statement": "With an embedder, SearchMemory takes the TopK memories of the addressed place nearest to the query by similarity and returns those not expired, in order, the i-th of n scoring (n-i)/n.", "quantifier": "all histories, queries and similarity functions", "why_tests_cant": "must hold for every set of vectors", "anchors": ["pkg/cortexdb/memory_api.go:SearchMemory"]}
{"id": "C118", "title": "Lexical memory search is exact", "statement": "Without an embedder or in lexical mode SearchMemory returns the TopK best of the unexpired memories of the addressed place found by one of the planned queries among its first 4*TopK rows, each once with its best score, ordered by score then id.", "quantifier": "all histories, query plans and index answers", "why_tests_cant": "must hold for every index answer", "anchors": ["pkg/cortexdb/memory_api.go:searchMemoryLexical"]}
{"id": "C119", "title": "A memory lives for its time to live", "statement": "A memory saved with a time to live is returned by matching searches until that time is over, and an expired memory does not displace a live one.", "quantifier": "all times to live and clocks", "why_tests_cant": "all clock values", "anchors": ["pkg/cortexdb/memory_api.go:buildMemoryMetadata", "pkg/cortexdb/memory_api.go:SearchMemory"]}
{"id": "C120", "title": "Reranking is the documented greedy trade-off", "statement": "GraphRAG reranking scores every candidate by its normalised retrieval score, the overlap of its words with the question and of its names with the question's, and then repeatedly picks the candidate with the best balance between that score and its repetition of what was already picked, until MaxContextChunks are picked or none is left.", "quantifier": "all candidate lists, options, tokenisers", "why_tests_cant": "must hold for every candidate list", "anchors": ["pkg/cortexdb/graphrag.go:rerankGraphRAGChunks"]}
{"id": "C121", "title": "GraphRAG search returns exactly the chunks its seeds lead to", "statement": "The candidates of a search are its seed chunks plus, when the graph is used, the MaxRelatedChunks best of the chunks met from a seed, each at half the score of the best seed it was met from; the result is the packing of their reranking, the context is its text, and the entities are those met from a seed or next to a candidate, each once in alphabetical order.", "quantifier": "all seeds, graphs and options", "why_tests_cant": "must hold for every graph and map order", "anchors": ["pkg/cortexdb/graphrag.go:SearchGraphRAG"]}
{"id": "C122", "title": "GraphRAG search fails exactly when the graph does", "statement": "SearchGraphRAG succeeds whenever it does not use the graph, and otherwise exactly when all the neighbour queries it needs succeed.", "quantifier": "all seeds, graphs and failures", "why_tests_cant": "every failing subset of queries", "anchors": ["pkg/cortexdb/graphrag.go:SearchGraphRAG"]}
{"id": "C123", "title": "Chunk ids are distinct", "statement": "Two chunks of one document, or of two documents, never share an id, and a chunk never has the id of a document.", "quantifier": "all document ids and chunk numbers", "why_tests_cant": "all pairs of documents and numbers", "anchors": ["pkg/cortexdb/graphrag.go:graphChunkNodeID"]}
{"id": "C124", "title": "Re-ingesting replaces a document", "statement": "After a document is ingested again with new content, the chunks stored for it are exactly those of the new content.", "quantifier": "all old and new contents and chunk parameters", "why_tests_cant": "all pairs of contents", "anchors": ["pkg/cortexdb/graphrag.go:InsertGraphDocument"]}
{"id": "C125", "title": "Different entities are different nodes", "statement": "Two different entity names are stored as two different entity nodes.", "quantifier": "all names", "why_tests_cant": "all pairs of names", "anchors": ["pkg/cortexdb/graphrag.go:graphEntityNodeID"]}
{"id": "C126", "title": "Reranking can be switched off", "statement": "A query with Rerank set to false returns its chunks in order of their retrieval score.", "quantifier": "all queries", "why_tests_cant": "all queries and options", "anchors": ["pkg/cortexdb/graphrag.go:GraphRAGQueryOptions"]}
{"id": "C127", "title": "Recall fuses the enabled strategies", "statement": "Recall asks exactly the strategies the request enables and has input for. With two or more the result holds every memory found once, with the memory as one of them found it and score the sum of 1/(60+place) over the strategies that found it, best first, cut to TopK. With one strategy it is that strategy's answer, best first and cut; with none it is empty.", "quantifier": "all stores, similarity functions, full-text and vector indexes, strategies and goroutine orders", "why_tests_cant": "goroutine completion order and map order vary from run to run", "anchors": ["pkg/hindsight/hindsight.go:Recall", "pkg/hindsight/hindsight.go:rrfFusion"]}
{"id": "C128", "title": "A failing reranker never loses results", "statement": "With a reranker installed Recall returns the reranker's order when it answers, and the fused order when it fails, answers nothing, or there is no query text; TopK is applied afterwards.", "quantifier": "all rerankers, stores and requests", "why_tests_cant": "rerankers are arbitrary caller code", "anchors": ["pkg/hindsight/hindsight.go:Recall", "pkg/hindsight/hooks.go:RerankerFn"]}
{"id": "C129", "title": "A recalled memory is the memory retained", "statement": "Every memory returned by Recall is the latest successfully retained version of its id: same content and, when its metadata uses none of Retain's own keys, same bank, type and creation time, and the same entities when none contains a comma.", "quantifier": "all histories of Retain, RetainFromText, bank calls and restarts, failing calls included; all requests", "why_tests_cant": "all histories and failure points", "anchors": ["pkg/hindsight/hindsight.go:Retain", "pkg/hindsight/hindsight.go:buildMetadata", "pkg/hindsight/hindsight.go:embeddingToMemory"]}
{"id": "C130", "title": "A retained memory stays", "statement": "After any further calls and restarts the latest successfully retained version of every memory can be read by its id, with its content, its own metadata and its bank, type and entities.", "quantifier": "all histories with failing statements and restarts", "why_tests_cant": "all histories and failure points", "anchors": ["pkg/hindsight/hindsight.go:Retain", "pkg/hindsight/hindsight.go:New"]}
{"id": "C131", "title": "Recall finds a bank's memories", "statement": "A recall with TopK at least the number of memories of the bank returns all of them.", "quantifier": "all stores and requests", "why_tests_cant": "depends on the memories of all other banks", "anchors": ["pkg/hindsight/hindsight.go:semanticSearch"]}
{"id": "C132", "title": "Reflect keeps to the token budget and shows what was recalled", "statement": "Reflect returns exactly Recall's memories; its text is the whole context when that fits the budget or there is no budget, and otherwise a prefix of 4*budget bytes, with the reported token count never above a positive budget. The whole context quotes every recalled memory of one of the four memory types.", "quantifier": "all stores, requests and budgets", "why_tests_cant": "all budgets and lengths", "anchors": ["pkg/hindsight/hindsight.go:Reflect", "pkg/hindsight/hindsight.go:formatContext"]}
{"id": "C133", "title": "Observation confidence is between 0.1 and 1", "statement": "The confidence computed for an observation lies in [0.1, 1] for any number of supporting memories and any skepticism.", "quantifier": "all numbers of memories and trait values", "why_tests_cant": "rounding of all counts", "anchors": ["pkg/hindsight/observe.go:calculateConfidence"]}
{"id": "C134", "title": "RetainFromText counts are exact", "statement": "RetainFromText stores exactly the facts with an id and a vector whose Retain succeeds, under the bank given; Retained is their number, Skipped the number of facts without id or vector, and every fact not stored has an error.", "quantifier": "all extractors, fact lists and failure points", "why_tests_cant": "all fact lists and failures", "anchors": ["pkg/hindsight/hooks.go:RetainFromText"]}
{"id": "C135", "title": "Observations keep their provenance", "statement": "GetObservations returns observations with the source memories, the type and the reasoning they were stored with.", "quantifier": "all observations", "why_tests_cant": "all observations", "anchors": ["pkg/hindsight/observe.go:GetObservations"]}
{"id": "C136", "title": "A created bank is returned until it is deleted", "statement": "GetBank returns a created bank unchanged after any further calls that do not delete it, in the same process.", "quantifier": "all histories without restart", "why_tests_cant": "all histories", "anchors": ["pkg/hindsight/hindsight.go:CreateBank", "pkg/hindsight/hindsight.go:GetBank"]}
{"id": "C137", "title": "The configured collection is used", "statement": "With any configured collection name, memories can be retained and are stored in that collection.", "quantifier": "all configurations", "why_tests_cant": "all names", "anchors": ["pkg/hindsight/hindsight.go:New", "pkg/hindsight/hindsight.go:getCollection"]}
{"id": "C138", "title": "Temporal recall keeps to the time range", "statement": "Every result of Recall found by the temporal strategy was created within the requested limits, both ends included.", "quantifier": "all stores, requests and ranges", "why_tests_cant": "all ranges", "anchors": ["pkg/hindsight/hindsight.go:temporalSearch"]}
{"id": "C139", "title": "Temporal and entity recall find every match", "statement": "Temporal recall returns every memory of the bank in the range up to TopK, and entity recall exactly the memories about the entities asked for up to TopK.", "quantifier": "all stores and requests", "why_tests_cant": "depends on all other memories", "anchors": ["pkg/hindsight/hindsight.go:temporalSearch", "pkg/hindsight/hindsight.go:entitySearch"]}
{"id": "C140", "title": "A fact without a type is a world fact", "statement": "A fact extracted without a type is stored as a world fact and shown as one by Reflect.", "quantifier": "all facts", "why_tests_cant": "all facts", "anchors": ["pkg/hindsight/hooks.go:ExtractedFact", "pkg/hindsight/hooks.go:RetainFromText"]}
{"id": "C141", "title": "A created bank survives a restart", "statement": "A created bank that was not deleted is returned after a restart with the name, description, background and traits it was created with.", "quantifier": "all histories and restarts", "why_tests_cant": "all histories and restarts", "anchors": ["pkg/hindsight/hindsight.go:CreateBank", "pkg/hindsight/hindsight.go:loadBanks"]}
{"id": "C142", "title": "Deleting a bank removes its memories", "statement": "After DeleteBank succeeds no memory of the bank is recalled.", "quantifier": "all histories", "why_tests_cant": "all histories", "anchors": ["pkg/hindsight/hindsight.go:DeleteBank"]}
{"id": "C143", "title": "Auto-retain fires at every TriggerEvery-th counted message", "statement": "With auto-retain on, extraction fires exactly at the stored messages that complete a multiple of TriggerEvery counted messages (of any session) since it was switched on, and is given the newest WindowSize messages of that message's session.", "quantifier": "all configurations, all sequences of messages, failing ones included", "why_tests_cant": "all sequences and failure points", "anchors": ["pkg/hindsight/chat.go:AddMessage", "pkg/hindsight/hooks.go:SetAutoRetain"]}
{"id": "C144", "title": "Results of the graph's vector index are current nodes with their true scores", "statement": "After the index was enabled and nodes were then changed one at a time, a vector search of the graph returns at most k distinct stored nodes, each with the similarity of its current vector to the query, none below the threshold, best first.", "quantifier": "all histories of single changes, random levels, queries, k and thresholds", "why_tests_cant": "the index is a second copy of the vectors; every history of inserts, updates and deletes must keep both in step", "anchors": ["pkg/graph/graph_hnsw.go:HNSWSearch", "pkg/graph/graph_hnsw.go:Add", "pkg/graph/graph_hnsw.go:Remove", "pkg/graph/graph.go:UpsertNode"]}
{"id": "C145", "title": "The graph's vector index answers when there is anything to answer", "statement": "After the index was enabled and nodes were then changed one at a time, a search with k at least 1 returns a node whenever any is stored and all reach the threshold.", "quantifier": "all histories of single changes, random levels, queries and k", "why_tests_cant": "deleting the entry point must leave a valid one behind in every history", "anchors": ["pkg/graph/graph_hnsw.go:Search", "pkg/graph/graph_hnsw.go:Remove"]}
{"id": "C146", "title": "The graph's vector index finds every node", "statement": "When k is at least the number of stored nodes and all reach the threshold, a vector search of the graph returns all of them.", "quantifier": "all histories and random levels", "why_tests_cant": "depends on the random levels and the shape of the proximity graph", "anchors": ["pkg/graph/graph_hnsw.go:Search", "pkg/graph/graph_hnsw.go:Add"]}
{"id": "C147", "title": "Hybrid search scores every candidate as documented and returns the best", "statement": "Hybrid search returns distinct nodes: those whose vector passes the threshold and those within the depth of the start node along allowed edges, of allowed types; each with its similarity, one over its hop distance plus one, and their sum under the normalised weights; best first, cut to TopK. Without the index, or without TopK, all stored nodes are compared.", "quantifier": "all histories, queries, filters, weights, row and map orders", "why_tests_cant": "all graphs with cycles and parallel paths, all orders of rows and map entries", "anchors": ["pkg/graph/graph_hybrid.go:HybridSearch", "pkg/graph/graph_hybrid.go:collectGraphDistances", "pkg/graph/graph_hybrid.go:vectorCandidates"]}
{"id": "C148", "title": "The edge weight counts for every hybrid result", "statement": "A hybrid result reached along edges counts their strength with EdgeWeight, whether or not its vector matched too.", "quantifier": "all graphs and queries", "why_tests_cant": "all combinations of vector and graph matches", "anchors": ["pkg/graph/graph_hybrid.go:HybridSearch"]}
{"id": "C149", "title": "Enabling the graph's index does not change what hybrid search finds", "statement": "A hybrid search with TopK at least the number of nodes finds the same nodes with and without the vector index.", "quantifier": "all histories and random levels", "why_tests_cant": "depends on random levels", "anchors": ["pkg/graph/graph_hybrid.go:vectorCandidates", "pkg/graph/graph_hnsw.go:EnableHNSWIndex"]}
{"id": "C150", "title": "Vector search around a node ranks exactly its neighbourhood", "statement": "Without a limit, vector search around a node returns the node and every node within the depth along allowed edges and of an allowed type, once each, with its similarity, most similar first.", "quantifier": "all reachable graphs, options and vectors", "why_tests_cant": "all graphs and row orders", "anchors": ["pkg/graph/graph_hybrid.go:GraphVectorSearch"]}
{"id": "C151", "title": "A limit keeps the most similar nodes of the neighbourhood", "statement": "Vector search around a node with a limit returns the most similar nodes of the neighbourhood.", "quantifier": "all graphs and limits", "why_tests_cant": "all graphs and row orders", "anchors": ["pkg/graph/graph_hybrid.go:GraphVectorSearch", "pkg/graph/graph_traversal.go:Neighbors"]}
{"id": "C152", "title": "Nodes similar to a node are exactly the best of the others", "statement": "Similarity search for a stored node returns the TopK most similar other nodes that reach the threshold, all of them when TopK is not positive; it fails exactly when the node is not stored.", "quantifier": "all reachable graphs, nodes, thresholds and TopK", "why_tests_cant": "all graphs", "anchors": ["pkg/graph/graph_hybrid.go:SimilarityInGraph"]}
{"id": "C153", "title": "Index search weighted with closeness uses the nearest centre", "statement": "Index search with centre nodes returns at most TopK distinct stored nodes; each has its true similarity, a closeness of one over the number of nodes on the shortest path from the nearest centre that reaches it (0 if none does), and their weighted sum; both thresholds hold and the best come first.", "quantifier": "all histories of single changes, centres, weights and thresholds", "why_tests_cant": "all graphs, histories and random levels", "anchors": ["pkg/graph/graph_hnsw.go:HNSWHybridSearch"]}
{"id": "C154", "title": "The queries a text search runs", "statement": "A text search request runs the request's query, its alternate queries and three keyword queries (the query's own keywords joined by OR, all keywords joined by OR, all keywords as prefixes joined by OR), each trimmed, in this order, leaving out blank ones and repetitions; keywords are the distinct lower-case words of two bytes or more that are not stop words, the caller's keywords before those of the query.", "quantifier": "every query, keyword list and list of alternate queries, every lower-casing, every set of letters and digits without punctuation", "why_tests_cant": "The planned list depends on every combination of blank, repeated, common and non-ASCII words; a test fixes a few texts.", "anchors": ["pkg/cortexdb/graphrag_tools.go: lexicalSearchQueries, lexicalQueryKeywords, mergeLexicalKeywords, formatFTSKeywords"]}
{"id": "C155", "title": "Merged text candidates are the best found", "statement": "A text search with a limit k >= 0 fails if there is nothing to ask, or if nothing was found and one of its queries failed; otherwise it returns the k best chunks found by its queries, each chunk once with the greatest of its weighted scores (the weight falls by 0.05 per query, down to 0.8), ties by id. Only the first query counts when it alone found k chunks.", "quantifier": "every list of queries, every answer of the full-text search to each of them (failures included), every limit k >= 0, every map order, scores that are numbers", "why_tests_cant": "Correctness depends on all interleavings of failing, empty and overlapping query answers and on map iteration order.", "anchors": ["pkg/cortexdb/graphrag_tools.go: searchTextCandidates"]}
{"id": "C156", "title": "A text search without a limit uses the default", "statement": "A text search request that leaves the limit out or gives a limit below one returns up to the default number of results (ten), as the database's own text search does, and never panics.", "quantifier": "every request", "why_tests_cant": "The unset limit is only reached by a request no test writes.", "anchors": ["pkg/cortexdb/graphrag_tools.go: searchTextCandidates", "pkg/cortexdb/cortexdb.go: SearchTextOnly"]}
{"id": "C157", "title": "Word-count vectors", "statement": "Without an embedder, the vector of a text has the requested dimension (64 if none is given); its component i is the number of the text's words, stripped of surrounding punctuation, whose hash is i modulo the dimension; a text without words gets the first unit vector. It is never the zero vector.", "quantifier": "every text of up to 2^24 words, every dimension, every hash function", "why_tests_cant": "Float accumulation is exact only below 2^24 and the claim is about every text and hash.", "anchors": ["pkg/cortexdb/graphrag_tools.go: lexicalVectorForText, normalizeToolToken, isAllZero"]}
{"id": "C158", "title": "Texts with different word counts get different vectors when no hashes collide", "statement": "Two texts whose words have different numbers of occurrences have different word-count vectors unless two words share a hash.", "quantifier": "every pair of texts", "why_tests_cant": "A statement about all pairs of texts.", "anchors": ["pkg/cortexdb/graphrag_tools.go: lexicalVectorForText"]}
{"id": "C159", "title": "Entities written are exactly those asked for", "statement": "UpsertEntities, when no statement fails, reports the ids of the entities that have a name or an id, in order; stores each under the id it resolves to (an id or name starting with entity: is kept, otherwise it is made from the id, else the name), the last one under an id winning, with its text, type, vector and properties (metadata overriding name and description); stores exactly the mention edges whose chunk is a stored node; and touches no other node or edge.", "quantifier": "every graph state, every list of entities, every trim, slug and vector function", "why_tests_cant": "Collisions of resolved ids within a batch, blank names and missing chunks combine arbitrarily", "anchors": ["pkg/cortexdb/graphrag_tools.go: UpsertEntities", "pkg/cortexdb/graphrag_tools.go: resolveEntityNodeID"]}
{"id": "C160", "title": "A failed or incomplete entity write is visible as such", "statement": "If UpsertEntities fails it has changed nothing, and if it succeeds the number of mention edges it reports were stored.", "quantifier": "every state, every failing statement", "why_tests_cant": "The fault can strike between the node and the edge batch", "anchors": ["pkg/cortexdb/graphrag_tools.go: UpsertEntities"]}
{"id": "C161", "title": "Relations written are exactly those asked for", "statement": "UpsertRelations, when no statement fails, draws one edge per relation naming both ends, with the weight 1 if none is given, its type or related_to, and its properties; the ids within a call are all different; stored are exactly those edges whose two entities are stored, replacing edges of the same id; no node and no other edge changes.", "quantifier": "every graph state and every list of relations", "why_tests_cant": "Ids are built by joining strings that may contain the separator", "anchors": ["pkg/cortexdb/graphrag_tools.go: UpsertRelations"]}
{"id": "C162", "title": "Writing a relation again changes nothing", "statement": "Sending a relation that is already stored leaves the graph as it is, and every edge id that UpsertRelations reports is stored.", "quantifier": "every graph state and sequence of requests", "why_tests_cant": "Depends on the position of the relation in each request", "anchors": ["pkg/cortexdb/graphrag_tools.go: UpsertRelations"]}
{"id": "C163", "title": "Chunks by entity are counted and ranked exactly", "statement": "When every named entity has at most 8 TopK nodes within the hops and every chunk at most 32 neighbours, SearchChunksByEntities returns the best TopK chunks by the number of names whose entity is linked to them (ties by id), those that are stored, each with that number as its score and the sorted names of the entities next to it.", "quantifier": "every graph, list of names, hops and TopK, every row order and map order", "why_tests_cant": "The ranking depends on map order, row order and float sums", "anchors": ["pkg/cortexdb/graphrag_tools.go: SearchChunksByEntities", "pkg/cortexdb/graphrag_tools.go: loadToolChunks"]}
{"id": "C164", "title": "Every chunk linked to an entity is found", "statement": "SearchChunksByEntities returns every stored chunk linked to a named entity as long as TopK leaves room for it.", "quantifier": "every graph and list of names", "why_tests_cant": "Only graphs with many other neighbours show the cut", "anchors": ["pkg/cortexdb/graphrag_tools.go: SearchChunksByEntities"]}
{"id": "C165", "title": "Expanding returns exactly the surrounding graph", "statement": "ExpandGraph without a limit returns, each once, the stored nodes asked for and the nodes of the wanted types within the hops of them over edges of the wanted types, and exactly the edges between those nodes.", "quantifier": "every graph, list of ids, hops and type filters, every row order", "why_tests_cant": "Cycles, missing ids and filters combine arbitrarily", "anchors": ["pkg/cortexdb/graphrag_tools.go: ExpandGraph"]}
{"id": "C166", "title": "Chunks are read in order and the context keeps its limits", "statement": "GetChunks returns the stored chunks among the ids in the order asked, with the names of the entities next to each exactly when the graph is wanted; BuildContext packs exactly those greedily under the limits on chunks, chunks per document and characters, and its text is one line per packed chunk.", "quantifier": "every store, graph, list of ids and limits", "why_tests_cant": "The packing depends on all sizes at once", "anchors": ["pkg/cortexdb/graphrag_tools.go: GetChunks", "pkg/cortexdb/graphrag_tools.go: BuildContext"]}
{"id": "C167", "title": "Reading knowledge", "statement": "Reading a knowledge item returns the title, content, url, author and metadata of its document, the ids of exactly the chunks stored for it, the collection of one of them (the default one without chunks) and, when no chunk has more than 32 neighbours in the graph, the sorted distinct names of exactly the entities next to its chunks; an unknown id is not found", "quantifier": "every database reached through the API, id and order of rows and edges", "why_tests_cant": "databases, chunk and entity links, and row orders are unbounded", "anchors": ["pkg/cortexdb/knowledge_api.go", "DB.GetKnowledge", "loadKnowledgeRecord"]}
{"id": "C168", "title": "Deleting knowledge", "statement": "Deleting a knowledge item removes its document, its chunks, their graph nodes and every edge at those nodes, and changes no other document, chunk, node or edge; deleting an unknown id changes nothing and reports not found", "quantifier": "every database reached through the API and id, when no statement fails", "why_tests_cant": "all databases with shared entities and any number of documents", "anchors": ["pkg/cortexdb/knowledge_api.go", "DB.DeleteKnowledge", "cleanupKnowledgeArtifacts"]}
{"id": "C169", "title": "Deleting knowledge leaves nothing of it", "statement": "After a knowledge item is deleted the graph holds no relation that was saved with it", "quantifier": "every database and id", "why_tests_cant": "needs every history of saves", "anchors": ["pkg/cortexdb/knowledge_api.go", "DB.DeleteKnowledge", "cleanupKnowledgeArtifacts"]}
{"id": "C170", "title": "Saving knowledge", "statement": "Saving a knowledge item replaces what was stored under its id: the document carries the given fields and the next version, exactly the pieces of the new content are stored as chunks in the collection asked for, with their place and the given metadata, the graph holds the document, one node for each piece, edges from the document to each piece and from each piece to the next, and the given entities, mentions and relations; other documents, chunks, nodes and edges stay, and the answer is what a read returns", "quantifier": "every database reached through the API and request that can be stored, when no statement fails, with or without an earlier item", "why_tests_cant": "content, pieces, entities and earlier states are unbounded", "anchors": ["pkg/cortexdb/knowledge_api.go", "DB.SaveKnowledge", "ingestKnowledgeContent", "pkg/cortexdb/graphrag_tools.go", "IngestDocument", "UpsertEntities", "UpsertRelations"]}
{"id": "C171", "title": "Replacing knowledge is all or nothing", "statement": "A save or update that reports an error leaves the earlier knowledge item as it was", "quantifier": "every database, request and point of failure", "why_tests_cant": "needs every failure point in every state", "anchors": ["pkg/cortexdb/knowledge_api.go", "DB.SaveKnowledge", "DB.UpdateKnowledge"]}
{"id": "C172", "title": "Updating knowledge", "statement": "An update that gives new content, title, collection or metadata stores the item again with the fields not given unchanged and the next version; an update that gives none of them changes only the url and author given and the version, keeps the chunks and the access list, and adds the given entities and relations", "quantifier": "every database reached through the API, stored item and update, when no statement fails", "why_tests_cant": "all combinations of given fields over all states", "anchors": ["pkg/cortexdb/knowledge_api.go", "DB.UpdateKnowledge"]}
{"id": "C173", "title": "Updating keeps what was not asked to change", "statement": "Changing only the title of an item keeps its links to entities, and saving an item again keeps its access list", "quantifier": "every database and request", "why_tests_cant": "needs every state and combination of fields", "anchors": ["pkg/cortexdb/knowledge_api.go", "DB.SaveKnowledge", "DB.UpdateKnowledge"]}
{"id": "C174", "title": "Saving knowledge spares other knowledge", "statement": "Whatever statements fail while an item is saved and whatever is returned, every other document reads as before, and so does every chunk that is neither one of the item's nor stored under the id of one of its new pieces", "quantifier": "every database reached through the API, request and pattern of failures", "why_tests_cant": "failure patterns and states are unbounded", "anchors": ["pkg/cortexdb/knowledge_api.go", "DB.SaveKnowledge"]}
{"id": "C175", "title": "Knowledge search hits", "statement": "The hits of a knowledge search are the documents of the found chunks (a chunk without document counts for itself), each once, with the score and text of the first of its best chunks, the ids of exactly its found chunks, the sorted distinct names of exactly their entities and the document's fields, best score first and then by id; texts over 180 bytes are cut to 177 and dots", "quantifier": "every list of found chunks with scores that are numbers, and every store", "why_tests_cant": "lists of chunks, ties and repeated ids are unbounded", "anchors": ["pkg/cortexdb/knowledge_api.go", "DB.SearchKnowledge", "aggregateKnowledgeHits", "pkg/cortexdb/knowledge_memory_helpers.go", "compactSnippet"]}
{"id": "C176", "title": "A lost document does not fail a knowledge search", "statement": "A knowledge search still answers with the documents it can read when one of the found chunks names a document that is not stored", "quantifier": "every list of found chunks and store", "why_tests_cant": "needs every mix of stored and lost documents", "anchors": ["pkg/cortexdb/knowledge_api.go", "aggregateKnowledgeHits"]}
{"id": "C177", "title": "A filter text means what it says", "statement": "For every text made of comparisons written without spaces, joined by OR into groups (in parentheses or not) and the groups by AND, ParseFilterString returns the AND of the groups, each the OR of its comparisons, with field, operator and value (quoted text, truth value, number or text) as written, provided that no earlier group is in parentheses when the last one is.", "quantifier": "all texts of any length, any number of groups and comparisons, any fields and values without special characters, any number syntax", "why_tests_cant": "A test fixes a few texts; the claim is about every text of the grammar and any nesting depth.", "anchors": ["pkg/core/advanced_filter.go:ParseFilterString", "pkg/core/advanced_filter.go:parseComparison", "pkg/core/advanced_filter.go:parseValue"]}
{"id": "C178", "title": "A list of values in a filter text", "statement": "For every field and every list of values, the text \"field IN (v,v,...)\" is read as the IN condition on that field with exactly these values in order.", "quantifier": "all fields, all lists of values of any length", "why_tests_cant": "Tests use lists of two or three values.", "anchors": ["pkg/core/advanced_filter.go:parseComparison"]}
{"id": "C179", "title": "Ranges in a filter text", "statement": "A text \"field BETWEEN a AND b\", alone or combined with others as in the documentation's example, is read as the range condition.", "quantifier": "all fields, bounds and combinations", "why_tests_cant": "Needs every text; the negative result (no text ever gives a range) is universal too.", "anchors": ["pkg/core/advanced_filter.go:ParseFilterString", "pkg/core/advanced_filter.go:parseComparison"]}
{"id": "C180", "title": "No filter text crashes the program", "statement": "ParseFilterString returns an expression or an error for every text.", "quantifier": "all texts", "why_tests_cant": "Only a proof covers every string.", "anchors": ["pkg/core/advanced_filter.go:parseValue", "pkg/core/advanced_filter.go:ParseFilterString"]}
{"id": "C181", "title": "Parentheses in a filter text group", "statement": "A text in which each side of AND or OR is in parentheses is read as the combination of the two sides.", "quantifier": "all pairs of texts", "why_tests_cant": "Needs every pair of texts.", "anchors": ["pkg/core/advanced_filter.go:ParseFilterString"]}
{"id": "C182", "title": "Every operator of the table works, and quotes protect a value", "statement": "Each operator of the parser's table, := included, separates field and value, and operators inside a quoted value are part of the value.", "quantifier": "all operators, fields and values", "why_tests_cant": "Needs every field and value.", "anchors": ["pkg/core/advanced_filter.go:parseComparison"]}
{"id": "C183", "title": "InsertText stores the text under its id", "statement": "After InsertText succeeds, reading the id returns the text, the metadata and the embedder's vector (adapted to the store's dimension), in the default collection, and every other id reads as before; it succeeds for a text with a fitting vector, and when it fails nothing is stored.", "quantifier": "all stores, embedders, ids, texts, metadata and failures", "why_tests_cant": "All embedders and store states.", "anchors": ["pkg/cortexdb/cortexdb.go:InsertText"]}
{"id": "C184", "title": "InsertTextBatch stores all texts or none", "statement": "InsertTextBatch stores every text that is not empty under its id with its own vector, whatever the order in which the map is visited, or fails leaving the store as it was; it checks the vectors' dimension as InsertText does.", "quantifier": "all maps of texts, visiting orders, embedders and failures", "why_tests_cant": "Map order and failures cannot be enumerated.", "anchors": ["pkg/cortexdb/cortexdb.go:InsertTextBatch"]}
{"id": "C185", "title": "Text-only search returns the best matches in order", "statement": "On an open store, SearchTextOnly returns the first TopK (10 if not positive) of the stored full-text matches among the first 3*TopK, in the order of the matches, each scored 1/(60+place); an empty query or a closed store is refused.", "quantifier": "all stores, full-text answers, options and sorting algorithms", "why_tests_cant": "The order rests on float64 rounding for every place.", "anchors": ["pkg/cortexdb/cortexdb.go:SearchTextOnly", "pkg/core/advanced_search.go:HybridSearch"]}
{"id": "C186", "title": "Text-only search honours collection and threshold", "statement": "SearchTextOnly returns only matches of the collection given and with at least the threshold's score, and reports a malformed query.", "quantifier": "all stores, options and queries", "why_tests_cant": "All options and stores.", "anchors": ["pkg/cortexdb/cortexdb.go:SearchTextOnly", "pkg/cortexdb/cortexdb.go:ftsSearch"]}
{"id": "C187", "title": "Text search is vector search for the text's vector", "statement": "SearchTextInCollection returns the TopK best of exactly the embeddings of the collection (all if none is given), scored against the vector of the query and blended with the text similarity to the query as configured; without an embedder or with an empty query it fails.", "quantifier": "all stores, embedders, queries and similarity functions", "why_tests_cant": "All similarity functions and stores.", "anchors": ["pkg/cortexdb/cortexdb.go:SearchTextInCollection"]}
{"id": "C188", "title": "Empty texts are refused", "statement": "Every call that inserts a text refuses an empty one.", "quantifier": "all calls and stores", "why_tests_cant": "All stores.", "anchors": ["pkg/cortexdb/cortexdb.go:InsertText", "pkg/cortexdb/cortexdb.go:InsertTextBatch", "pkg/cortexdb/cortexdb.go:AddTextToCollection"]}
{"id": "C189", "title": "Training the IVF index changes no data and succeeds exactly when it can", "statement": "TrainIndex never changes stored embeddings, collections or settings, whatever its outcome. On an open store whose vectors all have the store's dimension it succeeds exactly when the index type is IVF, the dimension is known, the vectors can be read and there are at least as many stored embeddings as centroids wanted (the argument, else the configured number, else 100).", "quantifier": "every store reached by any calls, trainings and reopenings, every argument, every row order, every clustering", "why_tests_cant": "the outcome depends on the whole history of the store and on statement failures", "anchors": ["pkg/core/store_index.go:TrainIndex"]}
{"id": "C190", "title": "A search after training is exact when the index is asked for enough", "statement": "After TrainIndex succeeded with at most ten centroids (and no more than the configured probe count), and after any further inserts, batches, clears, collection and document creations, a search without a doc_id filter returns exactly the TopK best of the qualifying stored embeddings, provided 4*TopK is at least the number stored at training plus those given since and all vectors have the store's dimension. It does not panic.", "quantifier": "every such history, query, option set, similarity, distance and clustering", "why_tests_cant": "an approximate index can lose an entry in any of its lists; a test sees single data sets", "anchors": ["pkg/core/store_index.go:TrainIndex", "pkg/core/store_search.go:searchWithIVF", "pkg/index/ivf.go:Search"]}
{"id": "C191", "title": "Before any successful training an IVF store searches exhaustively", "statement": "On a store configured for IVF, as long as no TrainIndex has succeeded since it was opened, every search answers exactly as the exhaustive search does, also after failed trainings.", "quantifier": "every history without a successful training, every query", "why_tests_cant": "ranges over all histories and failures", "anchors": ["pkg/core/store_index.go:initIVFIndex", "pkg/core/store_index.go:TrainIndex", "pkg/core/store_search.go:Search"]}
{"id": "C192", "title": "A failed training leaves searches as they were", "statement": "If TrainIndex fails, searches keep seeing every stored embedding, now and after later inserts.", "quantifier": "every store and failing call", "why_tests_cant": "needs the failure and a later insert in one history", "anchors": ["pkg/core/store_index.go:TrainIndex", "pkg/index/ivf.go:Clear"]}
{"id": "C193", "title": "Deleting an embedding from a trained store keeps searches working", "statement": "After Delete on a store with a trained IVF index, Search still answers and returns only stored embeddings.", "quantifier": "every trained store and deleted id", "why_tests_cant": "depends on the position of the entry in its list", "anchors": ["pkg/core/store_crud.go:Delete", "pkg/index/ivf.go:Delete"]}
{"id": "C194", "title": "Lexical GraphRAG search answers exactly the reranked candidates", "statement": "SearchGraphRAGLexical on a non-blank query takes as candidates every distinct chunk found by the text search, then every distinct chunk found through the wanted entities (given, or named in the query; scoring at least 0.75), in the order first found and with the best of its scores, where a chunk met in the graph from one of them counts as a further hit of 0.5; up to MaxRelatedChunks chunks met only in the graph are added. The answer is the reranking and packing of these candidates, its context is the text of the answered chunks, its entities are exactly those met from a seed or next to a candidate, and it fails exactly when the query is blank or a search or graph read it needs fails.", "quantifier": "all queries, options, entity names, search answers, graphs, map orders and sorts", "why_tests_cant": "the answer depends on the joint outcome of three searches and every order in which hits repeat a chunk", "anchors": ["pkg/cortexdb/graphrag_tools.go:SearchGraphRAGLexical"]}
{"id": "C195", "title": "Lexical GraphRAG search is determined by the stored data", "statement": "Two calls of SearchGraphRAGLexical with the same request on the same stored data answer the same chunks.", "quantifier": "all requests, stored data and map iteration orders", "why_tests_cant": "map iteration order varies between runs, a test sees one order", "anchors": ["pkg/cortexdb/graphrag_tools.go:SearchGraphRAGLexical"]}
{"id": "C196", "title": "A graph written as GraphML and read back keeps nodes, edges and six decimals of each weight", "statement": "If the graph's texts survive XML and its weights are numbers, exporting it as GraphML and importing the result into an empty graph succeeds and gives exactly one node for each node, with the same id, content, type, properties and, when all its numbers are finite, vector, and exactly one edge for each edge, with the same id, ends, type and properties and with the weight rounded to the nearest six-decimal number; a weight that is the number nearest to a nonzero multiple of 10^-6 comes back unchanged", "quantifier": "every graph reachable through the API, every order in which rows are read, every weight", "why_tests_cant": "tests export graphs with weights such as 1 and 0.5; which weights survive %f is a statement about all float64 values", "anchors": ["pkg/graph/graph_export.go: ExportGraphML, ImportGraphML"]}
{"id": "C197", "title": "A graph written as GEXF and read back keeps nodes, edges and weights", "statement": "If the graph's texts survive XML and its weights are numbers, exporting it as GEXF and importing the result into an empty graph succeeds and gives exactly one node for each node, with the same id, content, type, properties and, when all its numbers are finite, vector, and exactly one edge for each edge, with the same id, ends, type and weight", "quantifier": "every graph reachable through the API, every order in which rows are read", "why_tests_cant": "tests cannot cover all graphs", "anchors": ["pkg/graph/graph_export.go: ExportGEXF, ImportGEXF"]}
{"id": "C198", "title": "A graph written as GraphML or GEXF and read back is the graph that was written", "statement": "Exporting a graph as GraphML or GEXF and importing the result into an empty graph restores all nodes and edges with all their fields", "quantifier": "every graph reachable through the API", "why_tests_cant": "a loss that occurs for some weights, vectors or properties only is seen by tests that happen to use such values", "anchors": ["pkg/graph/graph_export.go: ExportGraphML, ImportGraphML, ExportGEXF, ImportGEXF"]}
{"id": "C199", "title": "What an export wrote is recognised by format detection", "statement": "DetectFormat, given what ExportGraphML, ExportGEXF or ExportJSON wrote, names that format, whatever the graph contained and however many bytes (at least 47) the first read gives", "quantifier": "every content after the fixed beginning of each format, every read size", "why_tests_cant": "tests try small exports only; a node text that mentions another format must not matter", "anchors": ["pkg/graph/graph_export.go: DetectFormat, ExportGraphML, ExportGEXF, ExportJSON"]}
{"id": "C200", "title": "Format detection names the format of a document and leaves it to be imported", "statement": "DetectFormat names the format of every GraphML, GEXF and JSON document, and the reader can then be passed to Import", "quantifier": "every document of one of the three formats", "why_tests_cant": "tests detect a few fixed documents", "anchors": ["pkg/graph/graph_export.go: DetectFormat, Import"]}
{"id": "C201", "title": "Quantised index stays close to the data", "statement": "With a scalar quantiser and the first data given as a batch, whatever is stored, updated, refused and deleted afterwards without retraining, no call panics and for every id the index compares queries with a vector that lies in each component at most one quantisation step below the first vector given for the id, cut to the range of the first thousand vectors of the batch.", "quantifier": "every dimension, number of bits, first batch and history", "why_tests_cant": "the bound has to hold for every vector and history; tests compare a few vectors", "anchors": ["pkg/core/store_crud.go Upsert, UpsertBatch (auto-train)", "pkg/core/store_index.go TrainQuantizer", "pkg/index/hnsw.go Insert, calculateDistance", "pkg/quantization/scalar_quantization.go"]}
{"id": "C202", "title": "Quantised index after single inserts", "statement": "With a scalar quantiser the index holds every embedding up to one quantisation step of the range of the stored data, however the data are stored.", "quantifier": "every history of single inserts", "why_tests_cant": "needs all vectors and histories; tests insert a batch or look at counts", "anchors": ["pkg/core/store_crud.go Upsert 55-69", "pkg/core/store_index.go TrainQuantizer"]}
{"id": "C203", "title": "Training again keeps what is indexed", "statement": "Training the quantiser again leaves the vectors held by the index within one quantisation step of what was stored.", "quantifier": "every history and training point", "why_tests_cant": "a statement about all data; no test searches after retraining", "anchors": ["pkg/core/store_index.go TrainQuantizer 311-358", "pkg/index/hnsw.go calculateDistance 78-97"]}
{"id": "C204", "title": "Training learns from what is stored", "statement": "Whatever is stored, updated, deleted and trained in any order, no call panics, and an embedding stored under a new id right after training is held by the index up to one quantisation step of the range of the first thousand vectors stored at that time.", "quantifier": "every history, row order and vector", "why_tests_cant": "ranges over all histories and row orders", "anchors": ["pkg/core/store_index.go TrainQuantizer 311-358", "pkg/core/store_crud.go Upsert"]}
{"id": "C205", "title": "Exporting and importing the index restores it", "statement": "Exporting the HNSW index of a store and importing the file into any open store with HNSW enabled gives an index that answers every search exactly as the exported one, holds the same nodes, links and deletion marks, and on which every further history of inserts and deletes runs; the other index of the store is untouched.", "quantifier": "every history, query, map order and previous content of the importing store", "why_tests_cant": "ranges over all graphs and queries; there is no test of the pair", "anchors": ["pkg/core/io.go ExportIndex 398-429, ImportIndex 432-471", "pkg/index/hnsw.go Save, Load 100-157"]}
{"id": "C206", "title": "IVF index comes back from its file", "statement": "Saving an IVF index and loading the file into any other IVF index gives the same index.", "quantifier": "every index and every previous content", "why_tests_cant": "all contents", "anchors": ["pkg/index/ivf.go Save, Load 41-84"]}
{"id": "C207", "title": "Incomplete index files are reported", "statement": "When an index file is cut short at any point, the export that wrote it reported an error and importing it reports an error.", "quantifier": "every index, every cut", "why_tests_cant": "every cut point", "anchors": ["pkg/core/io.go ExportIndex, ImportIndex", "pkg/index/hnsw.go Load", "pkg/index/ivf.go Load"]}
{"id": "C208", "title": "Failed import leaves the index usable", "statement": "An import that returns an error leaves the store answering searches as before.", "quantifier": "every file and store", "why_tests_cant": "every cut point and previous content", "anchors": ["pkg/core/io.go ImportIndex 432-471", "pkg/index/hnsw.go Load 128-157"]}
{"id": "C209", "title": "Successful import is used", "statement": "After an import that returned no error searches use the imported index, and a store can import what it exported.", "quantifier": "every index and configuration", "why_tests_cant": "all combinations of index types and configurations", "anchors": ["pkg/core/io.go ImportIndex 432-471"]}
{"id": "C210", "title": "Failed export keeps the file", "statement": "An export that returns an error leaves an earlier export in the file usable.", "quantifier": "every file and store", "why_tests_cant": "needs failures that tests do not provoke", "anchors": ["pkg/core/io.go ExportIndex 398-429"]}
{"id": "C211", "title": "Refused index calls change nothing", "statement": "ExportIndex and ImportIndex on a closed store, with a file that cannot be created or opened, or (import) without HNSW in the configuration return an error and change neither file nor indexes.", "quantifier": "every store and file", "why_tests_cant": "all states", "anchors": ["pkg/core/io.go ExportIndex, ImportIndex"]}
{"id": "C212", "title": "Reopening keeps the quantised index", "statement": "Closing a store with a scalar quantiser and opening it again, with any configuration that allows a quantiser, leaves the index comparing queries with the same vectors; and when no snapshot of the nodes is there, the rebuilt index holds every stored embedding up to one quantisation step of the range of the first thousand rows.", "quantifier": "every history, configuration and row order", "why_tests_cant": "all histories and configurations", "anchors": ["pkg/core/store_index.go initHNSWIndex, loadIndexSnapshot, saveIndexSnapshot", "pkg/quantization/scalar_quantization.go Save, Load"]}
{"id": "C213", "title": "Reopening with another configuration keeps searches meaningful", "statement": "A store that was used with quantisation can be opened with any configuration and still compares queries with the stored vectors.", "quantifier": "every configuration", "why_tests_cant": "all configurations", "anchors": ["pkg/core/store_index.go loadIndexSnapshot 416-437", "pkg/index/hnsw.go calculateDistance 78-97", "pkg/cortexdb/cortexdb.go Open"]}
{"id": "C214", "title": "A database file can always be opened again", "statement": "Whatever index configurations the sessions on one file have, whatever is written, deleted, trained and saved in them, wherever the process dies and whether or not a stored snapshot can be read: every opening succeeds and every call returns.", "quantifier": "all histories of sessions, calls, saves that succeed or fail, closings and deaths, all configurations, all levels and map orders", "why_tests_cant": "histories and configurations can be combined without end", "anchors": ["pkg/core/store_index.go:initHNSWIndex", "pkg/core/store_index.go:initIVFIndex", "pkg/core/store_close.go:Close"]}
{"id": "C215", "title": "A saved HNSW index survives any number of sessions", "statement": "Once a session whose index type is HNSW has saved its snapshot and nothing is written any more, every later session with HNSW enabled answers every search as that session did, through any number of sessions of any kind that close, die, save or fail to save.", "quantifier": "all histories before the save, all sessions after it, all queries", "why_tests_cant": "needs equality of answers for every history and query", "anchors": ["pkg/core/store_index.go:saveIndexSnapshot", "pkg/core/store_index.go:loadIndexSnapshot"]}
{"id": "C216", "title": "A saved IVF index survives any number of sessions, and the configuration is respected", "statement": "Once a session has saved a trained IVF index and nothing is written any more, every later IVF session has exactly that index; the number of lists it probes is the one configured for the new session.", "quantifier": "all histories before the save, all sessions after it", "why_tests_cant": "needs equality for every history; the second half is false", "anchors": ["pkg/core/store_index.go:initIVFIndex", "pkg/index/ivf.go:Load"]}
{"id": "C217", "title": "A missing or damaged snapshot leads to a correct index", "statement": "A session that finds no snapshot, cannot read it, or finds a damaged one starts with an index of exactly the stored embeddings and answers searches.", "quantifier": "all histories, all damaged snapshots", "why_tests_cant": "the ways a snapshot can be damaged are unbounded; false for snapshots that break off after the entry point", "anchors": ["pkg/core/store_index.go:initHNSWIndex", "pkg/index/hnsw.go:Load", "pkg/index/ivf.go:Load"]}
{"id": "C218", "title": "After proper closings a session finds what is stored", "statement": "When every session on a file was closed properly, a new session with HNSW enabled finds the stored embeddings and no deleted ones, also when sessions with other index configurations came in between.", "quantifier": "all sequences of properly closed sessions", "why_tests_cant": "depends on every sequence of configurations; false", "anchors": ["pkg/core/store_index.go:loadIndexSnapshot", "pkg/core/store_index.go:saveIndexSnapshot"]}
{"id": "C219", "title": "Interrupting the saving of the index does no harm", "statement": "When the saving of a quantised index at close or checkpoint fails or is cut off at any statement, a store opened on the file afterwards works with the index of this save or of the save before: for every id it compares queries with the vector the one or the other index held, never with a mixture of the two.", "quantifier": "every trained store, every history of inserts, batches and deletions between two saves, every point at which the second save fails, every row order and every content of the file before", "why_tests_cant": "the damage depends on the statement at which a crash falls and on what happened between two saves", "anchors": ["pkg/core/store_index.go: saveIndexSnapshot", "loadIndexSnapshot", "pkg/core/store_close.go: Close", "pkg/quantization/scalar.go"]}
{"id": "C220", "title": "Log lines are whole and in order", "statement": "When any number of goroutines log at the same time, every message at or above the minimum level appears in the log as one whole line, the lines of every goroutine in the order in which it logged them; a log cut off at any moment is whole lines followed by the beginning of at most one; no goroutine waits for ever.", "quantifier": "every number of goroutines, every sequence of messages of each, every schedule of their steps, every level and every key-value pairs; a program's own logger next to the one the store derives from it", "why_tests_cant": "interleavings of the single writes are not under the control of a test", "anchors": ["pkg/core/logger.go: defaultLogger.log", "With", "pkg/core/store.go: New", "SetLogger"]}
{"id": "C221", "title": "A log line shows what was logged", "statement": "A line shows the time, the level, all key-value pairs given to With and to the call in their order, and the message, exactly if the message reaches the level the logger was created with; the discarding logger writes nothing; different messages give different logs.", "quantifier": "every chain of With calls, every message, level and list of arguments, paired or not", "why_tests_cant": "keys, values and messages are arbitrary strings, also with line breaks or missing values", "anchors": ["pkg/core/logger.go: With", "log", "LogLevel.String", "NopLogger"]}
{"id": "C222", "title": "Errors keep their kind and text", "statement": "Whatever context operations and callers put around an error, errors.Is tells its kind exactly: it is a given error if and only if its cause is; the text of the cause is part of the text. Wrapping makes no error out of success, and the kinds of the package are told apart.", "quantifier": "every error, every number and order of layers of context with every operation name and text, every target", "why_tests_cant": "chains are arbitrarily deep", "anchors": ["pkg/core/errors.go: StoreError", "Error", "Unwrap", "Is", "wrapError"]}
{"id": "C223", "title": "A failing embedder is reported as such, with its cause", "statement": "When an operation fails because the embedder failed, the error is ErrEmbeddingFailed and contains the embedder's message, otherwise it is not; and a caller can find the embedder's own error in it with errors.Is, for instance a cancelled context.", "quantifier": "every error of the embedder, every operation that embeds", "why_tests_cant": "the embedder is supplied by the user and may return any error", "anchors": ["pkg/cortexdb/cortexdb.go: AddTextToCollection", "InsertText", "InsertTextBatch", "SearchText", "pkg/cortexdb/graphrag.go: InsertGraphDocument", "pkg/cortexdb/memory_api.go", "pkg/cortexdb/embedder.go"]}
{"id": "C224", "title": "The tools are the same by either way", "statement": "The tools listed, those callable by name and those of the MCP server are the same; called either way a tool runs the same operation on the same request, with the same effect, error and response; an unknown name or undecodable input changes nothing; a failing call has no result.", "quantifier": "every tool name, also unknown ones, every input, every state of the database", "why_tests_cant": "names are arbitrary strings and three separate tables must agree", "anchors": ["pkg/cortexdb/mcp.go: NewMCPServer", "addGraphRAGMCPTool", "pkg/cortexdb/graphrag_tools.go: Definitions", "Call", "pkg/cortexdb/knowledge_memory_tooldefs.go"]}
{"id": "C225", "title": "Changing the dimension policy takes effect", "statement": "After SetAutoDimAdapt embeddings of another dimension are refused or adapted by the new policy, as Config reports it.", "quantifier": "every store, every history of policy changes and upserts", "why_tests_cant": "histories are unbounded", "anchors": ["pkg/core/store.go: SetAutoDimAdapt", "Config", "New", "pkg/core/store_crud.go: Upsert", "pkg/core/dimension.go"]}
{"id": "C226", "title": "Close leaves the current index on disk", "statement": "Once Close has returned and its statements succeeded, the saved snapshot is the index and the quantiser the store had when it was closed, also with periodic saving running beside it; at every moment a saved snapshot is that of an index the store once had.", "quantifier": "every interleaving of writers, the steps of the periodic save, the timer and the steps of Close, and every failure of the periodic save's statements", "why_tests_cant": "the outcome depends on the interleaving of two goroutines at single statements", "anchors": ["pkg/core/store_index.go: saveIndexSnapshot", "startAutoSave", "autoSaveLoop", "pkg/core/store_close.go: Close"]}
{"id": "C227", "title": "Nothing is saved after Close, and periodic saving ends", "statement": "After Close has returned the saved snapshots do not change any more and writes are refused, whatever was under way; the save timer fires at most once more.", "quantifier": "every interleaving before and after Close", "why_tests_cant": "timers and goroutines outlive the call that started them", "anchors": ["pkg/core/store_index.go: autoSaveLoop", "pkg/core/store_close.go: Close"]}
{"id": "C228", "title": "The settings of automatic saving are obeyed", "statement": "With AutoSave.Enabled off nothing is saved before Close; with SaveOnClose off Close saves nothing; periodic saves happen only after at least MinChanges changes.", "quantifier": "every configuration and every interleaving", "why_tests_cant": "settings act only through histories of changes and timer firings", "anchors": ["pkg/core/embedding.go: AutoSaveConfig", "pkg/core/store_index.go: autoSaveLoop", "IncrementChanges", "pkg/core/store_close.go: Close"]}
{"id": "C229", "title": "Backup writes exactly the named file", "statement": "A successful Backup puts a copy of the database into the file of the given name, which did not exist, and changes nothing else; a failing one changes nothing; it succeeds exactly if the store is open, the file does not exist and nothing else fails. The path is only ever a file name.", "quantifier": "every path, every database and every content of the file system", "why_tests_cant": "paths are arbitrary strings", "anchors": ["pkg/core/io.go: Backup"]}
{"id": "C230", "title": "Whole-number arguments", "statement": "A whole number written in decimal digits in the text of an integer parameter, with no digits before it and whatever text surrounds it, becomes an argument with exactly its value when it fits in 63 bits. Numbers with a sign, an exponent or more digits should be read as written too, and an integer or number parameter should never receive a word.", "quantifier": "every text, every decimal number in it and every spelling of the type name", "why_tests_cant": "Digit runs and surroundings are unbounded; tests use a few small positive numbers.", "anchors": ["pkg/semantic-router/schema.go: RegexExtractor.coerceType"]}
{"id": "C231", "title": "Boolean and list arguments", "statement": "A boolean parameter is true exactly when its text is true, yes, \u662f or \u597d\u7684 in any letter case, and false for every other text. A list parameter is the text cut at its commas: joined again with commas it is the same text, and no element contains a comma.", "quantifier": "every text and every spelling of the type name", "why_tests_cant": "All texts, including empty elements and other words for yes, cannot be tried.", "anchors": ["pkg/semantic-router/schema.go: RegexExtractor.coerceType"]}
{"id": "C232", "title": "Where an argument comes from", "statement": "The value of a parameter without a pattern of its own is what follows the first keyword found in the text with something after it; otherwise the first allowed value contained in the text; otherwise the default; otherwise there is none. Looking for it should never panic and an allowed value should only match a word of the text.", "quantifier": "every text, keyword list, parameter schema and behaviour of the regular expression built from a keyword", "why_tests_cant": "Keywords come from free descriptions; tests use descriptions of plain words.", "anchors": ["pkg/semantic-router/schema.go: RegexExtractor.extractValue", "pkg/semantic-router/schema.go: RegexExtractor.extractKeywords"]}
{"id": "C233", "title": "Required parameters of a built schema", "statement": "The required list of a built function schema holds each parameter name exactly once whose last definition is required, and no other name; building again should not change it.", "quantifier": "every sequence of parameter definitions, including redefinitions, and every order in which the map is walked", "why_tests_cant": "Map order varies between runs and redefinitions combine without bound.", "anchors": ["pkg/semantic-router/schema.go: SchemaBuilder.AddParameter", "pkg/semantic-router/schema.go: SchemaBuilder.Build"]}
{"id": "C234", "title": "Patterns found by reflection", "statement": "Observing a bank reports a preference pattern for exactly the entities named at least twice in the recalled memories of which one speaks of a preference, and a causal pattern likewise; each observation belongs to the bank and cites the memories that name the entity. A pattern should rest on at least two different memories, and only the kinds of observation asked for should be reported.", "quantifier": "every list of recalled memories, every order in which the map of entities is walked, every bank and request", "why_tests_cant": "Memories, entities and map orders are unbounded; tests use one or two entities.", "anchors": ["pkg/hindsight/hindsight.go: System.detectPatterns", "pkg/hindsight/hindsight.go: System.isPreferencePattern", "pkg/hindsight/types.go: ReflectRequest.ObservationTypes"]}
{"id": "C235", "title": "Generalisations found by reflection", "statement": "From three or more recalled memories a generalisation is drawn exactly if a word of more than four bytes is written at least twice, and it is about a word written most often. The theme should be shared by several memories and the same memories should give the same theme.", "quantifier": "every list of memories, every way to cut texts into words and every order in which the map of words is walked", "why_tests_cant": "The choice depends on Go's random map order and on counts over all memories.", "anchors": ["pkg/hindsight/hindsight.go: System.generalizeFromMemories"]}
{"id": "C236", "title": "Observations that are stored", "statement": "A successful Observe stores exactly the returned observations whose confidence reaches the minimum and leaves the memories already stored in place; it should work under every dimension policy.", "quantifier": "every system, request, list of recalled memories, failure of the store and dimension policy", "why_tests_cant": "Needs every combination of store state, policy and pattern; tests use the default policy.", "anchors": ["pkg/hindsight/hindsight.go: System.Observe", "pkg/hindsight/hindsight.go: System.RetainObservation", "pkg/core/store_crud.go: SQLiteStore.Upsert"]}
{"id": "C237", "title": "Text of a reflection", "statement": "The text returned by Observe names the query, every recalled memory and every new observation with its confidence.", "quantifier": "every list of recalled memories, every list of observations and every query", "why_tests_cant": "Any mix of memory types and any contents must appear; tests look for a few phrases.", "anchors": ["pkg/hindsight/hindsight.go: System.formatReflectContext"]}
{"id": "C238", "title": "Compression ratio", "statement": "The compression ratio reported by a quantiser is the ratio of the bytes of a vector to the bytes of its code.", "quantifier": "every product, scalar and binary quantiser, every dimension and number of bits, and every vector", "why_tests_cant": "Holds or fails depending on whether the bits fill whole bytes; tests use dimensions that do.", "anchors": ["pkg/quantization/product_quantization.go: ProductQuantizer.CompressionRatio", "pkg/quantization/scalar_quantization.go: ScalarQuantizer.CompressionRatio", "pkg/quantization/scalar_quantization.go: BinaryQuantizer.CompressionRatio"]}
{"id": "C239", "title": "Mock embedder", "statement": "The mock embedder gives the same vector for the same text, of the configured dimension and in a batch as alone; its components lie between -1 and 1 as documented and different texts get different vectors.", "quantifier": "every text, dimension and batch", "why_tests_cant": "Ranges over all texts; tests embed two or three.", "anchors": ["pkg/semantic-router/embedder.go: MockEmbedder.Embed", "pkg/semantic-router/embedder.go: MockEmbedder.EmbedBatch"]}
