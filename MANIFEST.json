{
 "claims": [
  {
   "property": "C01",
   "status": "proved",
   "theorems": [
    "vector_blob_round_trip",
    "vector_blob_refusals",
    "vector_blob_injective"
   ],
   "note": ""
  },
  {
   "property": "C02",
   "status": "proved",
   "theorems": [
    "vector_blob_decode_total",
    "vector_blob_decode_rejects"
   ],
   "note": ""
  },
  {
   "property": "C03",
   "status": "proved",
   "theorems": [
    "adapt_rejects_wrong_length",
    "adapt_identity",
    "adapt_strict_refuses",
    "adapt_exact_dimension",
    "adapt_auto_contents",
    "adapt_smart_grow_contents"
   ],
   "note": ""
  },
  {
   "property": "C04",
   "status": "proved",
   "theorems": [
    "smart_truncation_keeps_largest"
   ],
   "note": ""
  },
  {
   "property": "C05",
   "status": "proved",
   "theorems": [
    "scalar_levels_survive_packing",
    "scalar_encode_decode",
    "scalar_decode_truncated"
   ],
   "note": ""
  },
  {
   "property": "C06",
   "status": "partial",
   "theorems": [
    "scalar_training_range",
    "scalar_error_bound",
    "scalar_train_short_vector_refuted"
   ],
   "note": "error bound proved in exact rational arithmetic; the float32 rounding error is not bounded. Finding: Train panics when the first vector is shorter than the dimension."
  },
  {
   "property": "C07",
   "status": "partial",
   "theorems": [
    "binary_code_bits",
    "hamming_counts_differences",
    "hamming_metric",
    "binary_search_exact_partial",
    "binary_search_mixed_lengths_refuted",
    "binary_decode_sides"
   ],
   "note": "search is exact only when all codes have the query length; with mixed lengths distance -1 ranks first (finding)."
  },
  {
   "property": "C08",
   "status": "partial",
   "theorems": [
    "pq_train_well_formed",
    "pq_encode_nearest",
    "pq_decode_centroids",
    "pq_decode_refuses",
    "pq_search_topk",
    "pq_search_distances",
    "pq_serialize_round_trip",
    "pq_deserialize_header_only_refuses",
    "pq_deserialize_truncated_refuted",
    "pq_new_zero_subspaces_refuted",
    "pq_distance_sum"
   ],
   "note": "all proved except: a truncated codebook panics instead of being refused, and zero subspaces panics (findings)."
  },
  {
   "property": "C09",
   "status": "partial",
   "theorems": [
    "get_after_upsert",
    "stored_until_touched",
    "failed_upsert_stores_nothing",
    "upsert_accepts_valid",
    "failed_upsert_no_effect_refuted"
   ],
   "note": "Get-after-upsert and the frame over histories are proved (frame with foreign keys enforced). Finding: a failed first upsert fixes the store dimension."
  },
  {
   "property": "C10",
   "status": "partial",
   "theorems": [
    "one_row_per_id",
    "collections_unique",
    "referential_integrity_partial",
    "referential_integrity_refuted"
   ],
   "note": "ids, collection names and ids unique on all histories; membership in an existing collection only when foreign keys are enforced on the connection (finding otherwise)."
  },
  {
   "property": "C11",
   "status": "partial",
   "theorems": [
    "batch_upsert_atomic",
    "batch_upsert_effect",
    "batch_upsert_one_by_one",
    "batch_upsert_accepts_valid",
    "batch_dimension_check_refuted"
   ],
   "note": "atomicity and effect proved; equality with one-by-one insertion only for vectors of the configured dimension, since the batch path skips dimension handling (finding)."
  },
  {
   "property": "C12",
   "status": "partial",
   "theorems": [
    "delete_exact",
    "delete_failure_changes_nothing",
    "delete_batch_exact",
    "delete_by_doc_exact",
    "clear_by_docs_exact",
    "clear_by_docs_failure_changes_nothing",
    "clear_removes_everything",
    "delete_empty_id_refuted"
   ],
   "note": "proved for every non-empty id; an embedding stored under the empty id cannot be deleted by id (finding)."
  },
  {
   "property": "C13",
   "status": "partial",
   "theorems": [
    "delete_batch_atomic_partial",
    "delete_batch_atomic_refuted"
   ],
   "note": "refuted as stated for more than 500 ids (finding); atomic up to 500."
  },
  {
   "property": "C14",
   "status": "proved",
   "theorems": [
    "delete_collection_exact",
    "delete_collection_all_or_nothing",
    "delete_unknown_collection_changes_nothing",
    "default_collection_deletable_refuted"
   ],
   "note": "for collections with a non-empty name. Finding besides the claim: the default collection can be deleted, after which unqualified inserts fail."
  },
  {
   "property": "C15",
   "status": "partial",
   "theorems": [
    "delete_document_cascades_partial",
    "delete_document_cascades_refuted"
   ],
   "note": "refuted on a pooled connection without foreign keys (finding); proved where they are enforced."
  },
  {
   "property": "C16",
   "status": "proved",
   "theorems": [
    "score_is_blend",
    "search_exact",
    "cosine_scores_are_numbers",
    "search_accepts_valid",
    "search_refuses_invalid",
    "search_exact_with_nan_refuted"
   ],
   "note": "exhaustive search, any similarity whose scores are not NaN (proved for cosine on finite vectors). Finding: NaN vectors are accepted by the store and break the ranking."
  },
  {
   "property": "C17",
   "status": "partial",
   "theorems": [
    "search_with_filter_sound_partial",
    "search_with_filter_complete_partial",
    "search_with_filter_complete_refuted"
   ],
   "note": "refuted as stated (finding): the extra filter runs after truncation to TopK. Sound always; complete when at most TopK embeddings match without it."
  },
  {
   "property": "C18",
   "status": "partial",
   "theorems": [
    "indexed_search_sound_partial",
    "indexed_search_exact_on_candidates",
    "indexed_search_honours_doc_filter_refuted",
    "indexed_search_complete_refuted"
   ],
   "note": "sound for any index answer except that a doc_id filter is ignored (finding)."
  },
  {
   "property": "C19",
   "status": "partial",
   "theorems": [
    "index_follows_partial",
    "small_store_search_exact_partial",
    "index_update_refuted",
    "index_reinsert_refuted",
    "index_ghosts_refuted",
    "index_clear_ghosts_refuted",
    "index_failed_delete_document_refuted"
   ],
   "note": "Refuted as stated (findings): updates, re-insertions, DeleteByDocID, Clear, ClearByDocID, DeleteCollection and a failing DeleteDocument leave the index out of step. Proved for histories that write each id once, delete through the other calls and meet no failing statement; small stores are then searched exactly."
  },
  {
   "property": "C20",
   "status": "partial",
   "theorems": [
    "reopen_without_snapshot_partial",
    "reopen_after_save_partial",
    "reopen_stale_refuted"
   ],
   "note": "Refuted as stated (finding): a snapshot older than the last commit is loaded as it is. Proved when no snapshot was ever saved, and when only saves, closings and reopenings follow the save."
  },
  {
   "property": "C21",
   "status": "proved",
   "theorems": [
    "acl_search_only_visible",
    "acl_search_exact"
   ],
   "note": "For every store, caller and query; also exact (no visible embedding is missed) when no collection is given."
  },
  {
   "property": "C22",
   "status": "partial",
   "theorems": [
    "acl_search_in_collection_partial",
    "acl_search_collection_bounds_partial",
    "acl_search_in_collection_refuted"
   ],
   "note": "Refuted as stated (finding): the collection condition binds tighter than the OR, so public embeddings of other collections are returned to callers with principals. Proved for callers without principals."
  },
  {
   "property": "C23",
   "status": "partial",
   "theorems": [
    "hybrid_fusion_exact",
    "hybrid_fusion_scope_partial",
    "hybrid_fusion_scope_refuted"
   ],
   "note": "Fusion, uniqueness and ranking proved; the scope part is refuted (finding): keyword hits ignore collection and filter. Proved without keyword hits. The FTS index is an arbitrary function."
  },
  {
   "property": "C24",
   "status": "partial",
   "theorems": [
    "like_is_pattern_match",
    "letters_fold",
    "sql_filter_meaning_partial",
    "memory_filter_meaning_partial",
    "filters_agree_partial",
    "filters_agree_refuted"
   ],
   "note": "Refuted as stated (finding); both translations have the intended meaning, hence agree, on expressible filters and evaluable metadata."
  },
  {
   "property": "C25",
   "status": "partial",
   "theorems": [
    "delete_by_filter_exact_partial",
    "delete_by_filter_refuses_empty",
    "delete_by_filter_all_or_nothing",
    "delete_by_filter_only_matching_refuted"
   ],
   "note": "Refuted as stated (finding): a negation or an inexpressible part is dropped from the statement. Exact for expressible filters; all-or-nothing and the refusal of empty filters always."
  },
  {
   "property": "C26",
   "status": "partial",
   "theorems": [
    "facet_clause_meaning_partial",
    "facet_or_group_refuted",
    "faceted_search_refuted"
   ],
   "note": "Refuted as stated (findings): an OR group is not parenthesised beside other facets, and the query is refused anyway because the column metadata is ambiguous. The text has the intended meaning for plain facets without such a group."
  },
  {
   "property": "C27",
   "status": "partial",
   "theorems": [
    "range_search_exact",
    "range_search_answered",
    "batch_range_search_pointwise",
    "range_distance_monotone_partial",
    "range_search_similarity_refuted"
   ],
   "note": "The set returned is exact for the distance derived from the score. More similar is never farther only on one side of zero: for cosine an orthogonal vector is at distance 0 (finding)."
  },
  {
   "property": "C28",
   "status": "partial",
   "theorems": [
    "diverse_search_sound",
    "mmr_search_greedy",
    "distance_search_apart",
    "random_search_size",
    "dpp_search_greedy",
    "diverse_search_size_refuted"
   ],
   "note": "Refuted as stated in the size clause (findings): DPP can return nothing, MMR returns one result for TopK 0, Random panics on negative TopK. Soundness, distinctness, the size bound, minimum distances and the greedy rules are proved for every store."
  },
  {
   "property": "C29",
   "status": "partial",
   "theorems": [
    "rerankers_permute",
    "normalization_exact",
    "keyword_boost_exact",
    "rank_fusion_exact",
    "diversity_rerank_greedy",
    "custom_rerank_exact",
    "hybrid_rerank_exact",
    "reranked_search_sound",
    "nil_reranker_threshold_refuted",
    "preserve_score_refuted",
    "hybrid_partial_reranker_refuted"
   ],
   "note": "Proved for every built-in reranker; refuted in three corners (findings): the threshold is ignored without a reranker, PreserveOriginalScore is never read, and a hybrid over a custom reranker that drops results panics."
  },
  {
   "property": "C30",
   "status": "partial",
   "theorems": [
    "collect_topk_exact_partial",
    "collect_topk_all",
    "collect_early_exit_refuted",
    "collect_zero_refuted"
   ],
   "note": "Refuted as stated (findings): it stops at k results above 0.9 even if better ones follow, and k = 0 panics. The exact rule is proved for every stream and cancellation point."
  },
  {
   "property": "C31",
   "status": "partial",
   "theorems": [
    "entity_isolation_partial",
    "entity_isolation_no_underscore_partial",
    "entity_isolation_refuted",
    "entity_delete_exact"
   ],
   "note": "Refuted as stated (finding): the composite row ids of \"a\"/\"b___c\" and \"a___b\"/\"c\" coincide and the later upsert takes the row. Proved for ids whose composite ids do not coincide, in particular ids without underscore; deletion never affects another entity."
  },
  {
   "property": "C32",
   "status": "proved",
   "theorems": [
    "count_exact",
    "field_aggregate_exact",
    "group_by_exact",
    "aggregate_refused",
    "aggregate_without_metadata_refuted",
    "aggregate_number_filter_refuted",
    "group_by_field_ignored",
    "group_keys_distinct_refuted"
   ],
   "note": "SUM and AVG of the list of readings are SQLite functions, arbitrary here. Findings: one embedding without metadata makes filtered and grouped aggregations fail; a number as filter value selects nothing; the field of a grouping request is ignored; different groups can be shown with equal keys."
  },
  {
   "property": "C33",
   "status": "partial",
   "theorems": [
    "dump_load_access_list_refuted",
    "dump_load_empty_target_refuted",
    "dump_load_round_trip",
    "load_report_adds_up"
   ],
   "note": "Refuted as stated, finding: the access list is not dumped, so a restricted embedding comes back public, and items belonging to a document or another collection fail on an empty store. What does hold is C86 and C87."
  },
  {
   "property": "C34",
   "status": "partial",
   "theorems": [
    "load_terminates_refuted",
    "load_json_terminates_partial",
    "load_jsonl_terminates_partial"
   ],
   "note": "Refuted as stated, finding: LoadJSONL loops for ever on malformed or cut off input, and a null embedding crashes LoadJSON. Proved: exactly which inputs terminate."
  },
  {
   "property": "C35",
   "status": "proved",
   "theorems": [
    "history_newest",
    "history_last_added",
    "history_available",
    "history_order_of_calls_refuted"
   ],
   "note": "Newest by the recorded creation time, for every clock. Finding: the order of calls is not kept when the clock stands still."
  },
  {
   "property": "C36",
   "status": "partial",
   "theorems": [
    "concurrent_calls_block_refuted",
    "deadlock_exact",
    "calls_finish"
   ],
   "note": "Refuted as stated, finding: methods that take the read lock twice block for ever when a writer arrives in between, even two concurrent first Upserts. What holds is C88."
  },
  {
   "property": "C37",
   "status": "proved",
   "theorems": [
    "hnsw_history_total",
    "hnsw_search_sound",
    "hnsw_search_local_optimum",
    "hnsw_small_index_exact",
    "hnsw_negative_k_refuted"
   ],
   "note": "For k >= 0 and any distance function; nearest-first needs the distances to be numbers. Beyond the claim: local optimality and exactness of small indexes. A negative k panics (recorded as a refutation)."
  },
  {
   "property": "C38",
   "status": "partial",
   "theorems": [
    "hnsw_links_well_formed",
    "hnsw_caps_partial",
    "hnsw_caps_refuted",
    "hnsw_entry_point_partial",
    "hnsw_entry_point_refuted"
   ],
   "note": "Refuted as stated: parallel bulk insertion does not prune (caps exceeded) and the empty id erases the entry point. Links and duplicate freedom hold for all histories, caps for sequential ones, the entry point when no id is empty."
  },
  {
   "property": "C39",
   "status": "partial",
   "theorems": [
    "hnsw_bulk_stores_partial",
    "hnsw_small_bulk_found_partial",
    "hnsw_parallel_disconnected_refuted",
    "hnsw_parallel_unfindable_refuted",
    "hnsw_outlier_unfindable_refuted"
   ],
   "note": "Refuted as stated: workers leave disconnected pieces and pruning can isolate an outlier. Every vector is stored, and small sequential loads are found exactly."
  },
  {
   "property": "C40",
   "status": "proved",
   "theorems": [
    "ivf_search_exact",
    "ivf_search_probed",
    "ivf_search_only_stored"
   ],
   "note": "Exact for any history without deletions (deletions: see C41), any distance function giving numbers, any sort. Centroids are whatever clustering returned. Negative k panics (ivf_negative_k_refuted) and retraining hides stored vectors (ivf_retrain_refuted)."
  },
  {
   "property": "C41",
   "status": "partial",
   "theorems": [
    "ivf_delete_last_partial",
    "ivf_delete_refuted",
    "ivf_delete_wrong_refuted",
    "ivf_duplicate_delete_refuted"
   ],
   "note": "Refuted as stated: finding. Delete stops renumbering a list at the removed entry, so later searches panic or return a wrong vector. Proved when every deletion hits the last vector of its list."
  },
  {
   "property": "C42",
   "status": "partial",
   "theorems": [
    "flat_search_exact_partial",
    "flat_range_exact",
    "flat_reports",
    "flat_zero_k_refuted"
   ],
   "note": "Search exact for k >= 1 when no distance is NaN; k <= 0 panics on a non-empty index (finding). RangeSearch exact without conditions, quicksort modelled as written."
  },
  {
   "property": "C43",
   "status": "proved",
   "theorems": [
    "lsh_search_sound",
    "lsh_search_exact",
    "lsh_finds_itself",
    "lsh_multi_probe_sound"
   ],
   "note": "For any projections, distance, map order and sort; k >= 0 (negative k panics: lsh_negative_k_refuted). Exact candidate set when ids are not re-inserted; lsh_stale_candidate_refuted shows the difference otherwise."
  },
  {
   "property": "C44",
   "status": "partial",
   "theorems": [
    "multi_merge_best",
    "multi_only_members",
    "multi_delete_partial",
    "hybrid_search_exact",
    "hybrid_delete_refuted",
    "multi_rerank_refuted",
    "multi_delete_stops_refuted",
    "hybrid_failed_insert_refuted"
   ],
   "note": "Merge proved for arbitrary members. Deletion refuted for HybridIndex (finding) and for MultiIndex when one member does not know the id; proved for successful MultiIndex deletions."
  },
  {
   "property": "C45",
   "status": "partial",
   "theorems": [
    "graph_ids_unique",
    "edges_never_dangle_partial",
    "edges_never_dangle_refuted",
    "delete_node_exact",
    "delete_edge_exact",
    "upsert_node_exact",
    "upsert_edge_exact",
    "get_node_exact"
   ],
   "note": "Refuted as stated, finding: foreign keys are switched on for one connection of the pool only, so on another connection an edge to a missing node is stored. Proved for connections that enforce them."
  },
  {
   "property": "C46",
   "status": "proved",
   "theorems": [
    "shortest_path_exact"
   ],
   "note": "Edge count, weight sum (float64 additions in path order), minimality and the no-path case."
  },
  {
   "property": "C47",
   "status": "proved",
   "theorems": [
    "neighbors_exact",
    "connected_exact",
    "neighbors_bad_direction"
   ],
   "note": "Neighbors also come out in order of distance."
  },
  {
   "property": "C48",
   "status": "proved",
   "theorems": [
    "page_rank_one_score_per_node",
    "page_rank_iterates",
    "page_rank_sub_probability"
   ],
   "note": "Exact arithmetic: the model is generic in the numbers and instantiated with rationals for the sums; the first theorem holds for float64 too."
  },
  {
   "property": "C49",
   "status": "proved",
   "theorems": [
    "communities_exact",
    "graph_statistics_exact"
   ],
   "note": ""
  },
  {
   "property": "C50",
   "status": "partial",
   "theorems": [
    "graph_export_exact",
    "graph_json_round_trip",
    "graph_json_nan_weight_refuted",
    "graph_json_infinite_weight_refuted",
    "graph_json_empty_properties_refuted"
   ],
   "note": "Refuted as stated, findings: one edge whose weight is NaN makes the export silently lose every edge leaving the same node, an infinite weight makes the export fail, and a property map that is present but empty comes back absent. graph_export_exact says exactly what any export contains and when it fails; graph_json_round_trip proves the restoration for every other graph (see C97)."
  },
  {
   "property": "C51",
   "status": "partial",
   "theorems": [
    "nodes_batch_exact",
    "edges_batch_exact",
    "delete_nodes_batch_exact",
    "delete_edges_batch_exact",
    "batch_node_searchable_refuted",
    "batch_update_score_refuted"
   ],
   "note": "Counts and storage are proved. The last part is refuted, finding: batches do not touch the vector index, so a node upserted in a batch is not found and a changed vector keeps its old score."
  },
  {
   "property": "C52",
   "status": "partial",
   "theorems": [
    "geo_box_complete",
    "geo_box_exact",
    "geo_box_stale_refuted"
   ],
   "note": "Refuted as stated, finding: inserting an id again at another place leaves the old entry in the grid, so the point is still reported at its old place, even after it is deleted. geo_box_complete shows that no current point is ever missed; geo_box_exact gives exactness for histories that delete before inserting an id again (C98)."
  },
  {
   "property": "C53",
   "status": "partial",
   "theorems": [
    "geo_radius_exact",
    "geo_radius_finds_near",
    "geo_radius_pole_refuted",
    "geo_radius_antimeridian_refuted"
   ],
   "note": "Refuted as stated, findings: the window of cells does not wrap round the antimeridian and does not widen near the poles, so points at distance 0 or a few kilometres are not found. geo_radius_exact characterises what is returned (C99). The haversine formula is an arbitrary function in the model."
  },
  {
   "property": "C54",
   "status": "proved",
   "theorems": [
    "geo_knn_exact"
   ],
   "note": "The distance function is arbitrary, so the theorem covers the haversine formula however its trigonometric functions round."
  },
  {
   "property": "C55",
   "status": "partial",
   "theorems": [
    "route_exact",
    "route_batch_exact",
    "route_euclidean_refuted",
    "route_after_failure_refuted",
    "route_with_store_refuted"
   ],
   "note": "Refuted as stated, findings: similarities that are not positive are never routed; one failure of the embedder disables a cached route for ever; with a store only the last stored utterance is compared. The positive theorem (C102) covers routers without a store and positive scores."
  },
  {
   "property": "C56",
   "status": "partial",
   "theorems": [
    "router_reopen_at_most_one",
    "router_reopen_refuted",
    "router_remove_refuted",
    "router_reopen_single_partial"
   ],
   "note": "Refuted as stated, finding: every utterance is stored under the empty id, so at most one utterance of all routes survives; and a removed route comes back. The case of one route with one utterance is proved."
  },
  {
   "property": "C57",
   "status": "partial",
   "theorems": [
    "memory_isolation_refuted",
    "memory_id_theft_refuted",
    "memory_user_refuted",
    "memory_search_sound"
   ],
   "note": "Refuted as stated, findings: owners or namespaces containing a colon share a bucket; a save under an existing id takes over another user's memory; a shared bucket reports its first writer as the user of every memory. Proved for colon-free owners (C116)."
  },
  {
   "property": "C58",
   "status": "proved",
   "theorems": [
    "memory_search_sound"
   ],
   "note": ""
  },
  {
   "property": "C59",
   "status": "proved",
   "theorems": [
    "chunking_exact"
   ],
   "note": "Documents are rune lists; invalid UTF-8 is not modelled."
  },
  {
   "property": "C60",
   "status": "proved",
   "theorems": [
    "packed_context_budgets",
    "packed_context_exact"
   ],
   "note": ""
  },
  {
   "property": "C61",
   "status": "partial",
   "theorems": [
    "recall_bank_refuted",
    "recall_bank_metadata_refuted",
    "recall_bank_partial"
   ],
   "note": "Refuted as stated, findings: the keyword strategy ignores the bank, and a metadata key bank_id overrides the bank. Proved for every history and request without the keyword strategy when no memory carries that key."
  },
  {
   "property": "C62",
   "status": "partial",
   "theorems": [
    "auto_window_order_refuted",
    "auto_per_session_refuted",
    "auto_fires_exact",
    "auto_window_newest"
   ],
   "note": "Refuted as stated, findings: the window is handed over newest first, and the counter is shared by all sessions. The firing points and the set of messages are proved exact."
  },
  {
   "property": "C63",
   "status": "proved",
   "theorems": [
    "similarity_symmetric",
    "similarity_length_mismatch",
    "similarity_finite",
    "euclidean_zero_iff_equal",
    "exact_cosine_in_range"
   ],
   "note": "float arithmetic modelled bit-exactly, without fused multiply-add."
  },
  {
   "property": "C64",
   "status": "partial",
   "theorems": [
    "closed_store_refuses_mutations",
    "closed_store_refuses_reads_partial",
    "close_idempotent",
    "closed_store_lists_documents_refuted"
   ],
   "note": "several reads have no closed check and report another error (finding)."
  },
  {
   "property": "C65",
   "status": "proved",
   "theorems": [
    "validate_vector_exact",
    "float32_nonfinite_patterns"
   ],
   "note": ""
  },
  {
   "property": "C66",
   "status": "proved",
   "theorems": [
    "analyze_dimensions_exact"
   ],
   "note": ""
  },
  {
   "property": "C67",
   "status": "partial",
   "theorems": [
    "referential_integrity_partial",
    "referential_integrity_refuted"
   ],
   "note": "holds when foreign keys are enforced on every connection; the PRAGMA reaches only one pooled connection (finding)."
  },
  {
   "property": "C68",
   "status": "partial",
   "theorems": [
    "hnsw_select_nearest_partial",
    "hnsw_select_nearest_refuted"
   ],
   "note": "Refuted for the id \"query\", which is always treated as distance 0; proved for all other ids."
  },
  {
   "property": "C69",
   "status": "proved",
   "theorems": [
    "documents_refine",
    "create_document_accepts_new",
    "update_document_accepts_existing"
   ],
   "note": "For every state and operation, including failed ones."
  },
  {
   "property": "C70",
   "status": "proved",
   "theorems": [
    "get_by_doc_exact",
    "get_by_type_exact",
    "list_documents_exact",
    "list_documents_info_exact",
    "collection_stats_count",
    "list_collections_exact",
    "list_documents_with_filter_exact"
   ],
   "note": "Timestamps are not modelled: the ORDER BY created_at of a listing is an arbitrary permutation."
  },
  {
   "property": "C71",
   "status": "partial",
   "theorems": [
    "post_filtered_search_exact_partial",
    "pre_filtered_search_refuted",
    "negated_pre_filter_refuted"
   ],
   "note": "Refuted as stated (findings): any pre-filter with a condition makes the query ambiguous and fails, a negated one is ignored. Post-filtered search is exact."
  },
  {
   "property": "C72",
   "status": "partial",
   "theorems": [
    "delete_by_filter_exact_partial",
    "delete_by_filter_complete_refuted"
   ],
   "note": "Refuted as stated (finding); proved for expressible filters."
  },
  {
   "property": "C73",
   "status": "partial",
   "theorems": [
    "faceted_search_exact_partial",
    "faceted_search_refuted",
    "faceted_search_limit_refuted"
   ],
   "note": "Refuted as stated (findings): every facet with a condition makes the query fail, and the candidates are cut at 10*TopK before scoring. Exact otherwise."
  },
  {
   "property": "C74",
   "status": "partial",
   "theorems": [
    "facet_counts_exact_partial",
    "facet_counts_refuted"
   ],
   "note": "Refuted as stated (finding): one embedding without metadata silently removes the counts. Exact when all embeddings have metadata."
  },
  {
   "property": "C75",
   "status": "proved",
   "theorems": [
    "negative_search_exact",
    "recommend_similar_exact"
   ],
   "note": "Scores that are NaN are excluded by hypothesis in the ordering clause."
  },
  {
   "property": "C76",
   "status": "proved",
   "theorems": [
    "find_anomalies_exact"
   ],
   "note": "Distances that are NaN are excluded by hypothesis."
  },
  {
   "property": "C77",
   "status": "partial",
   "theorems": [
    "stream_search_sound",
    "stream_search_complete_partial",
    "stream_collect_exact_partial",
    "stream_slow_consumer_refuted",
    "stream_early_termination_refuted"
   ],
   "note": "Refuted as stated (findings): results are dropped when the consumer is slow, and early termination stops before TopK results were delivered. Soundness holds for every schedule; complete when nothing is skipped and early termination is off."
  },
  {
   "property": "C78",
   "status": "proved",
   "theorems": [
    "merge_streams_exact"
   ],
   "note": "Without cancellation of the context."
  },
  {
   "property": "C79",
   "status": "partial",
   "theorems": [
    "pending_updates_conserved",
    "pending_updates_in_order_partial",
    "pending_latest_wins_refuted",
    "pending_close_panics_refuted",
    "pending_batch_lost_refuted"
   ],
   "note": "Refuted as stated (findings): a concurrent search can reorder two versions of an id, Close during a search panics on the closed channel, and one embedding that cannot be stored silently loses its whole batch. Conservation is proved for every schedule, order for schedules without searches."
  },
  {
   "property": "C80",
   "status": "partial",
   "theorems": [
    "search_with_updates_exact_partial",
    "search_with_updates_distinct_refuted",
    "search_with_updates_panics_refuted"
   ],
   "note": "Refuted in the distinctness clause, and a negative TopK panics (findings). The best-of-both part is proved for positive TopK."
  },
  {
   "property": "C81",
   "status": "proved",
   "theorems": [
    "multi_search_exact",
    "multi_search_succeeds",
    "multi_search_best_total_refuted"
   ],
   "note": "The exact specification of the result is proved; finding: the combination covers only the fields in which the entity made the TopK of that field."
  },
  {
   "property": "C82",
   "status": "proved",
   "theorems": [
    "entity_read_after_write",
    "entity_upsert_all_or_nothing",
    "entity_delete_exact",
    "entity_delete_failure_changes_nothing",
    "entity_needs_document",
    "entity_content_current_refuted",
    "entity_store_accepts_refuted"
   ],
   "note": "Vectors, atomicity and deletion proved for every history. Findings: the content reported is that of the oldest row, and with foreign keys enforced an entity can only be stored if a document has its id."
  },
  {
   "property": "C83",
   "status": "proved",
   "theorems": [
    "add_message_decides",
    "get_session_exact"
   ],
   "note": ""
  },
  {
   "property": "C84",
   "status": "proved",
   "theorems": [
    "search_chat_exact",
    "search_by_user_exact",
    "search_by_user_empty_query",
    "search_chat_negative_limit_refuted"
   ],
   "note": "Finding: a negative limit makes SearchChatHistory panic."
  },
  {
   "property": "C85",
   "status": "proved",
   "theorems": [
    "keyword_search_exact"
   ],
   "note": "The full-text index is an arbitrary function of the query and the stored contents."
  },
  {
   "property": "C86",
   "status": "proved",
   "theorems": [
    "dump_exact",
    "dump_refuses_non_finite",
    "csv_dump_exact",
    "load_report_adds_up",
    "load_skips_existing",
    "load_upserts_the_rest",
    "dump_load_refusals"
   ],
   "note": "JSON text is represented by the values it encodes."
  },
  {
   "property": "C87",
   "status": "proved",
   "theorems": [
    "dump_load_round_trip"
   ],
   "note": ""
  },
  {
   "property": "C88",
   "status": "proved",
   "theorems": [
    "deadlock_exact",
    "calls_finish"
   ],
   "note": "Only the mutex of the store is modelled; other locks are taken for short sections without calls back."
  },
  {
   "property": "C89",
   "status": "partial",
   "theorems": [
    "nan_weight_blocks_refuted",
    "get_edges_exact"
   ],
   "note": "Refuted as stated, finding: a NaN weight is stored as NULL, after which GetEdges, ShortestPath, Neighbors and Connected fail at every node that touches the edge. Proved for graphs whose weights are numbers."
  },
  {
   "property": "C90",
   "status": "partial",
   "theorems": [
    "neighbors_limit",
    "neighbors_limit_types_refuted"
   ],
   "note": "Refuted as stated, finding: the limit counts nodes that the node-type filter then drops. Proved without a node-type filter."
  },
  {
   "property": "C91",
   "status": "proved",
   "theorems": [
    "subgraph_exact"
   ],
   "note": ""
  },
  {
   "property": "C92",
   "status": "proved",
   "theorems": [
    "nodes_batch_exact",
    "edges_batch_exact",
    "delete_nodes_batch_exact",
    "delete_edges_batch_exact",
    "execute_batch_is_four_batches",
    "execute_batch_all_or_nothing"
   ],
   "note": ""
  },
  {
   "property": "C93",
   "status": "partial",
   "theorems": [
    "page_rank_nan_damping_refuted",
    "page_rank_iterates"
   ],
   "note": "Refuted as stated, finding: NaN is not replaced and turns every score into NaN. Proved for all numbers (rationals)."
  },
  {
   "property": "C94",
   "status": "partial",
   "theorems": [
    "communities_depend_on_map_order_refuted",
    "communities_are_components"
   ],
   "note": "Refuted as stated, finding: on a triangle of equal edges the iteration order of a Go map decides between one community and two (the passes oscillate until the limit of 100). Proved for results of runs whose last pass moved nothing: they are the connected components, whatever the weights."
  },
  {
   "property": "C95",
   "status": "proved",
   "theorems": [
    "graph_degree_density_exact"
   ],
   "note": ""
  },
  {
   "property": "C96",
   "status": "proved",
   "theorems": [
    "predict_edges_exact"
   ],
   "note": ""
  },
  {
   "property": "C97",
   "status": "proved",
   "theorems": [
    "graph_json_round_trip",
    "graph_export_exact"
   ],
   "note": ""
  },
  {
   "property": "C98",
   "status": "proved",
   "theorems": [
    "geo_box_complete",
    "geo_box_exact"
   ],
   "note": ""
  },
  {
   "property": "C99",
   "status": "proved",
   "theorems": [
    "geo_radius_exact",
    "geo_radius_finds_near"
   ],
   "note": ""
  },
  {
   "property": "C100",
   "status": "proved",
   "theorems": [
    "geo_polygon_exact"
   ],
   "note": ""
  },
  {
   "property": "C101",
   "status": "proved",
   "theorems": [
    "geo_points_exact"
   ],
   "note": ""
  },
  {
   "property": "C102",
   "status": "proved",
   "theorems": [
    "route_exact",
    "route_batch_exact"
   ],
   "note": ""
  },
  {
   "property": "C103",
   "status": "proved",
   "theorems": [
    "router_registry_exact"
   ],
   "note": ""
  },
  {
   "property": "C104",
   "status": "partial",
   "theorems": [
    "router_unique_names_refuted",
    "router_unique_names_partial"
   ],
   "note": "Refuted as stated, finding: routes of one AddBatch are not checked against each other. Names stay unique when AddBatch is not used."
  },
  {
   "property": "C105",
   "status": "partial",
   "theorems": [
    "router_add_atomic_refuted",
    "hybrid_add_atomic_refuted",
    "sparse_add_exact",
    "router_registry_exact"
   ],
   "note": "Refuted as stated, findings: Add with a store registers the route before storing it and keeps it on failure; HybridRouter.Add keeps the dense half. Routers without a store and sparse routers behave as stated."
  },
  {
   "property": "C106",
   "status": "proved",
   "theorems": [
    "cached_embedder_transparent"
   ],
   "note": ""
  },
  {
   "property": "C107",
   "status": "proved",
   "theorems": [
    "sparse_route_exact",
    "sparse_add_exact",
    "sparse_route_common_term"
   ],
   "note": "Scores are summed in any order of the terms, since Go iterates over maps."
  },
  {
   "property": "C108",
   "status": "proved",
   "theorems": [
    "bm25_fit_exact",
    "bm25_encode_exact",
    "tfidf_fit_exact",
    "tfidf_encode_exact"
   ],
   "note": "math.Log, lower-casing and word splitting are arbitrary functions."
  },
  {
   "property": "C109",
   "status": "partial",
   "theorems": [
    "bm25_unfitted_refuted",
    "tfidf_single_document_refuted",
    "sparse_route_exact"
   ],
   "note": "Refuted as stated, findings: an unfitted BM25 encoder and a TF-IDF encoder fitted on one document weigh every term 0."
  },
  {
   "property": "C110",
   "status": "proved",
   "theorems": [
    "top_terms_exact"
   ],
   "note": ""
  },
  {
   "property": "C111",
   "status": "proved",
   "theorems": [
    "hybrid_route_exact"
   ],
   "note": ""
  },
  {
   "property": "C112",
   "status": "partial",
   "theorems": [
    "hybrid_unmatched_name_refuted",
    "hybrid_mixed_scores_refuted",
    "hybrid_route_exact"
   ],
   "note": "Refuted as stated, findings: a route is named without a match, and one half may score another route than the one named."
  },
  {
   "property": "C113",
   "status": "proved",
   "theorems": [
    "function_route_exact",
    "function_extract_exact",
    "function_execute_exact"
   ],
   "note": "Regular expressions and value guessing are arbitrary functions."
  },
  {
   "property": "C114",
   "status": "partial",
   "theorems": [
    "function_invalid_pattern_refuted",
    "function_extract_exact"
   ],
   "note": "Refuted as stated, finding: a registered pattern that does not compile makes a required parameter neither extracted nor missing. Proved when every registered pattern compiles."
  },
  {
   "property": "C115",
   "status": "proved",
   "theorems": [
    "memory_get_exact",
    "memory_save_accepts"
   ],
   "note": ""
  },
  {
   "property": "C116",
   "status": "proved",
   "theorems": [
    "memory_search_sound"
   ],
   "note": ""
  },
  {
   "property": "C117",
   "status": "proved",
   "theorems": [
    "memory_semantic_exact"
   ],
   "note": "Similarity scores must not be NaN."
  },
  {
   "property": "C118",
   "status": "proved",
   "theorems": [
    "memory_lexical_exact"
   ],
   "note": "The full-text index and the planning of queries are arbitrary functions; scores must not be NaN."
  },
  {
   "property": "C119",
   "status": "partial",
   "theorems": [
    "memory_lifetime_refuted",
    "memory_search_full_refuted",
    "memory_semantic_exact"
   ],
   "note": "Refuted as stated, findings: expiry times are cut to whole seconds, times to live beyond 292 years overflow, and expired memories use up TopK places. memory_semantic_exact proves a memory is dropped only in the last second of its life or later."
  },
  {
   "property": "C120",
   "status": "proved",
   "theorems": [
    "rerank_greedy_exact"
   ],
   "note": "Tokenisers are arbitrary functions; integer overflow of options is not modelled."
  },
  {
   "property": "C121",
   "status": "proved",
   "theorems": [
    "graphrag_search_exact"
   ],
   "note": "The vector search that finds the seeds is arbitrary: distinct ids, scores not NaN."
  },
  {
   "property": "C122",
   "status": "proved",
   "theorems": [
    "graphrag_search_total"
   ],
   "note": ""
  },
  {
   "property": "C123",
   "status": "proved",
   "theorems": [
    "chunk_ids_distinct"
   ],
   "note": ""
  },
  {
   "property": "C124",
   "status": "partial",
   "theorems": [
    "reingest_refuted",
    "ingest_rows_partial"
   ],
   "note": "Refuted as stated, finding: ingesting a shorter version leaves the last chunks of the old one. ingest_rows_partial gives the exact rows after every ingestion."
  },
  {
   "property": "C125",
   "status": "partial",
   "theorems": [
    "entity_ids_refuted",
    "entity_ids_distinct_partial"
   ],
   "note": "Refuted as stated, finding: names differing only in symbols (C++ and C#) share a node. Proved for names of lower-case letters and digits."
  },
  {
   "property": "C126",
   "status": "partial",
   "theorems": [
    "rerank_off_refuted",
    "rerank_off_ignored"
   ],
   "note": "Refuted as stated, finding: the defaults turn reranking on again; the option has no effect at all."
  },
  {
   "property": "C127",
   "status": "proved",
   "theorems": [
    "recall_fusion_exact"
   ],
   "note": ""
  },
  {
   "property": "C128",
   "status": "proved",
   "theorems": [
    "recall_reranker_fallback"
   ],
   "note": ""
  },
  {
   "property": "C129",
   "status": "proved",
   "theorems": [
    "recalled_memory_faithful",
    "recalled_metadata_refuted"
   ],
   "note": "recalled_metadata_refuted records that the conditions are needed: other metadata is not returned and an entity with a comma comes back as two."
  },
  {
   "property": "C130",
   "status": "proved",
   "theorems": [
    "retained_memory_kept"
   ],
   "note": ""
  },
  {
   "property": "C131",
   "status": "partial",
   "theorems": [
    "recall_complete_refuted",
    "recall_fusion_exact"
   ],
   "note": "Refuted as stated, finding: the bank filter is applied to the 2*TopK nearest memories of all banks, so nearer memories of other banks hide those of the bank."
  },
  {
   "property": "C132",
   "status": "proved",
   "theorems": [
    "reflect_budget_exact",
    "reflect_context_shows"
   ],
   "note": ""
  },
  {
   "property": "C133",
   "status": "proved",
   "theorems": [
    "confidence_bounded"
   ],
   "note": ""
  },
  {
   "property": "C134",
   "status": "proved",
   "theorems": [
    "retain_from_text_counts"
   ],
   "note": ""
  },
  {
   "property": "C135",
   "status": "partial",
   "theorems": [
    "observation_provenance_refuted"
   ],
   "note": "Refuted as stated, finding: sources, type and reasoning are not returned."
  },
  {
   "property": "C136",
   "status": "proved",
   "theorems": [
    "bank_kept_in_memory"
   ],
   "note": ""
  },
  {
   "property": "C137",
   "status": "partial",
   "theorems": [
    "custom_collection_refuted",
    "retained_memory_kept"
   ],
   "note": "Refuted as stated, finding: Retain always uses the collection named memories; with any other configured name every Retain fails."
  },
  {
   "property": "C138",
   "status": "proved",
   "theorems": [
    "temporal_recall_in_range"
   ],
   "note": ""
  },
  {
   "property": "C139",
   "status": "partial",
   "theorems": [
    "temporal_recall_complete_refuted",
    "entity_recall_refuted",
    "recall_fusion_exact"
   ],
   "note": "Refuted as stated, findings: matches beyond the nearest candidates are missed, and entities match by substring."
  },
  {
   "property": "C140",
   "status": "partial",
   "theorems": [
    "untyped_fact_refuted",
    "reflect_context_shows"
   ],
   "note": "Refuted as stated, finding: the type stays empty and the fact is left out of the text."
  },
  {
   "property": "C141",
   "status": "partial",
   "theorems": [
    "bank_restart_refuted",
    "bank_restart_partial"
   ],
   "note": "Refuted as stated, findings: the description becomes the name, background and traits are lost, and an entity with the id of the bank removes it. Id and name are proved to survive."
  },
  {
   "property": "C142",
   "status": "partial",
   "theorems": [
    "deleted_bank_refuted"
   ],
   "note": "Refuted as stated, finding: the memories stay and are still recalled."
  },
  {
   "property": "C143",
   "status": "proved",
   "theorems": [
    "auto_fires_exact",
    "set_auto_active",
    "auto_window_newest"
   ],
   "note": ""
  },
  {
   "property": "C144",
   "status": "proved",
   "theorems": [
    "hnsw_search_sound"
   ],
   "note": ""
  },
  {
   "property": "C145",
   "status": "proved",
   "theorems": [
    "hnsw_search_finds_something"
   ],
   "note": ""
  },
  {
   "property": "C146",
   "status": "partial",
   "theorems": [
    "hnsw_search_complete_refuted",
    "hnsw_search_finds_something",
    "hnsw_search_sound"
   ],
   "note": "Refuted as stated, finding: a new node with a higher level becomes the entry point before it is connected, and everything stored before can no longer be reached. What is found is correct and non-empty (C144, C145)."
  },
  {
   "property": "C147",
   "status": "proved",
   "theorems": [
    "graph_hybrid_exact"
   ],
   "note": "Candidates of an enabled index are some of the stored nodes, see C149."
  },
  {
   "property": "C148",
   "status": "partial",
   "theorems": [
    "edge_weight_counts_refuted",
    "graph_hybrid_exact"
   ],
   "note": "Refuted as stated, finding: results that the vector found ignore EdgeWeight; the exact scores are in graph_hybrid_exact."
  },
  {
   "property": "C149",
   "status": "partial",
   "theorems": [
    "hybrid_index_agrees_refuted",
    "graph_hybrid_exact"
   ],
   "note": "Refuted as stated, finding: nodes the index cannot reach are never candidates."
  },
  {
   "property": "C150",
   "status": "proved",
   "theorems": [
    "graph_vector_search_exact"
   ],
   "note": ""
  },
  {
   "property": "C151",
   "status": "partial",
   "theorems": [
    "graph_vector_search_limit_refuted",
    "graph_vector_search_exact"
   ],
   "note": "Refuted as stated, finding: the limit ends the walk before similarities are compared, and then the start node takes one of the places."
  },
  {
   "property": "C152",
   "status": "proved",
   "theorems": [
    "similarity_in_graph_exact"
   ],
   "note": ""
  },
  {
   "property": "C153",
   "status": "proved",
   "theorems": [
    "hnsw_hybrid_exact"
   ],
   "note": "With an enabled index; without one the call is HybridSearch."
  },
  {
   "property": "C154",
   "status": "proved",
   "theorems": [
    "lexical_plan_exact"
   ],
   "note": "strings.ToLower and unicode.IsLetter/IsDigit are parameters; the only assumption is that punctuation and white space are neither letters nor digits."
  },
  {
   "property": "C155",
   "status": "proved",
   "theorems": [
    "text_candidates_exact"
   ],
   "note": "The full-text search of a single query is an arbitrary function (failures included); scores are assumed not to be NaN."
  },
  {
   "property": "C156",
   "status": "partial",
   "theorems": [
    "text_search_default_limit_refuted",
    "text_search_negative_limit_refuted"
   ],
   "note": "Refuted as stated, finding: the limit is passed on but the merged list is then cut to the unset limit 0, so a search_text call without top_k returns no chunk; a negative top_k panics. The exact behaviour for k >= 0 is C155."
  },
  {
   "property": "C157",
   "status": "proved",
   "theorems": [
    "lexical_vector_exact"
   ],
   "note": "The hash is arbitrary. Uses the axioms of the Reals through Flocq."
  },
  {
   "property": "C158",
   "status": "partial",
   "theorems": [
    "lexical_vector_tells_apart_refuted",
    "lexical_vector_exact"
   ],
   "note": "Refuted as stated, finding: a text of punctuation only has the vector of a one-word text whose hash is 0 modulo the dimension. Otherwise the components are the counts (C157)."
  },
  {
   "property": "C159",
   "status": "proved",
   "theorems": [
    "entities_written_exact"
   ],
   "note": ""
  },
  {
   "property": "C160",
   "status": "partial",
   "theorems": [
    "entities_atomic_refuted",
    "mention_count_refuted",
    "entities_failure_partial"
   ],
   "note": "Refuted as stated, finding: nodes and mention edges are written in two transactions, so a call that fails at the second has stored the entities; and the reported number of mention edges is the number asked for, also when the chunk is not in the graph and no edge is stored. A failed call stores no edge and touches no node other than the entities asked for."
  },
  {
   "property": "C161",
   "status": "proved",
   "theorems": [
    "relations_written_exact"
   ],
   "note": ""
  },
  {
   "property": "C162",
   "status": "partial",
   "theorems": [
    "relation_rewrite_refuted",
    "relations_reported_refuted",
    "relations_rewrite_partial"
   ],
   "note": "Refuted as stated, finding: the edge id contains the position of the relation in the request, so the same relation sent at another position is stored again; and ids of edges to unknown entities are reported though nothing is stored. Repeating the same request changes nothing."
  },
  {
   "property": "C163",
   "status": "proved",
   "theorems": [
    "chunks_by_entities_exact"
   ],
   "note": "Uses the axioms of the reals for exact sums of whole numbers."
  },
  {
   "property": "C164",
   "status": "partial",
   "theorems": [
    "entity_chunks_limit_refuted",
    "chunks_by_entities_exact"
   ],
   "note": "Refuted as stated, finding: the traversal stops after 8 TopK nodes of any type, before chunks are selected, so other neighbours hide chunks. Exact when no entity has more neighbours than that."
  },
  {
   "property": "C165",
   "status": "proved",
   "theorems": [
    "expand_graph_exact"
   ],
   "note": ""
  },
  {
   "property": "C166",
   "status": "proved",
   "theorems": [
    "get_chunks_exact",
    "tool_context_exact"
   ],
   "note": ""
  },
  {
   "property": "C167",
   "status": "proved",
   "theorems": [
    "knowledge_read_exact"
   ],
   "note": "No-embedder path; the 32-neighbour limit of the entity lookup is in the statement."
  },
  {
   "property": "C168",
   "status": "proved",
   "theorems": [
    "knowledge_deleted_exact"
   ],
   "note": ""
  },
  {
   "property": "C169",
   "status": "partial",
   "theorems": [
    "knowledge_delete_relations_refuted",
    "knowledge_deleted_exact"
   ],
   "note": "Refuted as stated, finding: entity nodes and relation edges saved with an item stay after it is deleted, the edges still naming its document id; knowledge_deleted_exact says exactly what goes."
  },
  {
   "property": "C170",
   "status": "proved",
   "theorems": [
    "knowledge_saved_exact"
   ],
   "note": "No-embedder path; splitter, text vector, trim and slug are parameters."
  },
  {
   "property": "C171",
   "status": "partial",
   "theorems": [
    "knowledge_replace_atomic_refuted",
    "knowledge_blank_update_refuted",
    "knowledge_save_spares"
   ],
   "note": "Refuted as stated, findings: the old item is removed before the new one is written, so a failure in between loses it; an update of an item whose stored content is blank fails after removing it, with no statement failing. Proved instead: other knowledge is spared."
  },
  {
   "property": "C172",
   "status": "proved",
   "theorems": [
    "knowledge_updated_exact",
    "knowledge_touched_exact"
   ],
   "note": ""
  },
  {
   "property": "C173",
   "status": "partial",
   "theorems": [
    "knowledge_title_update_keeps_entities_refuted",
    "knowledge_save_keeps_acl_refuted",
    "knowledge_touched_exact"
   ],
   "note": "Refuted as stated, findings: an update of the title alone chunks the document again with default options and drops the links to entities; saving again drops the access list. knowledge_touched_exact: url/author updates keep both."
  },
  {
   "property": "C174",
   "status": "proved",
   "theorems": [
    "knowledge_save_spares"
   ],
   "note": ""
  },
  {
   "property": "C175",
   "status": "proved",
   "theorems": [
    "knowledge_hits_exact",
    "snippet_exact"
   ],
   "note": ""
  },
  {
   "property": "C176",
   "status": "partial",
   "theorems": [
    "knowledge_search_partial_failure_refuted",
    "knowledge_hits_exact"
   ],
   "note": "Refuted as stated, finding: one chunk whose document is not stored makes the whole search fail; knowledge_hits_exact gives the exact condition for an answer."
  },
  {
   "property": "C177",
   "status": "proved",
   "theorems": [
    "filter_text_exact",
    "filter_text_spaces",
    "filter_text_total"
   ],
   "note": "Texts of unspaced comparisons joined by OR and AND, any number, parentheses around groups as the statement allows."
  },
  {
   "property": "C178",
   "status": "proved",
   "theorems": [
    "filter_text_in_exact"
   ],
   "note": ""
  },
  {
   "property": "C179",
   "status": "partial",
   "theorems": [
    "filter_text_never_between",
    "filter_text_documented_example_refuted"
   ],
   "note": "Refuted as stated, finding: \" AND \" is split before BETWEEN is looked for, so no text at all is read as a BETWEEN; the documented example is refused."
  },
  {
   "property": "C180",
   "status": "partial",
   "theorems": [
    "filter_text_no_panic",
    "filter_text_panic_refuted"
   ],
   "note": "Refuted as stated, finding: a value that is one lone quote slices out of range and panics. Proved for every text without quotes."
  },
  {
   "property": "C181",
   "status": "partial",
   "theorems": [
    "filter_text_two_groups_refuted",
    "filter_text_or_of_ands_refuted",
    "filter_text_exact"
   ],
   "note": "Refuted as stated, finding: the outer characters are stripped when a text begins with ( and ends with ), even if they do not match each other, and AND is split inside parentheses; the misread texts give an expression, not an error."
  },
  {
   "property": "C182",
   "status": "partial",
   "theorems": [
    "filter_text_assign_refuted",
    "filter_text_quoted_operator_refuted",
    "filter_text_exact"
   ],
   "note": "Refuted as stated, findings: \":=\" leaves the colon in the field, and an operator inside quotes cuts the value. Proved for the other seven signs."
  },
  {
   "property": "C183",
   "status": "proved",
   "theorems": [
    "text_insert_exact",
    "text_insert_accepts",
    "text_insert_failure"
   ],
   "note": ""
  },
  {
   "property": "C184",
   "status": "partial",
   "theorems": [
    "text_batch_exact",
    "text_batch_accepts",
    "text_batch_panic_refuted",
    "text_batch_dimension_refuted"
   ],
   "note": "Refuted as stated, findings: an embedder that returns fewer vectors than texts makes the call panic; the batch stores vectors of any dimension. Proved for every embedder that gives each text its vector, every map order."
  },
  {
   "property": "C185",
   "status": "proved",
   "theorems": [
    "text_only_exact",
    "text_only_refuses"
   ],
   "note": "Lists of fewer than 2^51-60 matches; the float64 scores 1/(60+place) are proved strictly decreasing (Reals axioms)."
  },
  {
   "property": "C186",
   "status": "partial",
   "theorems": [
    "text_only_scope_refuted",
    "text_only_malformed_refuted",
    "text_only_exact"
   ],
   "note": "Refuted as stated, findings: collection and threshold are ignored because hybrid search without a vector never fails on an open store, so the direct search that honours them is never reached; a malformed query is answered with no results."
  },
  {
   "property": "C187",
   "status": "proved",
   "theorems": [
    "text_search_exact"
   ],
   "note": "Exhaustive search; with an index the guarantees of C18 apply."
  },
  {
   "property": "C188",
   "status": "partial",
   "theorems": [
    "text_empty_refuted",
    "text_insert_exact",
    "text_batch_exact"
   ],
   "note": "Refuted as stated, finding: InsertText refuses an empty text, InsertTextBatch drops it without an error, the quick interface stores it."
  },
  {
   "property": "C189",
   "status": "proved",
   "theorems": [
    "train_index_keeps_data",
    "train_index_accepts"
   ],
   "note": "rows in any order, clustering an arbitrary function; snapshots not modelled here"
  },
  {
   "property": "C190",
   "status": "proved",
   "theorems": [
    "trained_search_exact"
   ],
   "note": "includes that the index search does not panic"
  },
  {
   "property": "C191",
   "status": "proved",
   "theorems": [
    "untrained_search_exact"
   ],
   "note": ""
  },
  {
   "property": "C192",
   "status": "partial",
   "theorems": [
    "failed_training_refuted",
    "untrained_search_exact",
    "train_index_keeps_data"
   ],
   "note": "Refuted as stated, finding: TrainIndex clears the index before it knows that it can train; Clear keeps Trained = true, so after a failure the next insertion is the only entry searches see. Holds on stores that were never trained."
  },
  {
   "property": "C193",
   "status": "partial",
   "theorems": [
    "trained_delete_refuted",
    "trained_search_exact"
   ],
   "note": "Refuted as stated, finding: the index does not renumber list entries behind the deleted one, the next search panics with an index out of range (or returns wrong ids). Searches stay exact after removals that do not touch the index."
  },
  {
   "property": "C194",
   "status": "proved",
   "theorems": [
    "lexical_search_exact",
    "lexical_search_total"
   ],
   "note": "The text search, the search by names and the graph traversals are parameters that receive the limits in force; scores are not NaN."
  },
  {
   "property": "C195",
   "status": "partial",
   "theorems": [
    "lexical_related_order_refuted",
    "lexical_search_exact"
   ],
   "note": "Refuted as stated, finding: every chunk met only through the graph scores 0.5, so MaxRelatedChunks keeps whichever come first in the iteration order of a Go map. lexical_search_exact states what is determined."
  },
  {
   "property": "C196",
   "status": "proved",
   "theorems": [
    "graphml_round_trip",
    "graphml_weight_kept"
   ],
   "note": ""
  },
  {
   "property": "C197",
   "status": "proved",
   "theorems": [
    "gexf_round_trip"
   ],
   "note": ""
  },
  {
   "property": "C198",
   "status": "partial",
   "theorems": [
    "graphml_restores_refuted",
    "gexf_restores_refuted"
   ],
   "note": "Refuted as stated, finding: in GraphML a weight of 10^-7 comes back as 1, a vector with a number that is not finite as three zeros, and edge vectors are gone; GEXF drops the properties of edges. What does come back is C196 and C197."
  },
  {
   "property": "C199",
   "status": "proved",
   "theorems": [
    "own_export_detected"
   ],
   "note": "The beginnings of the two XML formats are written out in GraphXmlProps from the code and encoding/xml."
  },
  {
   "property": "C200",
   "status": "partial",
   "theorems": [
    "detect_format_refuted"
   ],
   "note": "Refuted as stated, finding: a GEXF document without XML declaration is not recognised, one mentioning graphml in its first 512 bytes is taken for GraphML, and the bytes read are gone from the reader."
  },
  {
   "property": "C201",
   "status": "proved",
   "theorems": [
    "quantised_index_close"
   ],
   "note": "Over exact rationals; vectors all of the dimension of the store."
  },
  {
   "property": "C202",
   "status": "partial",
   "theorems": [
    "quantised_one_by_one",
    "quantised_one_by_one_refuted"
   ],
   "note": "Refuted as stated, finding: when embeddings are stored one at a time the quantiser is trained on the first one alone, and the index holds for every later embedding a vector within 10^-6 of the first one (proved for all histories)."
  },
  {
   "property": "C203",
   "status": "partial",
   "theorems": [
    "quantised_retraining_refuted"
   ],
   "note": "Refuted as stated, finding: codes made with the old range are decoded with the new one; a stored 1 becomes 100. What training does for later embeddings is C204."
  },
  {
   "property": "C204",
   "status": "proved",
   "theorems": [
    "quantised_after_training"
   ],
   "note": "Over exact rationals."
  },
  {
   "property": "C205",
   "status": "proved",
   "theorems": [
    "index_export_import"
   ],
   "note": "gob is taken to give back what it was given; histories as in C37."
  },
  {
   "property": "C206",
   "status": "proved",
   "theorems": [
    "ivf_save_load"
   ],
   "note": ""
  },
  {
   "property": "C207",
   "status": "proved",
   "theorems": [
    "cut_index_file_reported"
   ],
   "note": ""
  },
  {
   "property": "C208",
   "status": "partial",
   "theorems": [
    "failed_import_refuted"
   ],
   "note": "Refuted as stated, finding: Load overwrites the index while reading; a truncated file is reported but leaves an entry point without its node, and the next search panics. That the failure is reported is C207."
  },
  {
   "property": "C209",
   "status": "partial",
   "theorems": [
    "import_ivf_file",
    "ivf_import_refuted"
   ],
   "note": "Refuted as stated, findings: an IVF file imported into an HNSW store reports success but only overwrites M and EfConstruction of the HNSW index in use (proved for all indexes); a store with only IVF cannot import its own export (proved for all)."
  },
  {
   "property": "C210",
   "status": "partial",
   "theorems": [
    "failed_export_refuted"
   ],
   "note": "Refuted as stated, finding: without an index the file is emptied before the error is returned."
  },
  {
   "property": "C211",
   "status": "proved",
   "theorems": [
    "index_calls_refused"
   ],
   "note": ""
  },
  {
   "property": "C212",
   "status": "proved",
   "theorems": [
    "quantised_reopen",
    "quantised_rebuild"
   ],
   "note": "Over exact rationals; scalar quantiser; sequential rebuild."
  },
  {
   "property": "C213",
   "status": "partial",
   "theorems": [
    "quantised_reopen_refuted"
   ],
   "note": "Refuted as stated, finding: a configuration without a number of bits (cortexdb.Open sets none) drops the quantiser but loads the codes; the index then has no vector for any coded embedding and all are equally far from every query (proved for all stores). With a number of bits it holds, C212."
  },
  {
   "property": "C214",
   "status": "proved",
   "theorems": [
    "sessions_always_open"
   ],
   "note": "Both indexes, their snapshots and all configurations; quantisers excluded (C203, C204)."
  },
  {
   "property": "C215",
   "status": "proved",
   "theorems": [
    "restart_same_answers"
   ],
   "note": ""
  },
  {
   "property": "C216",
   "status": "partial",
   "theorems": [
    "restart_same_ivf",
    "nprobe_config_refuted"
   ],
   "note": "The index survives exactly; refuted as to the configuration, finding: Load overwrites NProbe, so a new IVF.NProbe has no effect on a file with a snapshot."
  },
  {
   "property": "C217",
   "status": "partial",
   "theorems": [
    "rebuilt_index_exact",
    "damaged_snapshot_refuted"
   ],
   "note": "Proved for a snapshot that is missing, unreadable, or breaks off before its entry point. Refuted otherwise, finding: Load has set the entry point when it fails, the rebuild goes on with that index and panics inside Init; a damaged IVF snapshot leaves an index that panics at the first search."
  },
  {
   "property": "C218",
   "status": "partial",
   "theorems": [
    "changed_configuration_refuted",
    "restart_same_answers"
   ],
   "note": "Refuted as stated, finding: a snapshot is not invalidated by sessions that do not maintain it; what they wrote is never found by the index and what they deleted stays in it. Holds when nothing is written in between (C215)."
  },
  {
   "property": "C219",
   "status": "partial",
   "theorems": [
    "interrupted_save",
    "interrupted_save_refuted"
   ],
   "note": "Proved for saves between which the quantiser is not trained again. Refuted otherwise, finding: nodes and quantiser are saved by two separate statements outside a transaction, so a save that breaks off between them leaves codes without a quantiser (the first save) or codes read with the previous range (after retraining)."
  },
  {
   "property": "C220",
   "status": "partial",
   "theorems": [
    "log_lines_whole",
    "log_cut_anywhere",
    "log_never_stuck",
    "log_lines_refuted"
   ],
   "note": "Proved for goroutines that share one logger. Refuted for a logger and one made from it by With, finding: With gives the new logger a mutex of its own although both write to the same writer, and a line is several writes, so the lines of a program and of the store it gave its logger to run into each other."
  },
  {
   "property": "C221",
   "status": "partial",
   "theorems": [
    "log_shows_pairs",
    "nop_logger_silent",
    "log_pairs_refuted"
   ],
   "note": "Proved for arguments in pairs. Refuted otherwise, finding: a key without a value is dropped, or pairs up with the next key given to With; line breaks are not escaped, so that a message can forge lines."
  },
  {
   "property": "C222",
   "status": "proved",
   "theorems": [
    "errors_is_exact",
    "error_kind_kept",
    "error_text_kept",
    "wrap_error_nil",
    "kinds_distinct"
   ],
   "note": ""
  },
  {
   "property": "C223",
   "status": "partial",
   "theorems": [
    "embedding_failure_reported",
    "embedding_cause_refuted"
   ],
   "note": "Kind and text are proved. Refuted as to the cause, finding: the error of the embedder is formatted with %v, so errors.Is never finds it, context.Canceled included."
  },
  {
   "property": "C224",
   "status": "partial",
   "theorems": [
    "tools_agree",
    "mcp_same_as_call",
    "bad_call_harmless",
    "tool_methods",
    "failed_call_result_refuted"
   ],
   "note": "Everything but the last part is proved. Refuted as to the result of a failing call, finding: Call returns the nil pointer of the method inside an interface, so the result of a failing call is not nil."
  },
  {
   "property": "C225",
   "status": "partial",
   "theorems": [
    "set_policy_reported",
    "set_policy_refuted"
   ],
   "note": "Refuted as stated, finding: SetAutoDimAdapt changes only what Config reports; the adapter keeps the policy of the construction, for every store and history."
  },
  {
   "property": "C226",
   "status": "partial",
   "theorems": [
    "snapshot_from_past",
    "close_saves_current",
    "close_saves_current_refuted"
   ],
   "note": "Proved when no periodic save is past its check as Close takes the mutex. Refuted otherwise, finding: the periodic save holds no lock of the store, so an older snapshot, serialised before, can be written after that of Close; the file is left with the older index, or nodes and quantiser of different saves."
  },
  {
   "property": "C227",
   "status": "proved",
   "theorems": [
    "closed_file_stays",
    "autosave_ends"
   ],
   "note": ""
  },
  {
   "property": "C228",
   "status": "partial",
   "theorems": [
    "disabled_autosave",
    "autosave_settings_refuted"
   ],
   "note": "Proved for Enabled. Refuted for the other settings, finding: SaveOnClose and MinChanges are never read."
  },
  {
   "property": "C229",
   "status": "partial",
   "theorems": [
    "backup_exact",
    "backup_succeeds",
    "backup_path_refuted",
    "backup_injection_refuted"
   ],
   "note": "Proved for paths without a quote. Refuted otherwise, finding: the path is pasted into the statement, so a quote names another file, fails, or has arbitrary SQL executed."
  },
  {
   "property": "C230",
   "status": "partial",
   "theorems": [
    "integer_argument",
    "numeric_argument_refuted"
   ],
   "note": "Refuted as stated, finding: coerceType reads the first run of digits only, so \"-5\" becomes 5, 1.9 becomes 1 and -2.5e3 becomes 2.5; 9223372036854775808 becomes 0 because the error of Sscanf is dropped; and a text without digits is passed on as a string for an integer or number parameter and counts as found. Proved: a plain decimal number that fits is read exactly."
  },
  {
   "property": "C231",
   "status": "proved",
   "theorems": [
    "boolean_argument",
    "array_argument"
   ],
   "note": "Lower case is that of ASCII."
  },
  {
   "property": "C232",
   "status": "partial",
   "theorems": [
    "argument_source",
    "argument_panics",
    "argument_refuted"
   ],
   "note": "Refuted as stated, finding: the words of the description are put unescaped into regexp.MustCompile, so a word that is not a regular expression, such as one with a lone parenthesis, makes the call panic on every text that contains it; and an allowed value is found inside another word (\"hot\" in \"photo\"). Proved: the order of the sources, and exactly when it panics."
  },
  {
   "property": "C233",
   "status": "partial",
   "theorems": [
    "schema_required",
    "schema_rebuilt_refuted"
   ],
   "note": "Refuted as stated, finding: Build appends to the same list, so building twice lists every required name twice. Proved: one Build lists exactly the required parameters, for every order of the map."
  },
  {
   "property": "C234",
   "status": "partial",
   "theorems": [
    "entity_patterns",
    "pattern_sources",
    "observe_kinds_refuted"
   ],
   "note": "Refuted as stated, finding: a single memory that lists an entity twice counts as two and is reported as a consistent pattern citing the same memory twice; and the ObservationTypes of the request are never read, so kinds that were not asked for are reported and stored. Proved: exactly which patterns are found and what they cite; with distinct memories and no repeated entity every pattern rests on two different memories."
  },
  {
   "property": "C235",
   "status": "partial",
   "theorems": [
    "generalisation",
    "generalisation_refuted"
   ],
   "note": "Refuted as stated, finding: a word repeated within one memory is a theme of all of them, and of two equally common words the order of the map decides. Proved: when there is a generalisation and that its word is one written most often."
  },
  {
   "property": "C236",
   "status": "partial",
   "theorems": [
    "observe_stores",
    "observe_strict_refuted"
   ],
   "note": "Refuted as stated, finding: the observations carry no vector, so with the strict or warn-only policy and a known dimension Observe fails whenever it has something to store, and stores nothing. Proved: what a successful Observe stores. Recall itself is a parameter here."
  },
  {
   "property": "C237",
   "status": "partial",
   "theorems": [
    "observe_text_shows",
    "observe_text_refuted"
   ],
   "note": "Refuted as stated, finding: observations stored by an earlier Observe, and memories without a known type, are recalled but left out of the text. Proved: the query, facts, experiences, opinions and new observations are all named."
  },
  {
   "property": "C238",
   "status": "partial",
   "theorems": [
    "product_ratio",
    "scalar_ratio",
    "binary_ratio",
    "ratio_refuted"
   ],
   "note": "Refuted as stated, finding: when the bits do not fill whole bytes the ratio overstates, for a binary code of two dimensions 32 instead of 8. Proved: exact for product quantisation and for full bytes, and never off by a byte. Exact fractions instead of float32."
  },
  {
   "property": "C239",
   "status": "partial",
   "theorems": [
    "mock_shape",
    "mock_components",
    "mock_same",
    "mock_refuted"
   ],
   "note": "Refuted as stated, finding: the components go up to 2, since the quotient is multiplied by 2, and texts whose code points agree as numbers in base 31 modulo 2^32, such as Aa and BB, get the same vector. Proved: dimension, bounds -2 and 2, the components, that neighbours differ, batches, and exactly when two texts share a vector. Exact fractions: float32 rounding is left out."
  }
 ]
}