{"id": "C01", "title": "Variable-length integers round-trip and are self-delimiting", "statement": "Writing any sequence of unsigned integers with the variable-length encoder and then reading the same number of integers back returns exactly the written values and leaves the reader positioned on the first byte after the last encoding, whatever bytes follow.", "quantifier": "all sequences of 64-bit unsigned values, all trailing bytes", "why_tests_cant": "The value space is 2^64 and sequences are unbounded; tests sample a few boundary values only.", "anchors": ["c/src/store.c: os_write_vint, is_read_vint, is_read_vll, os_write_vll, is_skip_vints"]}
{"id": "C02", "title": "Fixed-width integers and length-prefixed strings round-trip", "statement": "Writing 32/64-bit signed or unsigned integers and byte strings with the stream writer and reading them with the matching reader returns the same values; bytes after them are untouched.", "quantifier": "all 32-bit and 64-bit values, all byte strings", "why_tests_cant": "Requires all 2^32/2^64 values and unbounded strings.", "anchors": ["c/src/store.c: os_write_i32, is_read_i32, os_write_i64, is_read_i64, os_write_u32, is_read_u32, os_write_u64, is_read_u64, os_write_string, is_read_string"]}
{"id": "C03", "title": "Buffered output stream equals an ideal file", "statement": "Any sequence of write-byte, write-bytes, seek (within the bytes already written) and flush calls on an output stream leaves, after flush, a file whose contents and reported position are exactly those of an unbuffered byte array subjected to the same calls; buffer boundaries are invisible.", "quantifier": "all sequences of operations, all data, all alignments with respect to the 1024 byte buffer", "why_tests_cant": "The number of interleavings of writes, flushes and seeks with the buffer boundary is unbounded.", "anchors": ["c/src/store.c: os_write_byte, os_write_bytes, os_seek, os_flush, os_pos", "c/src/ram_store.c: ramo_flush_i"]}
{"id": "C04", "title": "Buffered input stream reads the file's bytes and never beyond the end", "statement": "For any sequence of seek, read-byte and read-bytes calls, an input stream returns the bytes stored in the file at the requested offsets, and a read that would pass the end of the file signals end-of-file rather than returning data.", "quantifier": "all files, all operation sequences", "why_tests_cant": "Depends on the relation between buffer start, buffer position and file length for unboundedly many histories.", "anchors": ["c/src/store.c: is_refill, is_read_byte, is_read_bytes, is_seek, is_pos", "c/src/compound_io.c: cmpdi_read_i"]}
{"id": "C05", "title": "In-memory files behave as flat byte arrays", "statement": "A file in the in-memory store, although kept in 1024-byte chunks, behaves for every sequence of positioned writes and reads like one flat growable byte array; its length is the highest offset written.", "quantifier": "all sequences of positioned writes and reads, all lengths", "why_tests_cant": "Chunk boundary cases arise for every offset/length combination.", "anchors": ["c/src/ram_store.c: rf_extend_if_necessary, ramo_flush_i, rami_read_i, ramo_write_to"]}
{"id": "C06", "title": "Creating an output file replaces earlier contents", "statement": "After opening a name for output, writing some bytes and closing, reading the name back yields exactly these bytes, whatever the name contained before.", "quantifier": "all previous contents, all new contents", "why_tests_cant": "Needs every pair of old and new contents, in particular new contents shorter than the old ones.", "anchors": ["c/src/fs_store.c: fs_new_output", "c/src/ram_store.c: ram_new_output"]}
{"id": "C07", "title": "Compound files expose their members unchanged", "statement": "Packing any list of distinct files into one compound file and opening the members through the compound store yields the same names, lengths and bytes as the original files, and never exposes bytes of a neighbouring member.", "quantifier": "all lists of distinctly named files, all contents, all read sequences", "why_tests_cant": "Number of members, name lengths and contents are unbounded.", "anchors": ["c/src/compound_io.c: cw_close, cw_copy_file, open_cmpd_store, cmpd_open_input, cmpdi_read_i"]}
{"id": "C08", "title": "BitVector is a growable set of integers", "statement": "Starting from a new bit vector, after any sequence of set and unset operations at arbitrary indices, querying an index returns whether it is in the set obtained by the same insertions and removals, the reported count is the number of members, and indices never touched read as unset.", "quantifier": "all operation sequences, all non-negative indices (including ones that force reallocation)", "why_tests_cant": "Unbounded sequences and indices around word and capacity boundaries.", "anchors": ["c/include/bitvector.h: frt_bv_set, frt_bv_set_value, frt_bv_get, frt_bv_unset, frt_bv_set_fast, frt_bv_recount", "c/src/bitvector.c: bv_new_capa, bv_clear"]}
{"id": "C09", "title": "Bit vector scanning enumerates the set in order", "statement": "Scanning for next set bits from any starting index yields exactly the members not below that index in increasing order and then reports exhaustion.", "quantifier": "all bit vectors, all starting indices", "why_tests_cant": "Requires all bit patterns over all word alignments.", "anchors": ["c/include/bitvector.h: frt_bv_scan_next_from, frt_bv_scan_next, frt_bv_scan_next_unset_from"]}
{"id": "C10", "title": "Bit vector algebra is pointwise", "statement": "And, or, xor and not of bit vectors, also of different lengths and also when an operand represents all integers beyond its length, agree index by index with the corresponding boolean operation; the in-place forms give the same answer as the allocating forms.", "quantifier": "all pairs of bit vectors, all indices", "why_tests_cant": "Pairs of arbitrary-length vectors with two extension modes; aliasing of source and destination.", "anchors": ["c/include/bitvector.h: FRT_BV_OP, frt_bv_capa, frt_bv_and, frt_bv_or, frt_bv_xor, frt_bv_not, frt_bv_and_x, frt_bv_or_x, frt_bv_xor_x, frt_bv_not_x"]}
{"id": "C11", "title": "Deletion files round-trip", "statement": "Writing the set of deleted documents of a segment to its deletion file and reading it back gives the same set and the same count.", "quantifier": "all sets of document numbers", "why_tests_cant": "Unbounded bit sets.", "anchors": ["c/src/index.c: bv_write, bv_read"]}
{"id": "C12", "title": "Hash table implements a finite map", "statement": "After any sequence of insertions, overwrites, deletions and look-ups with any hash function, a look-up returns the value of the most recent insertion of an equal key not followed by its deletion, and absent otherwise; the reported size is the number of keys; every operation terminates.", "quantifier": "all operation sequences, all keys, all hash functions consistent with key equality", "why_tests_cant": "Adversarial hash functions, tombstones, resizes; infinite probe loops cannot be excluded by sampling.", "anchors": ["c/src/hash.c: h_lookup, h_lookup_ptr, h_set_ext, h_set, h_set_safe, h_get, h_del, h_rem, h_has_key, h_clear, h_resize, h_each"]}
{"id": "C13", "title": "Hash set keeps insertion order without duplicates", "statement": "After any sequence of additions and removals a hash set enumerates each member exactly once, in the order of first insertion among the present members, and its size is the number of members.", "quantifier": "all operation sequences", "why_tests_cant": "Unbounded sequences mixing removals at head, tail and middle.", "anchors": ["c/src/hashset.c: append, hs_add, hs_add_safe, hs_del, hs_rem, hs_exists, hs_orig, hs_merge, hs_clear"]}
{"id": "C14", "title": "Priority queue pops in order and keeps the best k", "statement": "Pushing any multiset of elements and popping until empty returns the same multiset from least to greatest; inserting into a queue of capacity k retains the k greatest elements seen, whatever the order of arrival.", "quantifier": "all element sequences, all total preorders, all capacities", "why_tests_cant": "Heap shape depends on the whole history.", "anchors": ["c/src/priorityqueue.c: pq_push, pq_insert, pq_down, pq_up, pq_pop, pq_top"]}
{"id": "C15", "title": "Norm encoding is monotone, truncating and stable", "statement": "Decoding and re-encoding any stored norm byte is the identity; encoding is monotone in the field boost; the decoded value of a positive representable number never exceeds it except for the smallest positive code; zero and negatives encode to zero.", "quantifier": "all 256 bytes, all single-precision floats", "why_tests_cant": "2^32 floats and order relations between every pair.", "anchors": ["c/src/helper.c: float2byte, byte2float, float2int, int2float", "c/src/similarity.c: simdef_encode_norm, simdef_decode_norm"]}
{"id": "C16", "title": "Term dictionary lookups are exact", "statement": "For a segment whose terms were added in increasing order, looking up a term returns the dictionary entry stored for it, and reports absence for every other string; seeking to a string positions on the smallest stored term not below it; the sparse in-memory index never hides a term.", "quantifier": "all sorted term lists, all index intervals, all probe strings, all sequences of probes on one enumerator", "why_tests_cant": "Block boundary and cursor history cases are unbounded.", "anchors": ["c/src/index.c: tiw_add, tw_add, tw_write_term, tiw_start_field, sfi_open, ste_next, ste_scan_to, sti_get_index_offset, ste_index_seek, ste_get_term, tir_get_ti"]}
{"id": "C17", "title": "Postings round-trip", "statement": "Enumerating the documents of a term yields exactly the documents, frequencies and positions that were indexed for the term, in increasing document order.", "quantifier": "all posting lists (any documents, frequencies, positions)", "why_tests_cant": "Unbounded lists; gap and frequency encodings mix.", "anchors": ["c/src/index.c: dw_flush, skip_buf_add, stde_seek, stde_next, stde_read, stpe_seek, stpe_next, stpe_next_position"]}
{"id": "C18", "title": "skip_to on postings equals repeated next", "statement": "Skipping a posting enumerator to a target moves it to the first remaining live document not below the target, exactly as repeatedly advancing would, for any skip interval, any deletions and any previous movements.", "quantifier": "all posting lists, skip intervals, deletion sets, interleavings of next and skip_to", "why_tests_cant": "Skip pointers interact with counts, deletions and lazily read skip data over unbounded histories.", "anchors": ["c/src/index.c: skip_buf_add, skip_buf_write, stde_skip_to, stde_next"]}
{"id": "C19", "title": "Deleted documents are invisible to enumeration", "statement": "No enumeration (next, bulk read or skip) of the postings of a term returns a document that was deleted before the enumeration reached it, and no live document is lost.", "quantifier": "all posting lists, all deletion sets, all buffer sizes", "why_tests_cant": "All subsets of deletions and all buffer alignments.", "anchors": ["c/src/index.c: stde_next, stde_read, stde_skip_to, sr_delete_doc_i, sr_is_deleted_i"]}
{"id": "C20", "title": "Multi-segment document numbering is a bijection", "statement": "For a reader over several segments, every document number below the total maps to exactly one (segment, local number) pair and back; fetching, testing or deleting a document by its global number acts on this document only.", "quantifier": "all lists of segment sizes (including empty segments), all document numbers", "why_tests_cant": "Binary search over arbitrary cumulative sizes with empty segments.", "anchors": ["c/src/index.c: mr_reader_index_i, mr_get_doc, mr_is_deleted, mr_delete_doc_i, mr_undelete_all_i, mr_num_docs, mr_new"]}
{"id": "C21", "title": "Postings over several segments are the concatenation", "statement": "Enumerating a term over several segments yields the per-segment live documents shifted by the segment bases, in increasing order; skip_to has the same meaning as in one segment; enumerating a term that occurs nowhere yields nothing, whatever the enumerator was used for before.", "quantifier": "all segment lists, all terms, all reuse histories of one enumerator", "why_tests_cant": "Unbounded reuse histories and segment combinations.", "anchors": ["c/src/index.c: mtde_seek, mtde_seek_te, mtde_next, mtde_skip_to, mtde_read, mtde_next_tde"]}
{"id": "C22", "title": "Term enumeration over several segments is a sorted merge", "statement": "Enumerating terms over several segments yields each distinct term once, in increasing order, with document frequency equal to the sum over the segments; seeking to a string positions on the smallest term not below it.", "quantifier": "all families of sorted term lists", "why_tests_cant": "Heap order over arbitrary interleavings of lists.", "anchors": ["c/src/index.c: mte_new, mte_next, mte_skip_to, tew_lt"]}
{"id": "C23", "title": "Merging segments preserves live documents and postings", "statement": "Merging segments produces one segment whose documents are exactly the live documents of the inputs in order, and in which every term's postings are the inputs' postings restricted to live documents and renumbered accordingly; terms without live documents disappear.", "quantifier": "all segment lists, all deletion sets", "why_tests_cant": "All deletions and term overlaps over unboundedly many segments.", "anchors": ["c/src/index.c: smi_load_doc_map, sm_merge_terms, sm_append_postings, sm_merge_term_info, sm_merge_term_infos, sm_merge_fields"]}
{"id": "C24", "title": "Adding readers to a writer keeps deletions deleted", "statement": "After adding existing index readers to a writer, the set of visible documents is the writer's documents followed by the live documents of the readers; documents deleted in a source reader stay deleted.", "quantifier": "all histories of the writer and of the sources, all numberings of the fields, all orders of evaluation C allows", "why_tests_cant": "Needs every deletion state of the source, every pair of field tables and every layout of the copied files; the shipped tests add readers of identical layout without deletions.", "anchors": ["c/src/index.c:6530-6615 (iw_cp_fields)", "c/src/index.c:6617-6684 (iw_cp_terms)", "c/src/index.c:6686-6721 (iw_cp_norms)", "c/src/index.c:6751-6824 (iw_add_segment, iw_add_segments, iw_add_readers)"]}
{"id": "C25", "title": "Segment and generation names are collision free", "statement": "The textual (base 36) form of a generation or segment number determines the number: parsing the printed form returns it, and different numbers give different file names.", "quantifier": "all 64-bit numbers", "why_tests_cant": "2^64 numbers.", "anchors": ["c/src/index.c: u64_to_str36, str36_to_u64, fn_for_generation, segfn_for_generation, new_segment"]}
{"id": "C26", "title": "Commit descriptor round-trips", "statement": "Reading back a written commit descriptor (segments file) yields the same segments, sizes, deletion and norm generations, format, version and field definitions.", "quantifier": "all segment lists and field lists", "why_tests_cant": "Unbounded nested lists.", "anchors": ["c/src/index.c: sis_write, sis_read_i, si_write, si_read, fis_write, fis_read"]}
{"id": "C27", "title": "A crash during commit leaves the old or the new commit", "statement": "If the process dies at any point while committing, a later open of the index sees exactly the previous commit or exactly the new one, and all files this commit refers to are present.", "quantifier": "all crash points inside a commit, all index contents, all earlier histories", "why_tests_cant": "Crash points and partial writes cannot be enumerated by tests.", "anchors": ["c/src/index.c: sis_write, sis_find_segments_file, sis_read_i, fis_read, ir_commit_i, deleter_commit_pending_deletions"]}
{"id": "C28", "title": "The file deleter removes only unreferenced files", "statement": "Cleaning the index directory never removes a file that belongs to the current commit and marks for removal every index file of segments that are not in the commit.", "quantifier": "all directory listings, all commits", "why_tests_cant": "All file name shapes and all commits.", "anchors": ["c/src/index.c: deleter_find_deletable_files, deleter_find_deletable_files_i, file_name_filter_is_index_file, file_name_filter_is_cfs_file, si_norm_file_name"]}
{"id": "C29", "title": "A reader knows whether it is up to date", "statement": "A reader reports that it is current if and only if no commit has happened since it was opened, and a stale reader cannot start modifying the index.", "quantifier": "all interleavings of commits and reader operations", "why_tests_cant": "All histories of other processes.", "anchors": ["c/src/index.c: sr_is_latest_i, mr_is_latest_i, ir_is_latest, ir_acquire_write_lock, sis_read_current_version"]}
{"id": "C30", "title": "Write lock gives mutual exclusion", "statement": "At any time at most one party holds the index write lock, under every interleaving of acquire attempts, releases and closing of lock objects.", "quantifier": "all interleavings of any number of clients", "why_tests_cant": "Schedules are unbounded.", "anchors": ["c/src/fs_store.c: fs_lock_obtain, fs_lock_release, fs_lock_is_locked, fs_close_lock_i", "c/src/ram_store.c: ram_lock_obtain, ram_lock_release, ram_close_lock_i", "c/src/index.c: iw_open, index_is_locked, ir_acquire_write_lock"]}
{"id": "C31", "title": "The index is the log of documents and deletions", "statement": "Whatever is added to an index, deleted by term, committed, optimized, closed and opened again: after a commit the index holds exactly the documents that were added and that no later deletion by one of their terms removed, in the order they were added; every term enumerator, stored field, term vector and norm of the index is that of these documents; optimizing leaves one segment without deleted documents.", "quantifier": "all sequences of operations of a writer, all documents, analyzers, norms, merge factors from 2 on, limits and intervals", "why_tests_cant": "When merges happen and which segments they take depends on the whole history.", "anchors": ["c/src/index.c:6165-6527", "c/src/index.c:6278-6309", "c/src/index.c:6437-6453"]}
{"id": "C32", "title": "A unique key names one document", "statement": "With a key field that is indexed and not tokenized, adding a document replaces the document that had the same key: after any number of additions there is exactly one document for every key, the one added last.", "quantifier": "all sequences of documents and keys", "why_tests_cant": "Only keys at the limit of the word size behave differently.", "anchors": ["c/src/ind.c:202-250", "ruby/lib/ferret/index.rb:263-297", "c/src/index.c:5622-5642", "c/src/index.c:6367-6394"]}
{"id": "C33", "title": "Boolean queries match the boolean combination of their clauses", "statement": "A document is returned by a boolean query iff it matches all required clauses, no prohibited clause and, if there is no required clause, at least one optional clause; each document is returned once, in increasing order; nesting boolean queries behaves the same.", "quantifier": "all clause lists, all nestings, all sub-query document sets", "why_tests_cant": "Scorer composition and skip interleavings are unbounded.", "anchors": ["c/src/q_boolean.c: csc_next, csc_skip_to, csc_do_next, dssc_next, rxsc_next, rossc_score, bsc_next, bq_rewrite, counting_conjunction_sum_scorer..."]}
{"id": "C34", "title": "Exact phrases match exactly the consecutive occurrences", "statement": "An exact phrase query matches a document iff there is a base position such that every phrase term occurs at its offset from it, and the phrase frequency is the number of such base positions.", "quantifier": "all documents (position lists), all phrases", "why_tests_cant": "All position lists and phrase lengths.", "anchors": ["c/src/q_phrase.c: ephsc_phrase_freq, pp_next_position, phsc_do_next, phsc_next, phsc_skip_to"]}
{"id": "C35", "title": "Sloppy phrases with repeated terms need distinct occurrences", "statement": "A sloppy phrase query that contains a term twice does not match a document in which the term occurs only once.", "quantifier": "all documents and phrases with repeated terms", "why_tests_cant": "All alignments of repeated terms.", "anchors": ["c/src/q_phrase.c: sphsc_phrase_freq, sphsc_check_repeats, phw_scorer"]}
{"id": "C36", "title": "Wildcard matching follows the glob semantics", "statement": "A wildcard pattern matches a term iff the term can be obtained by replacing each * by some string and each ? by exactly one byte; the wildcard query selects exactly the matching terms of the field.", "quantifier": "all patterns and all terms", "why_tests_cant": "Unbounded strings with nested backtracking.", "anchors": ["c/src/q_wildcard.c: wc_match, wcq_rewrite"]}
{"id": "C37", "title": "Prefix queries select exactly the terms with the prefix", "statement": "A prefix query expands to precisely the indexed terms that start with the prefix, the first ones in term order if the term limit is reached.", "quantifier": "all term lists, prefixes and limits", "why_tests_cant": "Unbounded term lists.", "anchors": ["c/src/q_prefix.c: prq_rewrite", "c/src/q_multi_term.c: multi_tq_add_term_boost"]}
{"id": "C38", "title": "Fuzzy matching computes edit distance", "statement": "The similarity computed between a fuzzy query term and a candidate is determined by their Levenshtein distance; a candidate within the permitted distance is never rejected by the early exit.", "quantifier": "all pairs of strings, all similarity thresholds", "why_tests_cant": "All string pairs.", "anchors": ["c/src/q_fuzzy.c: fuzq_score, fuzq_score_mn, fuzq_calculate_max_distance, fuzq_get_max_distance"]}
{"id": "C39", "title": "Range filters select exactly the documents with a term in range", "statement": "A range query or filter matches exactly the live documents containing a term between its bounds, inclusive or exclusive as requested, with absent bounds meaning unbounded.", "quantifier": "all indexes, all bounds", "why_tests_cant": "All term lists and bound combinations.", "anchors": ["c/src/q_range.c: rfilt_get_bv_i, range_new, rq_rewrite"]}
{"id": "C40", "title": "Typed range filters compare numerically", "statement": "A typed range query with numeric bounds matches exactly the live documents containing a term that is a number within the bounds; non-numeric terms never match.", "quantifier": "all term lists, all bounds", "why_tests_cant": "All sequences of terms: parse results of one term must not influence the next.", "anchors": ["c/src/q_range.c: SET_DOCS, trfilt_get_bv_i"]}
{"id": "C41", "title": "Paged search returns the right slice of the full ranking", "statement": "Searching with offset a and limit b returns ranks a..a+b-1 of the ranking of all matching documents by descending score and ascending document number, the reported total is the number of matches, and the reported maximum score is the maximum.", "quantifier": "all scored match sets, all offsets and limits", "why_tests_cant": "All score assignments and ties, all offset/limit combinations.", "anchors": ["c/src/search.c: isea_search_w, hit_lt, hit_pq_insert, hit_pq_pop, hit_pq_down, hit_pq_up"]}
{"id": "C42", "title": "Sorted search orders by the requested keys", "statement": "Searching with a list of sort fields returns the matching documents ordered by these keys lexicographically, each reversed as requested, ties broken by document number.", "quantifier": "all key assignments, all sort field lists", "why_tests_cant": "All key assignments.", "anchors": ["c/src/sort.c: fshq_lt, fshq_pq_insert, fshq_pq_pop, fshq_pq_down, fdshq_lt"]}
{"id": "C43", "title": "Searching several indexes equals searching their union", "statement": "A search over several searchers returns the same hits, order and total as the same search over one index holding the concatenated documents.", "quantifier": "all families of indexes, all queries including prohibited expanding clauses", "why_tests_cant": "All families and query shapes.", "anchors": ["c/src/search.c: msea_search_w, msea_rewrite, msea_get_searcher_index, hit_pq_multi_insert", "c/src/search.c: q_combine"]}
{"id": "C44", "title": "Constant score and filtered queries agree with the filter", "statement": "A constant score query returns exactly the documents selected by its filter, and a filtered query exactly the documents matched by its query and selected by the filter, each time it is run, independent of earlier or concurrent searches using the same filter.", "quantifier": "all filters, all search histories on one reader", "why_tests_cant": "Depends on histories that share cached filter state.", "anchors": ["c/src/q_const_score.c: cssc_next, cssc_skip_to, cssc_new", "c/src/q_filtered_query.c: fqsc_next, fqsc_skip_to", "c/src/filter.c: filt_get_bv"]}
{"id": "C45", "title": "Span near queries find all windows", "statement": "A span near query matches a document iff one occurrence of each clause can be chosen (in clause order if ordered) with total gap at most the slop.", "quantifier": "all position lists, slops and clause counts", "why_tests_cant": "All position lists.", "anchors": ["c/src/q_span.c: sne_next_ordered_match, sne_next_unordered_match, sne_goto_next_doc, spanne_next"]}
{"id": "C46", "title": "Span queries combine with other clauses without losing or repeating documents", "statement": "Advancing a span query's matches with any mix of next and skip_to visits exactly the matching documents, in increasing order, each at most once.", "quantifier": "all posting lists, all interleavings of next and skip_to", "why_tests_cant": "All interleavings.", "anchors": ["c/src/q_span.c: spansc_next, spansc_skip_to, spante_next, spante_skip_to"]}
{"id": "C47", "title": "Query boosts survive rewriting", "statement": "The boost set on a query scales the score of its matches whatever the query type, i.e. rewriting a query keeps its boost.", "quantifier": "all query types and boosts", "why_tests_cant": "All query types under rewriting.", "anchors": ["c/src/q_range.c: rq_rewrite", "c/src/q_wildcard.c: wcq_rewrite", "c/src/q_fuzzy.c: fuzq_rewrite", "c/src/q_prefix.c: prq_rewrite"]}
{"id": "C48", "title": "Equal queries hash equally", "statement": "Two queries that compare equal have the same hash value, so that caches keyed by queries find them.", "quantifier": "all pairs of queries of all types, arbitrarily nested", "why_tests_cant": "Unbounded nesting.", "anchors": ["c/src/search.c: q_hash, q_eq", "c/src/q_boolean.c: bq_hash, bq_eq", "c/src/q_phrase.c: phq_hash, phq_eq", "c/src/q_span.c: spannq_hash, spannq_eq, spanoq_hash, spanoq_eq", "c/src/q_multi_term.c: multi_tq_hash, multi_tq_eq", "c/src/filter.c: filt_hash, filt_eq"]}
{"id": "C49", "title": "Match compaction preserves coverage", "statement": "Compacting the match positions used for highlighting yields sorted, non-adjacent ranges covering exactly the same positions, and an empty list of matches stays empty.", "quantifier": "all lists of matches", "why_tests_cant": "All overlapping patterns.", "anchors": ["c/src/search.c: matchv_compact, matchv_compact_with_breaks, match_range_cmp"]}
{"id": "C50", "title": "Multi-string replacement is the documented rewriting", "statement": "Mapping a text with a set of pattern/replacement pairs replaces, scanning left to right, each occurrence of a pattern at the earliest position at which some pattern ends (the longest such pattern, the one added last of equal ones) and copies all other bytes; the result never exceeds the capacity given.", "quantifier": "all pattern sets, texts and capacities", "why_tests_cant": "All overlaps of patterns.", "anchors": ["c/src/multimapper.c: mulmap_compile, mulmap_process_state, mulmap_map_len, mulmap_dynamic_map"]}
{"id": "C51", "title": "Stop-word removal keeps token positions", "statement": "Removing stop words from a token stream leaves the remaining tokens with the same absolute positions and offsets.", "quantifier": "all token streams and stop word sets", "why_tests_cant": "All streams.", "anchors": ["c/src/analysis.c: sf_next"]}
{"id": "C52", "title": "Lexicographic integers preserve order and round-trip", "statement": "Converting integers to their lexicographic string form preserves order (including negatives and different lengths) and converting back returns the integer.", "quantifier": "all integers with fewer than ten thousand digits", "why_tests_cant": "Infinitely many pairs of integers.", "anchors": ["ruby/lib/ferret/number_tools.rb: Integer#to_s_lex, String#to_i_lex, Integer#to_s_pad"]}
{"id": "C53", "title": "Growable arrays behave as lists", "statement": "Push, pop, unshift, shift, indexed set (also beyond the end or from the end), get and remove on arrays behave like the same operations on a list.", "quantifier": "all operation sequences", "why_tests_cant": "All sequences across reallocation.", "anchors": ["c/src/array.c: ary_push_i, ary_pop_i, ary_unshift_i, ary_shift_i, ary_set_i, ary_get_i, ary_remove_i, ary_resize"]}
{"id": "C54", "title": "Bit vector equality is set equality and respects hashing", "statement": "Two bit vectors compare equal exactly when they contain the same integers, whatever their capacities and histories, and then they have the same hash value.", "quantifier": "all pairs of bit vectors built from any operations", "why_tests_cant": "Vectors of different lengths and extension modes can represent the same set; all pairs of histories are needed.", "anchors": ["c/src/bitvector.c: bv_eq, bv_hash"]}
{"id": "C55", "title": "index_exists tells whether there is an index", "statement": "Asking whether a store contains an index answers yes exactly when the store holds a commit.", "quantifier": "all directory contents", "why_tests_cant": "All sets of files, all generations.", "anchors": ["c/src/index.c: ir_index_exists, sis_current_segment_generation"]}
{"id": "C56", "title": "Padded integers sort numerically and look as documented", "statement": "Integer#to_s_pad(w) of a non-negative integer with at most w digits is the integer written with exactly w digits, zeros in front, so padded integers sort numerically.", "quantifier": "all widths and integers", "why_tests_cant": "All integers and widths.", "anchors": ["ruby/lib/ferret/number_tools.rb: Integer#to_s_pad"]}
{"id": "C57", "title": "Tokenizers return every word with its offsets", "statement": "The whitespace and letter tokenizers return the maximal runs of non-space characters or letters of the text, all of them and in order, with the offsets of the run; the token text is the run, cut to 254 bytes.", "quantifier": "all texts, all classifications of bytes", "why_tests_cant": "All texts.", "anchors": ["c/src/analysis.c: wst_next, lt_next, tk_set"]}
{"id": "C58", "title": "Hyphen filter expands hyphenated words", "statement": "The hyphen filter turns a hyphenated word into the joined word followed by its parts with their own offsets and positions and passes other tokens on; a filter reset to a new text returns the tokens of that text only, and no token is empty.", "quantifier": "all token streams", "why_tests_cant": "All words and streams, resets at any point.", "anchors": ["c/src/analysis.c: hf_next, filter_reset"]}
{"id": "C59", "title": "Term lookups through a shared reader are exact for every thread", "statement": "Looking up a term of a field through an open segment reader returns the information stored for that field and term, and reports absence otherwise, whatever fields and terms were looked up before and whichever thread of the process asked.", "quantifier": "all dictionaries, all sequences of lookups by any threads, even when the calls themselves never overlap", "why_tests_cant": "The answer depends on the order of fields asked by different threads; tests use one thread.", "anchors": ["c/src/index.c: tir_open, tir_enum, tir_set_field, tir_get_ti, tir_get_ti_field"]}
{"id": "C60", "title": "A position enumerator can be moved to another term", "statement": "After a position enumerator has been moved to a term, by name or by a term enumerator standing on it, it yields the documents and the positions of that term, whatever it had read before and however many positions it had left unread.", "quantifier": "all segments, all histories of one enumerator, all terms", "why_tests_cant": "The stream of positions is shared by all terms and moved lazily; unread positions of any earlier document may be pending.", "anchors": ["c/src/index.c: stpe_seek, stpe_seek_ti, stpe_next, stde_seek_te, stpe_new"]}
{"id": "C61", "title": "Norms set through a reader are the norms read through it", "statement": "For a reader over several segments or several indexes, the norms read for a field are, document by document, those last set (or stored), 0 where the field has no norms, at every moment of any history of setting and reading.", "quantifier": "all segment lists, all assignments of field numbers, all histories of set_norm and norms", "why_tests_cant": "Depends on what has been read and cached before, and on the numbering of fields in every sub-reader.", "anchors": ["c/src/index.c: mr_get_norms, mr_set_norm_i, mr_get_field_num, sr_get_norms_into_i, sr_set_norm_i"]}
{"id": "C62", "title": "Highlighting a whole field preserves its text", "statement": "Highlighting a field short enough to be shown whole returns its stored text with the tags around the compacted match ranges and nothing else changed: with empty tags the result is the text itself, and the result never overruns the buffer allocated for it.", "quantifier": "all uncompressed texts, tags, token offsets that do not overlap, and non-empty or empty lists of matches", "why_tests_cant": "All combinations of nested, adjacent and overlapping matches; buffer overruns depend on lengths.", "anchors": ["c/src/search.c: highlight_field, matchv_compact_with_breaks, matchv_set_offsets", "c/src/index.c: lazy_df_get_bytes"]}
{"id": "C63", "title": "Highlighting works for compressed fields as for uncompressed ones", "statement": "Highlighting a compressed field gives the same result as highlighting the same text stored uncompressed.", "quantifier": "all texts and compressed lengths", "why_tests_cant": "The overrun depends on the ratio of compression.", "anchors": ["c/src/search.c: highlight_field", "c/src/index.c: lazy_df_get_bytes, fr_get_lazy_doc"]}
{"id": "C64", "title": "Excerpt candidates are the maximal windows of matches", "statement": "For each match the candidate excerpt that starts with it contains exactly the following matches that fit into the excerpt length, at least the match itself, and its offsets are read from matches that exist.", "quantifier": "all sorted lists of matches and excerpt lengths", "why_tests_cant": "Sliding-window loop over all lists and lengths; short excerpt lengths are rarely tried.", "anchors": ["c/src/search.c: searcher_highlight"]}
{"id": "C65", "title": "Equal queries are interchangeable", "statement": "Two queries that compare equal select the same documents of every index.", "quantifier": "all pairs of queries of all types, arbitrarily nested, all indexes", "why_tests_cant": "Needs every pair of queries; a field that the comparison forgets shows only in pairs that differ in that field alone.", "anchors": ["c/src/search.c: q_eq", "c/src/filter.c: filt_eq", "c/src/q_prefix.c: prq_eq", "c/src/q_wildcard.c: wcq_eq", "c/src/q_fuzzy.c: fuzq_eq", "c/src/q_range.c: rfilt_eq, trfilt_new"]}
{"id": "C66", "title": "SpanOr, SpanFirst and SpanNot enumerate exactly their spans", "statement": "For a span query built from terms by SpanOr, SpanFirst and SpanNot (what a SpanNot excludes not containing, below another SpanNot's exclusion, a SpanOr of several clauses), enumerating yields in increasing order exactly the spans of the union, of the part that ends by the bound, and of the spans that overlap no excluded span; a span comes once for every occurrence and clause that has it.", "quantifier": "all posting lists, all nestings", "why_tests_cant": "The merge order, the exclusion's position and the queue depend on all the lists at once; the tests have a handful of documents.", "anchors": ["c/src/q_span.c:332-376", "c/src/q_span.c:666-692", "c/src/q_span.c:764-845", "c/src/q_span.c:1264-1321"]}
{"id": "C67", "title": "A SpanOr can be a clause of a SpanNear", "statement": "A SpanOr of several clauses can be used as any clause of a SpanNear query: the search returns, and finds the documents in which the SpanNear has a span.", "quantifier": "all clauses and posting lists", "why_tests_cant": "The crash depends on which clause is the SpanOr; the tests have it first.", "anchors": ["c/src/q_span.c:904-936", "c/src/q_span.c:847-863", "c/src/q_span.c:978-993"]}
{"id": "C68", "title": "Stored fields come back byte for byte", "statement": "Reading document n of a segment, whole or field by field through a lazy document, gives exactly the stored fields the nth document was added with, under their names and in their order, every value byte for byte; this holds whatever other documents, term vectors and newly met fields are in the segment, and still after segments are merged for the documents that are not deleted.", "quantifier": "all sequences of documents, all field definitions and values (fields not compressed), all deletions before a merge", "why_tests_cant": "Offsets are computed from variable length numbers of all documents before; tests use a few small documents.", "anchors": ["c/src/index.c:1897-1962", "c/src/index.c:1578-1666", "c/src/index.c:1391-1412"]}
{"id": "C69", "title": "Compressed stored fields come back byte for byte", "statement": "A value of a field that is stored compressed comes back unchanged whatever its length, and writing and reading it end.", "quantifier": "all values", "why_tests_cant": "The loops go wrong only when a buffer of 16348 bytes is full; the tests have short values.", "anchors": ["c/src/index.c:1343-1383", "c/src/index.c:1868-1895"]}
{"id": "C70", "title": "Term vectors hold the terms, positions and offsets of their field", "statement": "The term vector of a field of a document, asked for alone or with those of all fields, has every term of the field with its frequency, its positions if they are stored and the offsets if they are stored; a field without a term vector has none.", "quantifier": "all documents, fields, terms, positions and offsets, all options of the fields", "why_tests_cant": "Vectors are read one behind the other; whether a reader ends where the next begins depends on options and emptiness of every field.", "anchors": ["c/src/index.c:1668-1798", "c/src/index.c:1949-2013"]}
{"id": "C71", "title": "Bytes of a lazy field are a part of the field", "statement": "Reading len bytes from start of a lazily loaded field gives that part of its values joined by single spaces, whether or not the field is compressed, and raises an error when the part is not inside the field.", "quantifier": "all values, starts and lengths", "why_tests_cant": "Goes wrong only for starts between two values of a compressed field.", "anchors": ["c/src/index.c:1414-1470"]}
{"id": "C72", "title": "Added documents are what the index holds", "statement": "After documents were added and the segment was written, every term enumerator on its files answers as on the inverted index of the documents: a term of a field leads to exactly the documents whose field has the term, in their order, with the positions the analyzer gave; term vectors hold the terms, positions and offsets of their field; the norms have one byte for every document, made from the number of its terms.", "quantifier": "all documents, field options, analyzers, boosts, index and skip intervals, all histories of enumerator operations", "why_tests_cant": "Posting lists are shared between documents through two hash tables and a reused offsets buffer; what one document leaves behind shows only in particular sequences of documents.", "anchors": ["c/src/index.c:5182-5262", "c/src/index.c:5350-5456", "c/src/index.c:5520-5694"]}
{"id": "C73", "title": "At most max_field_length terms of a field are indexed", "statement": "Of a tokenized field no more than max_field_length terms are added to the index, and these are the first ones.", "quantifier": "all fields, values, analyzers and limits", "why_tests_cant": "Needs fields at the limit with any number of values.", "anchors": ["c/src/index.c:5583-5620", "ruby/ext/r_index.c:3198-3203"]}
{"id": "C74", "title": "An untokenized value finds its document", "statement": "Looking up a value of a field that is indexed but not tokenized finds exactly the documents that have this value in the field.", "quantifier": "all documents and values", "why_tests_cant": "The code treats lengths around 255 bytes in three different ways.", "anchors": ["c/src/index.c:5622-5642", "c/src/index.c:2195-2206", "c/include/index.h:264"]}
{"id": "C75", "title": "max_buffered_docs may be changed at any time", "statement": "Setting max_buffered_docs of an open index writer changes when documents are flushed and nothing else.", "quantifier": "all values and histories of a writer", "why_tests_cant": "The write behind the array of norms lands in the memory pool and is seldom noticed.", "anchors": ["c/src/index.c:5246-5262", "c/src/index.c:5478", "c/src/index.c:5676-5681", "c/src/index.c:6336-6351", "ruby/ext/r_index.c:1845-1850"]}
{"id": "C76", "title": "A term query finds exactly the live documents with its term", "statement": "Walking the matches of a term query visits, in increasing order and each once, the documents that contain the term in the field and are not deleted, with the number of occurrences in each; skipping to a document goes on with the first such document at or behind it (and behind the current one).", "quantifier": "all indexes of one or several segments, all fields, terms and deletions, all sequences of next and skip_to, all earlier lookups on the same reader", "why_tests_cant": "The scorer reads documents 32 at a time and skips in the buffer and in the skip lists; tests touch few of the alignments of buffer, skips, segment borders and deletions.", "anchors": ["c/src/q_term.c:20-140", "c/src/q_term.c:145-160", "c/src/index.c:3700-3790", "c/src/index.c:4300-4420"]}
{"id": "C77", "title": "A query of several terms finds each document once with all frequencies", "statement": "Walking the matches of a multi term query visits the live documents that contain at least one of the terms, in increasing order and each once, and the sum at each of them has the frequency of every one of its terms, for nexts and skips.", "quantifier": "all indexes, all lists of terms (in any order, missing ones and repeated ones too), all deletions, all sequences of next and skip_to", "why_tests_cant": "The queue of term wrappers is set up lazily by the first call, differently by next and by skip_to, and ties between terms are resolved by the heap.", "anchors": ["c/src/q_multi_term.c:60-155", "c/src/q_multi_term.c:156-243", "c/src/q_multi_term.c:298-370"]}
{"id": "C78", "title": "Prefix and wildcard queries find exactly the documents with a matching term", "statement": "As long as no more terms of the field match than max_terms, a prefix query finds exactly the live documents that contain a term with the prefix, and a wildcard query that starts with ordinary characters those with a term that the pattern matches.", "quantifier": "all indexes, prefixes, patterns, deletions and sequences of next and skip_to", "why_tests_cant": "The answer runs through the term enumeration over segments, the queue of best terms and the queue of term scorers.", "anchors": ["c/src/q_prefix.c:20-70", "c/src/q_wildcard.c:20-120", "c/src/q_multi_term.c:156-370", "c/src/q_multi_term.c:560-650"]}
{"id": "C79", "title": "Searching finds what was added", "statement": "After any history of an index writer, a reader opened on the committed index finds for every field and term exactly the committed, not deleted documents whose analyzed text has the term in that field, with the number of occurrences, in the order they were added, and hands back what is stored of each.", "quantifier": "all documents, analyzers, histories (adding, deleting by terms, committing, optimizing, reopening, any buffer sizes and merge factors), fields, terms, sequences of next and skip_to", "why_tests_cant": "The answer passes through inverting, flushing, merging, deletion bit vectors, dictionaries, postings, readers over several segments and scorers; tests cover few combinations of them.", "anchors": ["c/src/index.c:5098-5160", "c/src/index.c:4690-4760", "c/src/index.c:6165-6527", "c/src/q_term.c:20-160"]}
{"id": "C80", "title": "Prefix and pattern searches find what was added", "statement": "After any history of an index writer, a prefix query, and a wildcard query that starts with ordinary characters, finds exactly the committed, not deleted documents with a matching term in the field, as long as no more different terms match than the query may hold.", "quantifier": "all documents, analyzers, histories, fields, prefixes, patterns, sequences of next and skip_to", "why_tests_cant": "As for C79, with the enumeration of terms over segments and the queue of best terms in between.", "anchors": ["c/src/q_prefix.c:20-70", "c/src/q_wildcard.c:20-120", "c/src/q_multi_term.c:156-370", "c/src/index.c:5098-5160"]}
{"id": "C81", "title": "The query parser answers exactly the meaning its grammar gives a string", "statement": "For a parser between two queries and a string whose words are shorter than 254 bytes and which is not longer than the stack of the generated parser allows: with handle_parse_errors off, qp_parse answers a query q if and only if the words and marks of the string (cleaned if so configured) are a way to write a query of the grammar and q is the meaning of that query for the default fields; with handle_parse_errors on it answers that meaning whenever there is one. The meaning is defined on syntax trees with the fields passed down, without a stack; two trees that are written the same mean the same. Every string of such words gets an answer.", "quantifier": "all configurations, all contents of the parser's buffers, all such strings, all queries", "why_tests_cant": "The automaton has over a hundred states and takes decisions on a look-ahead word that is kept in one of two reused buffers; whether shifts, reductions, precedence and the stack of fields together give every string the meaning of the grammar is a statement about infinitely many strings.", "anchors": ["c/src/q_parser.y:165-442", "c/src/q_parser.y:505-643", "c/src/q_parser.y:652-1123", "c/src/q_parser.y:1330-1365", "c/src/q_parser.c (tables and yyparse)"]}
{"id": "C82", "title": "A query parser can be used again and does not remember earlier queries", "statement": "The answer to a string does not depend on what was parsed before; after an answered query, and after an exception, the parser is ready for the next query (its stack of fields is the default fields alone).", "quantifier": "all configurations, all states of the buffers, all strings of short words", "why_tests_cant": "The parser keeps two static word buffers, a dynamic one and a stack of fields between calls; that none of them leaks into later answers has to hold for every history of queries, including failed ones.", "anchors": ["c/src/q_parser.y:302-377", "c/src/q_parser.y:449-470", "c/src/q_parser.y:1091-1120", "c/src/q_parser.y:1314-1365"]}
{"id": "C83", "title": "With handle_parse_errors a query is always answered", "statement": "With handle_parse_errors on, every string gets a query: its meaning if it has one, else a query for the whole string as one term; with it off, an exception is raised exactly for strings outside the grammar.", "quantifier": "all configurations with known tokenized fields and not more fields than max_clauses, all strings", "why_tests_cant": "Whether some string makes one of the actions run into undefined behaviour, or leaves the fields in a state the recovery does not expect, cannot be found by trying strings.", "anchors": ["c/src/q_parser.y:165-260", "c/src/q_parser.y:449-470", "c/src/q_parser.y:652-1081", "c/src/q_parser.y:1314-1365", "ruby/ext/r_qparser.c:150-255"]}
{"id": "C84", "title": "Cleaning a query string stays in its memory and balances quotes and parentheses", "statement": "qp_clean_str never writes more than the 2*strlen(str)+1 bytes it allocates; the cleaned string has balanced quotes and parentheses, with parentheses between quotes escaped; a string without quotes only gets parentheses at its ends, and a balanced one without quotes is left alone.", "quantifier": "all strings", "why_tests_cant": "A bound on a buffer and a balance of brackets for every string, with escapes, quotes and brackets in any order, are universal statements.", "anchors": ["c/src/q_parser.y:1194-1307"]}
{"id": "C85", "title": "Every word can be written in a query by escaping its bytes", "statement": "A backslash before each byte of a non-empty word writes that word as one plain term, whatever special or wild characters or spaces it has, also through cleaning; for an untokenized default field the answer is the term query for exactly that word.", "quantifier": "all words of less than 254 bytes, all configurations", "why_tests_cant": "The statement is about every string of bytes; special characters interact with cleaning, keywords, wild characters and the double colon.", "anchors": ["c/src/q_parser.y:289-442", "c/src/q_parser.y:652-684", "c/src/q_parser.y:1194-1307"]}
{"id": "C86", "title": "AND requires what it joins, OR leaves it optional", "statement": "Clauses joined by AND are all required unless prohibited; clauses joined by OR keep what their signs say; clauses joined by nothing follow the or_default option.", "quantifier": "all clauses of any kind, all fields and configurations", "why_tests_cant": "The clauses are changed in place while the list grows, depending on its length; the statement is for lists of any length of clauses of any depth.", "anchors": ["c/src/q_parser.y:505-616"]}
{"id": "C87", "title": "A query for several fields is any of the queries for each field", "statement": "What is built for a set of fields is the disjunction of what is built for each field alone, for words, fuzzy words, patterns, ranges and phrases.", "quantifier": "all sets of at most max_clauses fields, all words, all configurations", "why_tests_cant": "The word is changed in place while the fields are gone through, so the answer for a field may depend on all fields before it.", "anchors": ["c/src/q_parser.y:165-196", "c/src/q_parser.y:652-789", "c/src/q_parser.y:922-1081"]}
{"id": "C88", "title": "A search finds exactly the documents that its query is true of", "statement": "After any history of adding, deleting, committing, optimizing, closing and opening, any sequence of searches with queries built from terms, prefixes, wildcard patterns, fuzzy terms, ranges, exact and sloppy phrases with alternative words, all documents and boolean queries nested to any depth visits exactly the live documents of which the query is true by its meaning on the documents' texts, each once and in the order of numbers.", "quantifier": "all analyzers, configurations, documents, histories, queries and sequences of searches", "why_tests_cant": "The statement composes analysis, posting files, merges, deletions, dictionaries, rewriting and scorers; each has special cases at block, skip and segment boundaries that only meet for particular combinations.", "anchors": ["c/src/search.c:355-366", "c/src/search.c:1027-1099", "c/src/search.c:1217-1229", "c/src/q_boolean.c:1140-1160", "c/src/q_boolean.c:1339-1401", "c/src/q_range.c:498-509", "c/src/index.c:6335-6380", "c/src/q_phrase.c:1069-1096"]}
{"id": "C89", "title": "Searching does not change the query that was searched for", "statement": "A query object can be searched with again and extended with further clauses after a search, with the same results as if it had not been searched with.", "quantifier": "all queries, indexes and histories", "why_tests_cant": "Rewriting works on the caller's objects and copies them only when a clause changes; tests build a new query for each search.", "anchors": ["c/src/q_boolean.c:1339-1401", "c/src/search.c:1217-1229"]}
{"id": "C90", "title": "A phrase query finds the documents with the phrase in the posting files", "statement": "On an index of one or several segments, for any exact phrase of terms whose positions were stored in non-decreasing order, with any offsets and any number of alternative terms per position, the scorer of the phrase visits in order exactly the documents that are not deleted and have, for every position, one of its alternatives at the given distance from one common place; without alternatives the frequency it reports is the number of such places.", "quantifier": "all segments, deletions, fields, phrases, offsets and alternatives, all correct qsorts, all sequences of next and skip_to beyond the current document, all earlier lookups", "why_tests_cant": "Several enumerators with skip data, deletions and per-document position streams are kept in step; a position stream that is not consumed fully before skipping, or merged positions of alternatives, go wrong only for particular layouts over blocks and segments.", "anchors": ["c/src/q_phrase.c:52-135", "c/src/q_phrase.c:174-285", "c/src/q_phrase.c:364-402", "c/src/q_phrase.c:546-600", "c/src/index.c:3488-3620"]}
{"id": "C91", "title": "The query of a string asks for what the string says", "statement": "The query that the parser builds from a string is true of exactly the documents of which the string is true when it is read by its grammar: words, fuzzy words, patterns, ranges of strings and phrases with gaps and alternatives, each in its fields and in the case of the field, joined by AND, OR, NOT, + and -, words that the analyzer drops saying nothing.", "quantifier": "all parser configurations, all analyzers that do not give the first token of a text the place of the one before it, all strings the parser answers, all meanings of words, phrases and similarity", "why_tests_cant": "The grammar is recursive and the meaning of a string depends on the analyzer, the fields, the case rules and the signs of all clauses together; tests look at the printed form of queries for single strings, not at what these mean for every document.", "anchors": ["c/src/q_parser.y:355-470", "c/src/q_parser.y:505-643", "c/src/q_parser.y:690-1080"]}
{"id": "C92", "title": "A query string finds exactly the documents that it speaks of", "statement": "After any history of adding, deleting, committing, optimizing, closing and opening, a search with the query that the parser makes of a string visits exactly the live documents of which the string is true by its grammar and the documents' texts, each once and in order.", "quantifier": "all parser configurations and analyzers, all strings without typed ranges, all histories of an index", "why_tests_cant": "It takes the parser, the rewriting, the scorers, the posting files and the merges together; each has special cases that only meet for particular strings and histories.", "anchors": ["c/src/q_parser.y:355-470", "c/src/q_parser.y:690-1080", "c/src/search.c:1027-1099", "c/src/search.c:1217-1229", "c/src/q_phrase.c:1069-1096"]}
{"id": "C93", "title": "A sloppy phrase finds the documents whose words are near enough", "statement": "On an index of one or several segments, a phrase with a slop whose words are all different and whose first word is at the start of the phrase (as phrases built word by word are) visits in order exactly the documents that are not deleted and in which occurrences of its positions' words can be chosen that are moved against each other by at most the slop from where the phrase has them; without slop this is the exact phrase, and a greater slop finds no fewer documents.", "quantifier": "all segments, deletions, fields, slops, phrases of two or more positions with different words, offsets and alternatives, all correct qsorts, all sequences of next and skip_to beyond the current document, all earlier lookups", "why_tests_cant": "The window over the position streams is moved by a priority queue whose order depends on all positions; whether some window is skipped shows only for particular interleavings of occurrences.", "anchors": ["c/src/q_phrase.c:405-543", "c/src/q_phrase.c:546-600", "c/src/index.c:3488-3620"]}
{"id": "C94", "title": "A search returns the right page of the right documents", "statement": "After any history of adding, deleting, committing, optimizing, closing and opening, every one of any searches on a reader, by query or by query string, with or without a range filter, by score or sorted by any fields, returns the number of all live documents that match query and filter, the hits of the requested page in the order of score or of the documents' field values (equal ones by document number), and the highest score.", "quantifier": "all documents, analyzers, histories and merges, all queries of C88 and strings of C92, all range filters, pages, score functions, collations and lists of sort fields with known fields and readable numbers, all sequences of searches", "why_tests_cant": "The page depends on the posting files, the segments, the deletions, the rewriting, the cache of field values and the queue together; wrong orders show only for particular combinations of values, ties and page limits.", "anchors": ["c/src/search.c:1027-1132", "c/src/field_index.c:34-251", "c/src/sort.c:367-446", "c/src/sort.c:583-599"]}
{"id": "C95", "title": "Documents are sorted by the values they have in the index", "statement": "The index of a field that sorting uses holds, for every document that was not deleted when it was built, the number or text of its greatest term in that field (nothing or zero if it has none); a sort whose type is left to the index sorts every index by a type all its terms have, never reads a value that was not written, and sorts the documents of the reader as they are now.", "quantifier": "all segments, deletions, fields and classes of indexes; all sort fields and histories", "why_tests_cant": "Which term is first, which documents were deleted when the cache was filled and which index a Sort object was used on before depend on the history; the values read without being written are whatever is on the stack.", "anchors": ["c/src/field_index.c:34-251", "c/src/sort.c:361-446"]}
{"id": "C96", "title": "A hit's score is what the scoring formula gives for its document", "statement": "A search visits exactly the documents that match the query and its filter, in increasing order, each once, and gives each the score of the formula: for a term tf(frequency) * idf^2 * boosts * query norm * field norm, for boolean queries the sum over matching clauses times coord(matching clauses, clauses that can match). The score depends neither on other documents, nor on which documents a filter leaves unscored, nor on the order in which clauses were added. A query that has no scorer matches no document.", "quantifier": "all similarities, boosts, idfs, norms and postings, all nestings of boolean queries over term, match-all and constant-score queries in which no clause with several required sub-clauses is asked to skip (that movement is the subject of C33; the rescanning of a cached bit vector that of C44), all filters", "why_tests_cant": "Optional clauses are moved only when a document is scored, sums are built while scorers advance through a priority queue, and cached term scores end at frequency 32; a wrong coordination or a lost addend shows only for particular interleavings of postings.", "anchors": ["c/src/search.c:225-273", "c/src/search.c:355-366", "c/src/search.c:1078-1093", "c/src/q_boolean.c:85-132", "c/src/q_boolean.c:547-574", "c/src/q_boolean.c:998-1006", "c/src/q_term.c:32-92"]}
{"id": "C97", "title": "The explanation of a hit has the hit's score as its value", "statement": "For every hit of a search, explain(query, document) has the hit's score as value; for documents the search does not find the value is 0.", "quantifier": "all similarities, queries and documents", "why_tests_cant": "Explanations are computed by code of their own that decides by the sign of values what matches; it differs from the scorers for clauses without scorers, constant scores, deleted documents and zero norms.", "anchors": ["c/src/q_boolean.c:1179-1239", "c/src/q_term.c:155-229", "c/src/q_match_all.c:79-92", "c/src/q_const_score.c:69-89"]}
{"id": "C98", "title": "Blocks of a memory pool are arrays of their own", "statement": "Through any history of allocations, duplications, writes into blocks and resets, every block allocated since the last reset reads back exactly what was written to it, and no two such blocks share a byte; nothing outside the pool's buffers is touched.", "quantifier": "all chunk sizes and initial capacities of the pool (as far as its ints reach), all blocks no larger than a chunk, all orders of operations, any number of resets, whatever the buffers held before", "why_tests_cant": "Buffers are kept over resets and used again, the table of buffers grows by doubling when it is about to be full, and blocks that end exactly at a chunk's end share a branch with those that do not; overlaps show only for particular sizes and histories.", "anchors": ["c/src/mempool.c:6-48", "c/src/mempool.c:50-76"]}
{"id": "C99", "title": "An index writer's buffered documents reach their segments with their own norms and blocks", "statement": "Whatever max_buffered_docs, max_buffer_memory and chunk_size are set to, and whenever they are changed, each document added goes into exactly one segment, in order, and that segment is written with the norm of each of its documents for each normed field and with the blocks its inversion made, unchanged by anything else the writer keeps in its pool.", "quantifier": "all configurations and changes of them, all sequences of added documents and commits, all inversions that keep to their own blocks", "why_tests_cant": "Norms are kept in an array sized by the setting at the time the writer's first document came, next to terms and postings in the same chunks; whether a norm lands in another block depends on settings, on when they changed, and on the number of documents buffered.", "anchors": ["c/src/index.c:5184-5263", "c/src/index.c:5335-5374", "c/src/index.c:5456-5520", "c/src/index.c:5648-5690", "c/src/index.c:6336-6350", "ruby/ext/r_index.c:1705-1716", "ruby/ext/r_index.c:1840-1850", "ruby/ext/r_index.c:3181-3191"]}
{"id": "C100", "title": "Finally blocks and handlers run as the exception framework promises", "statement": "Whatever is raised and wherever, every block after XFINALLY or FINALLY is run exactly once, an exception goes to the nearest enclosing TRY that has a case for it (or XCATCHALL), goes on outwards unless HANDLED() is said, in blocks after XFINALLY and XCATCHALL the code after a RAISE runs and the first exception is the one that goes on, and contexts of enclosing TRYs are left as they were.", "quantifier": "all programs built from statements, conditional RAISEs, HANDLED and nested TRY with XFINALLY, XCATCHALL, cases and FINALLY, in all states", "why_tests_cant": "What a RAISE does depends on which contexts are on the stack and in which block each of them is; test_except.c tries a few nestings, and cleanup code that raises is reached only when I/O fails twice.", "anchors": ["c/src/except.c:36-101", "c/include/except.h:1-72", "c/include/except.h:100-140"]}
{"id": "C101", "title": "An exception arrives with its own message", "statement": "The message with which an exception reaches its handler or the caller (in Ruby: the exception's text) is the one formatted where it was raised.", "quantifier": "all programs as in C100", "why_tests_cant": "All messages are formatted into one global buffer that contexts only point to; the text changes under an exception on its way when cleanup code raises or handles another one.", "anchors": ["c/include/except.h:147-172", "c/src/except.c:24-25", "c/src/except.c:47-55"]}
{"id": "C102", "title": "A commit whose files fail raises an error or goes on, without crashing", "statement": "sis_write closes each stream it opened exactly once. If the new segments file cannot be opened or written, the commit raises IO_ERROR. Failing to open or write the fallback file segments, or to remove the segments file before, does not fail the commit.", "quantifier": "all stores and all combinations of failures of opening, writing and removing", "why_tests_cant": "Needs a file system that fails at particular calls; the in-memory store of the tests never does.", "anchors": ["c/src/index.c:1129-1168", "c/src/index.c:3708-3719", "c/src/fs_store.c:266-285"]}
{"id": "C103", "title": "An Index object behaves as one list of documents through its writers, readers and searchers", "statement": "Whatever methods of a Ruby Index object are called in whatever order, without closing it and with nobody else on the directory, their results are those of one list of documents: each search, size, lookup and iteration sees all additions, deletions and updates made before it through the object, whether or not they were flushed, and no lock error is raised. Document numbers stay what they are while nothing is written. delete of a number that does not exist raises an error, and to_s lists all documents. close leaves all of it in the directory and frees the lock.", "quantifier": "all options, all histories of method calls, all points at which the writer flushes and merges, all orders of hits", "why_tests_cant": "Each method may find a writer, a reader, a reader with uncommitted deletions or a searcher left by the one before, and the writer merges when it likes; tests walk through a handful of sequences.", "anchors": ["ruby/lib/ferret/index.rb:202-300", "ruby/lib/ferret/index.rb:384-760", "ruby/lib/ferret/index.rb:808-820", "ruby/lib/ferret/index.rb:842-930"]}
{"id": "C104", "title": "With :auto_flush several Index objects share one directory without lock errors and see each other's writes", "statement": "When every Index object on a directory has :auto_flush set, their methods can be called in any interleaving: none raises a lock error or crashes, and each one's result accounts for everything finished before it by any of the objects.", "quantifier": "all numbers of objects, all interleavings of their calls, all histories of the directory", "why_tests_cant": "The interleavings of calls from several processes are unlimited; the tests use two objects and a few fixed sequences.", "anchors": ["ruby/lib/ferret/index.rb:44-52", "ruby/lib/ferret/index.rb:263-300", "ruby/lib/ferret/index.rb:517-640", "ruby/lib/ferret/index.rb:842-930", "c/src/index.c:3882-3935", "c/src/index.c:4392-4400"]}
{"id": "C105", "title": "An Index with a :key never holds two documents with one key", "statement": "With the option :key, a field or several whose values are indexed untokenized, adding a document replaces the one with the same key, and updates keep the key unique: at any time no two documents of the index have the same values in all key fields, batch_update guaranteeing that no duplicate keys are left.", "quantifier": "all key options, all histories of calls on an index that began empty", "why_tests_cant": "The replacement runs through writer deletes or a search and depends on what is buffered, flushed and deleted; tests add a dozen documents.", "anchors": ["ruby/lib/ferret/index.rb:28-45", "ruby/lib/ferret/index.rb:263-300", "ruby/lib/ferret/index.rb:569-660"]}
{"id": "C106", "title": "A query's to_s returns its text and touches only its own memory", "statement": "Query#to_s(default_field) returns, for every query built from the API (term, boolean, phrase, multi-term, prefix, wildcard, fuzzy, range, filtered, constant-score, match-all and span queries, nested to any depth), the documented text: the field in front unless it is the default one, clauses with + - and parentheses, words of a phrase with |, & and <>, slop and boost behind. While building it, every byte written lies in the block allocated for it, every byte read was written, and the query is not changed.", "quantifier": "all queries, all default fields, all names, terms, boosts and positions", "why_tests_cant": "The buffers are sized by hand from strlen and constants; a test tries a few short queries and cannot see a byte written behind a block or read before it was written, nor try every nesting and length.", "anchors": ["c/src/q_term.c:tq_to_s", "c/src/q_boolean.c:bq_to_s", "c/src/q_phrase.c:phq_to_s", "c/src/q_multi_term.c:multi_tq_to_s", "c/src/q_span.c:spannq_to_s", "c/src/q_range.c:range_to_s", "c/src/global.c:dbl_to_s", "c/src/global.c:strfmt", "ruby/ext/r_search.c:frb_q_to_s"]}
{"id": "C107", "title": "The texts of clauses, sorts, documents, field infos and explanations", "statement": "to_s of a BooleanClause, a Sort, a Document, the FieldInfos and an Explanation (and Explanation#to_html) returns the text of the object, without further bytes, and stays within the memory it allocated.", "quantifier": "all clauses, lists of sort fields, documents with any fields and values, field infos with any names, explanations of any depth", "why_tests_cant": "Sizes are computed by hand or fixed per entry; overflow and use of freed memory depend on lengths of names and on the allocator, and pass silently in a test with short names.", "anchors": ["c/src/sort.c:sort_to_s", "c/src/document.c:doc_to_s", "c/src/index.c:fis_to_s", "c/src/search.c:expl_to_s_depth", "c/src/search.c:expl_to_html", "ruby/ext/r_search.c:frb_bc_to_s"]}
{"id": "C108", "title": "Parsing the string of a query gives the query back", "statement": "Let q be a query made of terms, phrases, multi-term, prefix, wildcard, fuzzy (with a similarity), range and match-all queries and boolean queries of two or more clauses, whose words need no escape and are left as they are by the analyzer, whose fields the parser knows and whose numbers are read as they were printed. Then q.to_s, for no field or the parser's default field, parsed by any parser with that one default field and OR as default, cleaning or not and recovering from errors or not, gives q: the same kinds of query, fields, words, positions counted from the first, slop, bounds, clauses with their signs and nesting, and boosts. Two such queries with the same string are the same query.", "quantifier": "all query trees of that kind, any depth and number of clauses, all parser configurations with one default field, all analyzers", "why_tests_cant": "The tests round-trip a handful of strings; the claim is over all trees of queries and combines the printing code of eight query classes with lexer, cleaning, grammar and actions.", "anchors": ["ruby/ext/r_search.c:399-404", "c/src/q_boolean.c:1415-1480", "c/src/q_parser.y:289-442", "c/src/q_parser.y:650-1080"]}
{"id": "C109", "title": "A query whose string parses comes back as no other query", "statement": "If the string of a query is parsed without an error, the query that results finds the same documents as the one it was made from.", "quantifier": "all queries, all parsers", "why_tests_cant": "Which queries are changed silently depends on combinations (a lone prohibited clause, a boost on a single clause, a fuzzy query before a word, the wildcard *, parsers with AND as default) that the string alone does not show.", "anchors": ["ruby/ext/r_search.c:399-404", "c/src/q_parser.y:505-616", "c/src/q_parser.y:690-789", "c/src/q_fuzzy.c:20-60"]}
{"id": "C110", "title": "Excerpts are disjoint tagged pieces of the text within the asked size", "statement": "When a field is long enough to be cut, Searcher#highlight returns between one and num_excerpts strings and never reads or writes out of bounds. Each is a piece of the field text with the matches in it tagged and an ellipsis where text is left out. The pieces do not overlap, come in the order of the text, and together have at most excerpt_length * num_excerpts bytes. This holds when no joined match is longer than excerpt_length.", "quantifier": "all texts, offsets with skipped positions, match lists, tags, ellipses, excerpt lengths and numbers, any qsort", "why_tests_cant": "The buffer size, the merging rule and the expansion interact; overlap or overrun would need particular distances between matches.", "anchors": ["c/src/search.c:645-765", "c/src/search.c:829-961"]}
{"id": "C111", "title": "The chosen excerpts hold the most matches", "statement": "The windows of matches from which the excerpts are made are chosen so that each has the highest number of matches that no earlier one has, among all windows that fit into excerpt_length. With one excerpt, every match inside the shown piece is tagged.", "quantifier": "all match lists, excerpt lengths and numbers of excerpts", "why_tests_cant": "Scores in the queue are refreshed lazily, only at its top, until the top does not change; that this finds a best window needs an argument about all states of the heap.", "anchors": ["c/src/search.c:878-911", "c/src/search.c:686-695"]}
{"id": "C112", "title": "Excerpts tag all of their matches and show nothing twice", "statement": "Every match that lies in the shown pieces is tagged, no piece of text is shown twice, and highlighting works for matches of any length.", "quantifier": "all calls of Searcher#highlight", "why_tests_cant": "The failures need matches that straddle the excerpt length, an ellipsis longer than the rest of the text, or a phrase longer than an excerpt.", "anchors": ["c/src/search.c:697-729", "c/src/search.c:770-774", "c/src/search.c:936-957"]}
{"id": "C113", "title": "Highlighting tags exactly the positions of what the query matches", "statement": "For queries built of terms, multi-terms, prefix/wildcard/fuzzy expansions, ranges, phrases without slop and boolean clauses, Searcher#highlight of a whole field tags the positions where a term of the query occurs, lies in its range, or belongs to an occurrence of its phrase, and no others. Clauses on other fields and prohibited clauses tag nothing. Removing the tags gives back the text.", "quantifier": "all term vectors, all such queries, all texts and tags, any qsort", "why_tests_cant": "The phrase code walks merged position lists in a ring; missed or extra matches depend on how occurrences of several terms interleave.", "anchors": ["c/src/term_vectors.c:27-75", "c/src/q_term.c:303-318", "c/src/q_multi_term.c:603-623", "c/src/q_range.c:465-497", "c/src/q_boolean.c:1326-1337", "c/src/q_phrase.c:718-946"]}
{"id": "C114", "title": "A phrase marks its occurrences, a sloppy phrase no window wider than its slop", "statement": "The matches a PhraseQuery marks in a field are: without slop, exactly the ranges from its first to its last term where all terms are at their places; with slop, only ranges in which every term has an occurrence and the shifts of the occurrences differ by at most slop, and for every such choice of occurrences one that lies between its shifts.", "quantifier": "all term vectors, phrases with any positions and alternatives, any slop", "why_tests_cant": "Which windows are emitted depends on the order in which a queue of position lists advances.", "anchors": ["c/src/q_phrase.c:718-946"]}
{"id": "C115", "title": "Highlighting a range of numbers marks the numbers in it", "statement": "A TypedRangeQuery marks exactly the positions of those terms of the field that are numbers within its bounds.", "quantifier": "all term vectors, all numeric bounds", "why_tests_cant": "The result of sscanf for a term that is no number is left over from the one read before; it matters only if the lengths happen to agree.", "anchors": ["c/src/q_range.c:556-640"]}
{"id": "C116", "title": "The match vector of a phrase query can be asked for directly", "statement": "searcher_get_match_vector returns the matches of any PhraseQuery in a field.", "quantifier": "all phrases, slops and term vectors", "why_tests_cant": "The tests ask for phrases of several terms; with slop and a single position the top of an empty queue is read.", "anchors": ["c/src/q_phrase.c:863-877", "c/src/search.c:625-643"]}
{"id": "C117", "title": "What is highlighted for a span query belongs to it", "statement": "Every position that highlighting marks for a span query (SpanTerm, SpanFirst, SpanOr, SpanNear, SpanNot) holds one of the terms of the query and lies within one of its spans in that field; nothing is marked in other fields.", "quantifier": "all span queries the search can walk through, all term vectors, all positions", "why_tests_cant": "The tests highlight a few span queries in one text; the marked positions depend on the interplay of enumerators, compaction and term vectors.", "anchors": ["c/src/q_span.c:37-181"]}
{"id": "C118", "title": "Highlighting a span query marks all of its terms in all of its spans", "statement": "For every span query and every field with term vector, highlighting comes back and marks each occurrence of a term of the query within each of its spans; if there is no span in the field, nothing is marked.", "quantifier": "all span queries and term vectors", "why_tests_cant": "The tests highlight queries that have spans in the text; without a span, with a missing term or a prefix the code reads memory that was never written, often without visible effect.", "anchors": ["c/src/q_span.c:37-181", "c/src/q_span.c:456-546", "c/src/search.c:554-575"]}
{"id": "C119", "title": "A reader opened while another process commits shows exactly one commit", "statement": "Whatever commits another process performs during IndexReader.new or the reading of the current segment infos, and wherever the accesses of the reader fall between the writes and removals of the other process: from the second commit after the index was created on, and if a directory listing is atomic, the call raises no exception; after at most two rounds per commit performed meanwhile plus three it ends with a commit that was the latest one at some moment during the call, with the content of all files of that commit and of no other. The only exception is a read of the new descriptor at a moment when it ends inside the leading numbers of its field definitions, which kills the process.", "quantifier": "all indexes, all sequences of commits (including merges that remove the files of earlier ones), all interleavings of the reader's accesses with the writer's operations, down to single bytes", "why_tests_cant": "A failure needs another process to be between two particular system calls; the retry loop has three fallbacks and two flags whose combination matters only for some interleavings of several commits.", "anchors": ["c/src/index.c:832-1002", "c/src/index.c:1082-1127", "c/src/index.c:1129-1167", "c/src/index.c:5101-5160"]}
{"id": "C120", "title": "Opening and asking for the version are safe at any time while another process commits", "statement": "At any time after the index was created, with any directory listing POSIX allows, a call that reads the segment infos or the current version while another process commits ends without an exception, does not kill the process, and the version is that of a commit which was complete at the end of the call.", "quantifier": "all indexes, commits and interleavings", "why_tests_cant": "Depends on where another process is between two system calls, and on what readdir shows of files made or removed during the scan.", "anchors": ["c/src/index.c:832-1002", "c/src/index.c:1169-1193", "c/src/fs_store.c:118-137"]}
{"id": "C121", "title": "A sort string says what is written in it", "statement": "Sort.new with a string of items separated by commas yields one sort field per item, in order: the name of the item (SCORE and DOC_ID stand for the score and the document number), reversed if the item ends in DESC, whatever spaces, tabs, newlines and leading colons surround it and whether or not there is a comma at the end; then the document number. No existing sort field changes. For every string that does not start with a comma, no byte outside of the copy of the string is accessed.", "quantifier": "all sequences of items, all names, all amounts of white space; all strings for the memory accesses", "why_tests_cant": "The tests have a handful of sort strings; the parser cuts its copy by writing NULs and moves pointers backwards past the start of items, which is right or wrong depending on lengths and positions.", "anchors": ["ruby/ext/r_search.c:2341-2381", "ruby/ext/r_search.c:2383-2451"]}
{"id": "C122", "title": "reverse of Sort.new reverses all fields of the new Sort and nothing else", "statement": "Sort.new(fields, true) reverses each of the fields in the new Sort, whether they are given as symbols, as SortFields or as a string, and changes no other Sort; Sort.new(fields, false) keeps them as they are. Every field can be named in a string, and every string is read without touching other memory.", "quantifier": "all fields, all existing Sorts and SortFields, all strings", "why_tests_cant": "The tests look at the new Sort only, never at one that was made before from the same SortField; a string with reverse is not tested, and reading one byte before a block has no visible effect as a rule.", "anchors": ["ruby/ext/r_search.c:2341-2451", "c/src/sort.c:133-194"]}
{"id": "C123", "title": "A RAM directory behaves like a directory", "statement": "Any sequence of touch, exists?, delete, rename, count, clear, clear_locks, clear_all, length, creating, opening, writing, reading and closing of files on a RAMDirectory gives the results of a directory of names and files: a file has the bytes last written to it at the positions written, creating one that exists writes over its beginning, renaming replaces the file of the new name, clear keeps exactly the names that end in .lck, and a stream goes on reading and writing the same file after it has been deleted, renamed, replaced or cleared, or the directory has been closed. Nothing freed is used; once streams and directory are closed nothing of the store is left. A RAMDirectory opened on another has the same names and bytes, apart from names that start with ferret-, and changes nothing in the other one.", "quantifier": "all sequences of calls, all names and bytes, all hash functions; touch while the string passed to it lives", "why_tests_cant": "Files are freed by reference counts spread over the table, the streams and four ways of losing a name, and the keys of the table are the name strings of the files that are freed along the way; the tests take one path through them each and see no use after free.", "anchors": ["c/src/ram_store.c:5-205", "c/src/ram_store.c:244-295", "c/src/ram_store.c:335-381", "c/src/ram_store.c:412-477", "c/src/hash.c:121-164", "c/src/hash.c:240-387", "c/src/store.c:618-622"]}
{"id": "C124", "title": "touch, delete and copies of a directory do what they say", "statement": "dir.touch(name) makes an empty file that is there until it is deleted. dir.delete(name) returns true if the file was deleted. RAMDirectory.new(dir) loads every file of dir but its locks.", "quantifier": "all directories and names, all that Ruby does with a string after it was passed to touch", "why_tests_cant": "The tests never look at what delete returns, touch names that are literals and stay alive, and copy indexes only, whose files never start with ferret-.", "anchors": ["c/src/ram_store.c:40-45", "c/src/ram_store.c:57-68", "c/src/ram_store.c:101-114", "c/src/ram_store.c:441-477", "ruby/ext/r_store.c:199-226"]}
{"id": "C125", "title": "the cached bits of a filter are never those of another filter or reader, and go when either goes", "statement": "Searching with a filter uses the bits that this filter found in this reader, when it was first used with it; never those of another filter or reader, even if one was let go before and the new one got its address in memory. Filters may be let go before readers and readers before filters: nothing that was let go is used, and once both are gone none of what was cached is kept.", "quantifier": "all sequences of making and letting go of filters, opening, changing and closing readers, and searching with any of the filters in any of the readers, at all addresses; all bits that filters may find", "why_tests_cant": "Tests use one filter and one reader, let them go in one order, and do not see what is read after it was freed or which address is given out again.", "anchors": ["c/src/filter.c:12-38", "c/src/index.c:187-206", "c/src/index.c:4142-4183", "c/src/hash.c:212-252", "c/src/hash.c:277-296"]}
{"id": "C126", "title": "PriorityQueue returns what a multiset with a capacity and an order would", "statement": "Queues of Ferret::Utils::PriorityQueue keep the largest elements that were inserted, as many as their capacity: once one is full, an element larger than the least replaces the least, others are dropped. top returns a least element, pop removes it, nil if there is none; adjust puts the least element to its place after it was changed; size, capacity and clear tell and do what they say; a clone has the same elements, capacity and order, and neither changes the other. So what is popped comes in order.", "quantifier": "all programs over any number of queues and clones, all capacities, all orders of elements (given by <, or by a block with an argument or :less_than that the program keeps alive) that are total preorders", "why_tests_cant": "The tests insert a few strings into one queue at a time; which cells a clone shares, whether the heap grows in time, and the place an element gets depend on all sizes and orders.", "anchors": ["ruby/ext/r_utils.c:730-805", "ruby/ext/r_utils.c:849-1042"]}
{"id": "C127", "title": "a PriorityQueue survives any comparison and takes its order as documented", "statement": "If a comparison raises or contradicts others, the queue stays safe to use: no memory outside its heap is touched, only elements that were inserted come out, and it never holds more than its capacity. An insert that raises leaves the queue with the elements it had, or with the new one besides. The order is the block's, whether or not an argument is given, or else that of the option :less_than_proc, for as long as the queue lives.", "quantifier": "all comparisons, which may depend on when they are made and may raise at any time; all ways to make a queue; all programs; all moments of garbage collection between calls", "why_tests_cant": "No test has a comparison that raises, a block without an argument or the option as it is documented, and a collected block shows only by chance.", "anchors": ["ruby/ext/r_utils.c:744-817", "ruby/ext/r_utils.c:836-896", "ruby/ext/r_utils.c:939-1009"]}
{"id": "C128", "title": "to_json of terms and documents is JSON of them", "statement": "TermEnum#to_json and TermDocEnum#to_json return a JSON text (RFC 8259) that says which terms follow with their frequencies, or which documents with their frequencies and positions, in order, as objects or, with an argument, as arrays; and nothing outside of the buffer is written.", "quantifier": "all enumerations of any length, all terms and frequencies, documents and positions, both formats, all ways in which realloc may move a block", "why_tests_cant": "The tests have enumerations of a few plain words, whose text never fills the first 64 KB; realloc may or may not move a block, and terms with quotes or tens of thousands of terms are not tried.", "anchors": ["ruby/ext/r_index.c:826-905", "ruby/ext/r_index.c:1063-1150", "ruby/ext/ferret.c:201-224"]}
{"id": "C129", "title": "to_json of hits is JSON of the stored fields", "statement": "TopDocs#to_json returns a JSON text (RFC 8259): an array of one object per hit, with a member per stored field, whose value is a string or, if the field has more than one value, an array of strings; and nothing outside of the buffer is written.", "quantifier": "all numbers of hits, all stored fields and values, compressed or not", "why_tests_cant": "The test has five hits with a stored field each, expects a text that is no JSON where a value has quotes, and cannot see what is written behind the buffer.", "anchors": ["ruby/ext/r_search.c:243-322", "ruby/ext/ferret.c:201-224", "c/src/index.c:1639-1654"]}
{"id": "C130", "title": "Types and directions of field symbols", "statement": "Calling integer, float, string, byte and desc on a symbol, any number of times and in any order, gives a value whose type is the last one called, whose desc? turns with each desc, and which otherwise answers as the symbol does; such values can be given to :sort.", "quantifier": "all symbols, all sequences of calls, all sort specifications", "why_tests_cant": "The test tries each type once and desc twice, its check of the last type is assert(:string, ...), which is always true; none gives a field symbol to a search.", "anchors": ["ruby/lib/ferret/field_symbol.rb:18-92", "ruby/ext/r_search.c:2384-2407"]}
{"id": "C131", "title": "Equality of documents", "statement": "Two documents are equal if and only if they have the same boost and the same fields with the same values, however they were filled; equality is reflexive, symmetric and transitive.", "quantifier": "all documents, made by any sequence of storing, deleting and boosting", "why_tests_cant": "The tests compare a few documents that are filled in the same order and with values of the same class.", "anchors": ["ruby/lib/ferret/document.rb:46-58", "ruby/lib/ferret/document.rb:95-118"]}
{"id": "C132", "title": "to_s of hits", "statement": "TopDocs#to_s(field) returns a head with the number of hits and the greatest score, a line per hit with its document, the first value of the field (empty if it is not stored) and its score, and an end; and nothing outside of the buffer is written.", "quantifier": "all numbers of hits, all documents and values of any length, all texts of scores that a float can have", "why_tests_cant": "No test looks at the text; the buffer is grown by an estimate that depends on the hit at which it was full and on the number of those left, for values of any length.", "anchors": ["ruby/ext/r_search.c:186-241", "c/src/index.c:1390-1412"]}
