{
 "C01": {
  "status": "proved",
  "note": "All unsigned 32/64-bit values and non-negative offsets, all sequences, all trailing bytes; truncated encodings are reported as end of file. Extra finding: os_write_voff_t does not round-trip negative offsets (C01_voff_negative_refuted); no caller writes one."
 },
 "C02": {
  "status": "proved",
  "note": "All 32/64-bit values and all byte strings shorter than 2^31 bytes (longer lengths convert to a negative int in is_read_string)."
 },
 "C03": {
  "status": "proved",
  "note": "Both kinds of files, any sequence of operations. For in-memory files seeks must stay within the bytes written (beyond them the chunk array holds uninitialised bytes); for OS files any seek."
 },
 "C04": {
  "status": "partial",
  "note": "Refuted for in-memory files: rami_read_i has no end-of-file check, a bulk read across the end is undefined behaviour (C04_ram_overread_refuted). Proved: any operation sequence on an OS file, and on an in-memory file every sequence without such a bulk read (results agree up to the first undefined operation)."
 },
 "C05": {
  "status": "partial",
  "note": "Proved: positioned writes within the written range make the chunked file equal to the flat array, and ramo_write_to copies it for every length which is not a positive multiple of 1024. Refuted for such lengths: C05_write_to_multiple_of_chunk_refuted (reads a missing chunk)."
 },
 "C06": {
  "status": "partial",
  "note": "Refuted: reopening an existing file for output does not truncate it, old bytes stay behind the new ones (C06_output_replaces_refuted). Proved: the exact resulting contents, new bytes followed by the old tail, for both stores."
 },
 "C07": {
  "status": "proved",
  "note": "All lists of distinct files, both stores; all interleavings of reads and seeks on all member streams over the shared base stream. Each stream call is taken as atomic (the code holds the store mutex)."
 },
 "C08": {
  "status": "proved",
  "note": "Any capacity, any sequence of set/unset/clear; bv_set_fast for ascending in-capacity use; recounting leaves a vector unchanged. Extra findings: bv_recount reads past the allocation when size = capacity (C08_recount_full_refuted); on a complemented vector the count goes wrong under updates (C08_count_after_not_refuted)."
 },
 "C09": {
  "status": "partial",
  "note": "Refuted for a vector filled exactly to its capacity: the word is read before the bound check (C09_scan_full_refuted). Proved: next set / next unset from any start inside the capacity, and complete enumeration for every vector whose size is below its capacity, in particular all results of and/or/xor/not."
 },
 "C10": {
  "status": "partial",
  "note": "Proved for every expression of new/update/and/or/xor/not in which (a) in-place forms do not change the first operand's extension and (b) allocated results extending as ones are not updated. Refuted outside: C10_inplace_and_refuted, C10_inplace_count_refuted, C10_update_after_or_refuted."
 },
 "C100": {
  "status": "partial",
  "note": "Refuted in general: a TRY inside a block after XFINALLY that lets an exception out runs the block again, possibly for ever (C100_nested_refuted); an exception raised in a case goes to the same switch, possibly for ever (C100_case_refuted); FINALLY is not run for an exception that is not handled (C100_finally_refuted). Proved for programs without these (calm), outside (C100_promised) and inside of other TRYs (C100_inside)."
 },
 "C101": {
  "status": "partial",
  "note": "Refuted in general: an exception dropped or handled in a block after XFINALLY or XCATCHALL leaves its message to the exception on its way (C101_dropped_refuted, C101_handled_refuted). Proved if nothing is raised while an exception is on its way (C101_message)."
 },
 "C102": {
  "status": "partial",
  "note": "Refuted in general: if the segments file cannot be opened, NULL is closed (C102_open_refuted); if the fallback file cannot be opened, the stream of the segments file is closed a second time (C102_reopen_refuted); if the old segments file cannot be removed, the commit raises after everything was written (C102_remove_refuted). Proved: if both files open and the old file can be removed, writes may fail as they like (C102_opened)."
 },
 "C103": {
  "status": "partial",
  "note": "Refuted in three places: with :auto_flush, update of a String id raises NoMethodError and the document it was to replace is gone, after any history (C103_update_refuted); to_s counts documents, not numbers, and misses the last ones when there are deletions (C103_to_s_refuted); delete of a number beyond the end raises nothing (C103_missing_refuted). What holds: every other result of every history is that of a list of documents (C103_list), and close commits it (C103_close). Level: a commit is a numbered list of documents with holes; when the writer flushes and merges is a parameter."
 },
 "C104": {
  "status": "partial",
  "note": "Refuted: an object that searched and is then asked for its size after another one committed crashes at its next search or delete by number, because ensure_reader_open closes the searcher together with its reader and keeps it (C104_searcher_refuted, C104_delete_refuted); a reader opened on an index without segments never notices commits (C104_empty_refuted); add_indexes and field_infos keep the write lock (C104_lock_refuted). What holds: without these calls, on a directory with at least one segment, for objects that do not mix searching with calls that only use the reader, any interleaving raises nothing and sees all that was finished before (C104_shared)."
 },
 "C105": {
  "status": "partial",
  "note": "Refuted: batch_update does not look for duplicates among its own documents, though documented to guarantee no duplicate keys (C105_batch_refuted); update puts in a document without looking at its key (C105_update_refuted). What holds: for histories of additions with plain key fields, updates of an id to a document with that id, batch updates with distinct ids, and all deletions and reads, no two documents ever have one key (C105_unique)."
 },
 "C106": {
  "status": "partial",
  "note": "Refuted: a boost that is infinite or NaN makes to_s read bytes nothing wrote (C106_infinite_refuted), a SpanNearQuery of 40 or more clauses writes behind its block (C106_near_refuted), positions more than 715827882 apart overflow the size (C106_gap_refuted), and to_s sorts the positions of the phrase it is called on, so that it no longer equals an equal query (C106_sorts_refuted). For all queries with finite numbers, strings without NUL, positions within 2^28 of 0 and at most 39 clauses of each SpanNear, to_s returns the text of a specification without buffers, at every nesting (C106_spelled), and calling it again gives the same (C106_again). printf's %#.7g and %#.6e are taken as images with digits and at most 15 bytes."
 },
 "C107": {
  "status": "partial",
  "note": "Refuted: the string of every BooleanClause ends in a NUL byte (C107_clause_refuted), the string of the FieldInfos is written behind its block exactly when the lines need 120 bytes per field and 200 more (C107_fields_refuted), Explanation#to_html uses a freed block whenever realloc moves one (C107_html_refuted). Sorts (C107_sort), documents (C107_document), explanations of any depth (C107_explanation), field infos with short names (C107_fields) and to_html where realloc never moves (C107_html) give the text of the specification."
 },
 "C108": {
  "status": "proved",
  "note": "C108_round_trip and C108_distinct. What is not written in the string is as the parser makes it (kind of range, most terms); the conversions of printf and sscanf are parameters, and each number of the query is assumed to be read back as it was printed."
 },
 "C109": {
  "status": "partial",
  "note": "Refuted, each for all queries of a kind: C109_prohibited_refuted (a lone prohibited clause gets a match-all clause), C109_one_clause_refuted (a boost on one clause replaces its own), C109_fuzzy_refuted (the word after a fuzzy query of default similarity is lost), C109_star_refuted (f:* becomes match-all), C109_and_refuted (AND as default makes optional clauses required). C108 says for which queries it holds."
 },
 "C11": {
  "status": "proved",
  "note": "All finite sets below 2^31, any trailing bytes, and correct behaviour of the read vector under further deletions."
 },
 "C110": {
  "status": "proved",
  "note": "highlight never fails and gives 1 to num strings, each the tagged piece of the text, disjoint and in order, with at most len*num bytes; matches are joined ones that fit into len (see C112 for longer ones), positions of matches have tokens."
 },
 "C111": {
  "status": "proved",
  "note": "Every chosen window is best given the earlier ones (lazy refresh of the heap top proved right); with one excerpt all matches inside it are tagged."
 },
 "C112": {
  "status": "partial",
  "note": "Refuted: two merged excerpts can expand over a match which they do not tag; an ellipsis longer than the rest of the text shows the end twice; a match longer than an excerpt reads matches[-1]. What holds is C110 and C111."
 },
 "C113": {
  "status": "proved",
  "note": "Terms, multi-terms, ranges, phrases without slop and boolean queries of them, composed with highlight_field (C62): the covered positions are exactly the marked ones. Sloppy phrases: C113_matches gives soundness and at least one match, C114 the rest. FilteredQuery, ConstantScoreQuery and MatchAllQuery have the default get_matchv_i and mark nothing, even if the query inside a FilteredQuery would. Spans are not part of these queries."
 },
 "C114": {
  "status": "proved",
  "note": "For at least two parts and, with slop, a part whose shift is never negative (PhraseQuery always puts its first term at 0)."
 },
 "C115": {
  "status": "partial",
  "note": "Refuted: for a term that sscanf does not read, the length read before is compared, and if it agrees an indeterminate number is used (for example the bound 5 and a last term a). Holds when no unreadable term has the length of a readable one (C115_numbers_partial). If a bound is no number, the terms between the bounds as words are marked (C115_words)."
 },
 "C116": {
  "status": "partial",
  "note": "Refuted: with slop and one position whose term occurs, the top of an empty queue is dereferenced; searcher_highlight avoids it by rewriting. For other phrases see C114."
 },
 "C117": {
  "status": "proved",
  "note": "For every term vector, and every query the search can walk through (Span_Spec.searchable), what spanq_get_matchv_i adds are single positions of terms of the query within its spans, whenever it comes back (C118 says when)."
 },
 "C118": {
  "status": "partial",
  "note": "Refuted: when a term of the query is in the field but no span is, matchv_compact makes a range of memory never written, which is read (C118_no_span_refuted, for all such queries and fields; C118_missing_refuted: every SpanNear of terms of which one is missing; C118_excluded_refuted: a missing term in a SpanNear on the excluded side of a SpanNot, though there are spans); for SpanMultiTermQuery and SpanPrefixQuery positions behind the last are read whatever the terms (C118_multi_refuted). What holds: with a span in the field, exactness for SpanTerm/First/Or/Not (C118_exact_partial), for SpanNear that the terms of at least one span are marked and nothing wrong (C118_near_partial: the enumerator does not give every window), and no matches where no term is (C118_absent_partial)."
 },
 "C119": {
  "status": "proved",
  "note": "Proved for any sequence of moments and commits: sis_read and ir_open give the state (and the file contents) of one commit current during the call. The writer follows the rules of Race_Spec (it does not touch the files of the current commit and never rewrites files of a commit); index generation at least 1; no descriptor of the generation before is left."
 },
 "C12": {
  "status": "proved",
  "note": "Any history of h_set, h_set_safe, h_get, h_del, h_rem, h_has_key, h_clear from a new table, any hash function compatible with equality, both h_lookup and h_lookup_ptr; includes termination of every probe. Hash values below 2^64; sizes are unbounded (no int overflow). String keys are shown to meet the assumptions."
 },
 "C120": {
  "status": "partial",
  "note": "Refuted in four ways: while the first commit after creation is under way (no fallback to segments_0) the call can raise although the descriptor is complete before it ends; a scan of the directory during a commit may show no descriptor at all; a descriptor cut in the leading numbers of its field definitions kills the reader; the version may be that of a commit still being written. What holds: the version read never raises and is that of a commit complete or under way (C120_version_partial)."
 },
 "C121": {
  "status": "proved",
  "note": "C121_parse and C121_sort_new for items as defined in SortStr_Spec (written); C121_safe for all strings without NUL that do not start with a comma."
 },
 "C122": {
  "status": "partial",
  "note": "Refuted: reverse has no effect on a string (C122_string_refuted); a SortField given with reverse is turned round in place, so also in every Sort that already has it, and back by the next call (C122_shared_refuted); SortField::SCORE, DOC_ID and their REV versions with reverse write to constant objects (C122_constant_refuted); a field whose name ends in DESC is taken for another field reversed (C122_name_refuted); a string that starts with a comma reads the byte before the block (C122_comma_refuted). What holds: symbols with or without reverse (C122_symbols_partial) and SortFields without (C122_fields_partial)."
 },
 "C123": {
  "status": "proved",
  "note": "RamDir: a heap of name strings and a heap of files with reference counts, the hash table as entries whose keys are addresses; reading or freeing a freed cell is undefined. C123_ops: any sequence of calls on a new store gives the results of the specification, for any hash function. C123_close: streams survive the store, and then nothing is left but the strings that callers passed to touch. C123_copy: the copy of a directory. Buffers of 1024 bytes and the buffering of streams are the subject of C03 and not repeated: a write is one flush at the position of the stream."
 },
 "C124": {
  "status": "partial",
  "note": "Refuted in each part: C124_touch_refuted (the table keeps the string of the caller: once it is freed, exists? and every other look at the name reads freed memory, and if it changes the file has lost its name), C124_delete_refuted (on a RAMDirectory delete returns false when the file was deleted and true when there was none), C124_copy_refuted (names that start with ferret- are not copied, lock or not; other locks are). What holds: C123_ops for touch while the string lives, C123_copy."
 },
 "C125": {
  "status": "proved",
  "note": "For all sequences of calls and all addresses. Filters whose bits are made from those of other filters, threads and the probe sequences of the hash tables (Hash area) are outside the model; that bits found earlier may be of before a deletion is in the statement (see the Filter area)."
 },
 "C126": {
  "status": "proved",
  "note": "For orders that are total preorders and do not raise; blocks given with an argument or by :less_than, and kept alive by the program (C127 has what happens otherwise)."
 },
 "C127": {
  "status": "partial",
  "note": "Refuted. An insert that raises in the middle loses the new element and doubles another (C127_raise_refuted); a block without an argument is ignored (C127_block_refuted), so is :less_than_proc, the code reads :less_than (C127_option_refuted); frb_pq_mark does not mark the block, after a collection comparisons call a freed object (C127_gc_refuted). Holds: safety, membership and capacity under any comparison, C127_any."
 },
 "C128": {
  "status": "partial",
  "note": "Refuted. After a realloc that moves the block jp points into freed memory (C128_moved_refuted: any terms with 64 KB of text); the block is doubled once only, 65536 positions in a document overflow it (C128_positions_refuted; max_field_length must have been raised for this); a quote gets single quotes around it, which is not JSON (C128_quote_refuted). Holds: JSON of the terms and documents for plain terms, and no write outside, if the block does not move or need not grow (C128_terms, C128_terms_safe, C128_docs); JSON texts have one meaning (C128_one_meaning)."
 },
 "C129": {
  "status": "partial",
  "note": "Refuted. 10923 hits without stored fields are written past the end of the buffer (C129_empty_refuted), so is a compressed field, whose room is counted by its bytes on disk (C129_compressed_refuted); a field without values gives {\"f\":}, which is not JSON (C129_none_refuted), quotes as in C128. Holds: JSON of the hits for plain values, each hit with a stored field, each field with a value, none compressed (C129_hits); nothing written outside then, whatever the values are (C129_safe)."
 },
 "C13": {
  "status": "proved",
  "note": "Any history of hs_add, hs_add_safe, hs_del, hs_rem, hs_exists, hs_orig, hs_clear, hs_merge; the linked list is a heap in which reading a freed entry is undefined behaviour, which is shown not to happen."
 },
 "C130": {
  "status": "partial",
  "note": "Refuted. Sort.new, and so :sort, raises an ArgumentError for any field symbol, though field_symbol.rb documents :sort => :title.string.desc (C130_sort_refuted). Holds: the last type (C130_type), the parity of desc (C130_desc), other methods go to the symbol (C130_name)."
 },
 "C131": {
  "status": "partial",
  "note": "Refuted. Documents with the same fields stored in another order are not equal (C131_order_refuted); an Array equals a Field of any boost but not the other way round, so == is not symmetric (C131_symmetric_refuted). Holds: a document has what was stored last (C131_has), equal documents have the same boost and fields but for such arrays (C131_equal), the same fields in the same order are equal (C131_same), reflexive and transitive (C131_order)."
 },
 "C132": {
  "status": "partial",
  "note": "Refuted. A hit whose document stores the field with no values ({:id => []}) makes strlen read NULL (C132_none_refuted). Holds: the text, within the buffer, for any number of hits and lengths of values otherwise (C132_text; documents below 10^9)."
 },
 "C14": {
  "status": "proved",
  "note": "Any total preorder, any capacity, any history of push, insert, top replacement (heap[1] = x; pq_down), pop, top and clear; array growth and absence of out-of-bounds or unset-cell accesses included. Sizes are unbounded (no int overflow)."
 },
 "C15": {
  "status": "partial",
  "note": "Refuted for monotonicity on one interval: floats in [2^-31, 1.25*2^-31) are encoded as 0 although smaller positive floats are encoded as 1 (C15_monotone_refuted). Everything else is proved for all single precision patterns: re-encoding stability, order of codes, truncation to the greatest code not above, monotonicity outside that interval, saturation. The computation of the norm itself (float products) is not modelled."
 },
 "C16": {
  "status": "partial",
  "note": "Refuted for one length: an untokenized value of exactly 255 bytes is written and overruns the buffer when read (C16_untokenized_255_refuted). Proved for all increasing term lists with terms below 255 bytes, all intervals, all operation sequences on one enumerator: C16_enumerator_follows_terms, C16_lookup_exact."
 },
 "C17": {
  "status": "proved",
  "note": "Any fields, terms, postings, index and skip intervals: written by dw_flush, opened, and read back exactly; any history of operations follows a cursor on the list. Documents below 2^30 (twice the gap is an int), positions and frequencies are ints."
 },
 "C18": {
  "status": "partial",
  "note": "Refuted for skip intervals 1 and 2: skip points behind document 0 are not counted and the enumerator runs into the skip data (C18_small_interval_refuted, interval 2). Proved for every interval from 3 on (the default is 16), any deletions, any previous operations: C18_skip_to_partial."
 },
 "C19": {
  "status": "partial",
  "note": "Refuted: an enumerator made before the first deletion keeps a null pointer and returns documents deleted later (C19_first_deletion_refuted); undelete_all frees the bit vector it points to (C19_undelete_refuted). Proved when the reader has deletions already or gets none, and undelete_all is not called: C19_deletions_partial."
 },
 "C20": {
  "status": "proved",
  "note": "Numbering is a bijection between numbers below the total and (segment, local number), empty segments included; every history of fetch/test/delete/undelete/count on any segment list equals one flat list of documents. Numbers outside the index are the caller's error (deleting them does nothing)."
 },
 "C21": {
  "status": "partial",
  "note": "Refuted as stated: C21_absent_term_refuted (after seeking a term that occurs nowhere the documents of the term before go on, curr_tde is not cleared) and C21_reseek_positions_refuted (positions after a second seek). Holds: any history of term_docs operations with any deletions as long as a seek finds something or everything before has been read (C21_docs_partial), positions after one seek (C21_positions_partial), the joined list is increasing and exactly the shifted postings (C21_joined_list)."
 },
 "C22": {
  "status": "partial",
  "note": "Refuted at one point: an enumerator started at the empty string (terms_from \"\") leaves out every segment whose field holds the empty term (C22_from_empty_refuted). Proved otherwise: for any segments written and opened, any field map and any history of set_field, next and skip_to, from the first term or from any non-empty starting term, the answers are those of the sorted union with summed document frequencies (C22_merged_terms, C22_merged_from, C22_merged_list); mr_doc_freq is the same sum (C22_doc_freq)."
 },
 "C23": {
  "status": "partial",
  "note": "Refuted for long terms: the merger keeps the last term texts in a ring buffer for index_interval+1 terms of 255 bytes, and a term near that length can overwrite the text the index writer still refers to; at the default interval of 128 one segment with 385 terms of up to 254 bytes loses 128 terms to lookups when it is merged (C23_long_terms_refuted). Proved for every term length up to 252 bytes at the default interval (169 at interval 1), any number of segments, any deletions: every term has exactly the postings of the documents not deleted, renumbered; terms without any disappear; any enumerator history on the result; the result can be merged again; stored documents and norms are those of the documents not deleted, in order. Norms of segments without a norm file become zero."
 },
 "C24": {
  "status": "partial",
  "note": "Refuted: documents deleted in a source are back (C24_deleted_refuted); a compressed field in the source makes the writer's own documents unreadable (C24_compress_refuted); if the compiler evaluates is_read_u32 first the copy fails (C24_order_refuted). What holds: for sources without deletions, with agreeing fields and files below 2^31 bytes, everything of the writer followed by everything of the sources is shown in one segment, whatever the numbering of the fields (C24_added_partial)."
 },
 "C25": {
  "status": "proved",
  "note": "For all 64-bit numbers and generations; extensions are lower-case letters as used by the code."
 },
 "C26": {
  "status": "proved",
  "note": "For all descriptors whose values fit the C types. Truncated descriptors are also classified exactly."
 },
 "C27": {
  "status": "partial",
  "note": "Refuted as stated: a crash while segments_1 is written loses the index (C27_first_commit_refuted), a descriptor cut in the leading numbers of its field definitions kills readers (C27_cut_descriptor_refuted), two crashes can leave a commit nobody wrote, and the next reader commit after a crash can remove the only descriptor. Proved: from generation 2 on, without debris of earlier crashes, every crash point gives the old or the new commit with its files, or the fatal cut."
 },
 "C28": {
  "status": "partial",
  "note": "Refuted after a crash that left a partial newer descriptor (C28_after_crash_refuted). Proved when the newest descriptor is the commit: files of the commit are kept; files of other segments, outdated generations and old descriptors are removed."
 },
 "C29": {
  "status": "partial",
  "note": "Refuted for readers of an empty index (never out of date) and for a second modification attempt after LOCK_ERROR (build without mutexes). Proved for all other readers over all histories of commits."
 },
 "C30": {
  "status": "partial",
  "note": "Refuted in five ways (release then close, RAM race, failed open, is_locked query, reader retry). Proved for clients closing lock objects only while the lock is free, for uninterrupted RAM locks, and for writers/readers that do not try while it is taken."
 },
 "C31": {
  "status": "proved",
  "note": "For every history of operations the model writer succeeds and its segments hold the log. Hypotheses: terms, values and counts within the limits of the formats (log_fits), merge factor at least 2, max_buffered_docs at least 1 and not raised above its value at the first document (see C75)."
 },
 "C32": {
  "status": "partial",
  "note": "Refuted for keys of more than 255 bytes: they are cut when indexed, not when looked up, so the earlier document stays. Proved for shorter keys."
 },
 "C33": {
  "status": "partial",
  "note": "Refuted as stated: csc_skip_to overwrites the more flag, so a conjunction that is itself required next to other clauses, or prohibited, can report a document after one of its clauses is exhausted (C33_nested_conjunction_refuted, C33_prohibited_conjunction_refuted). Proved: for every nesting in which no query with several required clauses is asked to skip, the scorer stops exactly at the matching documents, once each and in order, and skip_to finds the first match from the target on; the loops terminate."
 },
 "C34": {
  "status": "partial",
  "note": "Refuted for the frequency when a position has the same place twice (alternatives at one position): C34_frequency_refuted. Proved otherwise: next and skip_to stop at exactly the documents with an occurrence, and the frequency is the number of occurrences when no position is repeated."
 },
 "C35": {
  "status": "partial",
  "note": "Refuted: \"a a\"~1 matches a document with one a, because adjacent positions are not checked (C35_repeated_term_refuted). Proved for positions that are not adjacent in the array, hence for a term asked for three times."
 },
 "C36": {
  "status": "partial",
  "note": "Refuted for the empty literal prefix on several segments: \"*\" misses terms when one segment holds the empty term (C36_star_refuted), and for patterns with 255 or more bytes before the first wildcard, which overflow a stack buffer (C36_long_pattern_refuted). Proved: the matcher is the glob semantics for all patterns and texts (C36_match); the rewritten query holds exactly the matching terms of the field apart from the empty term, the first ones in order up to the limit, on indexes of one or several segments."
 },
 "C37": {
  "status": "partial",
  "note": "Refuted for the empty prefix on several segments with the empty term (C37_empty_prefix_refuted). Proved in full for every non-empty prefix, any index and limit (C37_nonempty_prefix); for the empty prefix up to the empty term."
 },
 "C38": {
  "status": "proved",
  "note": "For every prefix, term and candidate the score carries the Levenshtein distance of the whole strings and the shorter length, or is zero when one is empty or the distance exceeds the permitted one; a candidate within it is always scored. Rewriting selects exactly the terms with the prefix and a similarity above the threshold, and keeps those with the greatest boosts when there are more than max_terms. Float rounding is a parameter."
 },
 "C39": {
  "status": "proved",
  "note": "Any index of one or several segments, any deletions and any bounds, including the scan over the term enumerator and the posting lists on the files; the rewritten query is the filter itself."
 },
 "C40": {
  "status": "partial",
  "note": "Refuted: a non-numeric term is taken for the number of the preceding term when the lengths agree (C40_stale_number_refuted), the number is read uninitialised when the first term is not numeric (C40_uninitialised_refuted), numbers with leading blanks are missed (C40_blank_refuted). Proved for any way of reading numbers: the filter is exact on fields where every term from \"+.\" to the digits starts with a number."
 },
 "C41": {
  "status": "partial",
  "note": "Refuted at the edges: offset + limit overflows (C41_overflow_refuted) and the maximum score is never below 0 (C41_negative_scores_refuted). Otherwise the page is the slice of the only ranking, for all hits, filters, offsets and limits (C41_page_partial); bad arguments raise (C41_arguments)."
 },
 "C42": {
  "status": "partial",
  "note": "Proved for all keys (score, document, byte, integer, float, string), directions and numbers of keys, offsets and limits without overflow. Float keys that are NaN and SORT_TYPE_AUTO are not modelled; strcoll is any total preorder."
 },
 "C43": {
  "status": "partial",
  "note": "Refuted for prohibited clauses that expand (C43_prohibited_expansion_refuted) and for sorting by bytes (C43_byte_sort_refuted). Proved: hits, order, total and maximum of several searchers are those of one searcher with all hits (C43_collect_partial), and the combined query asks what the query asks if nothing expands below a prohibited clause (C43_rewrite_partial). The values of scores are not modelled."
 },
 "C44": {
  "status": "partial",
  "note": "Refuted for constant score queries: the bit vector cached by the filter carries the scan position, which no new scorer resets, so a second run of the same query on the same reader returns nothing for every filter (C44_second_search_empty_refuted, C44_each_time_refuted), two scorers of one filter take documents from each other (C44_two_scorers_refuted), documents deleted later are still returned (C44_deleted_refuted), and with the last of a multiple of 32 documents selected the scan reads behind the vector (C44_last_document_refuted). A filtered query whose query has no scorer crashes (C44_no_scorer_refuted). Proved: the first use of a filter is exact for searches and for all mixes of next and skip_to; filtered queries are exact after any history without deletions."
 },
 "C45": {
  "status": "partial",
  "note": "Refuted as stated (C45_nested_refuted): a clause that is itself a SpanNear keeps only the first of its spans at a start position, so a window needing a longer one is missed. C45_terms proves the property for any number of term clauses (two or more), any slop and both orders, in elementary terms of positions; C45_near_partial for clauses built by SpanOr, SpanFirst and SpanNot (the first one any, later ones without a SpanOr of several clauses at the front, see C67). One occurrence may serve two clauses. A SpanNear of one clause is left out."
 },
 "C46": {
  "status": "partial",
  "note": "Refuted as stated: skip_to after a move skips a document with spans (C46_lost_refuted), and a skip_to to a document without spans reports the next one without a span and the next move repeats it (C46_repeated_refuted). C46_next_partial: next alone visits exactly the documents that have spans, in increasing order, with the right number of spans. C46_first_skip_partial: a skip_to as the first move to a document with spans, followed by next."
 },
 "C47": {
  "status": "partial",
  "note": "Refuted: wildcard queries (any index, any boost: C47_wildcard_refuted) and range queries (C47_range_refuted) lose their boost when rewritten. Proved: prefix queries and patterns without wildcards keep it. Not covered: how scorers use the boost."
 },
 "C48": {
  "status": "partial",
  "note": "Refuted in three corners: boosts 0.0 and -0.0 compare equal and hash differently; FilteredQuery has no hash and no eq function; span clauses are compared without looking at their type. Holds for all other queries of all types at any depth: equal implies the same hash, a copy compares equal, and the comparison is defined."
 },
 "C49": {
  "status": "partial",
  "note": "Refuted for an empty list of matches: both compactions then report one match, which is uninitialised memory (span queries compact unconditionally). For non-empty lists the ranges are in order, apart (by more than one position, or, with breaks, disjoint) and cover the same positions; with breaks also the joints and scores are as specified."
 },
 "C50": {
  "status": "partial",
  "note": "Refuted for patterns of 512 bytes and more (array overflow), for mappers that are not compiled yet (start state read before it exists) and for mulmap_dynamic_map (cuts replacements, keeps a moved address, writes into an empty block). Holds for mulmap_map_len with compiled mappers of any patterns up to 382 bytes, any text and any capacity."
 },
 "C51": {
  "status": "proved",
  "note": "For every stream, stop-word set and start position; also for the positions at which a field with one value is indexed. Extra finding: with several values the increments of trailing stop words of a value are lost (C51_several_values_refuted)."
 },
 "C52": {
  "status": "proved",
  "note": "All integers between -10^10000 and 10^9999 (exclusive); the bound is sharp. String#to_i is modelled on digit strings."
 },
 "C53": {
  "status": "partial",
  "note": "Refuted for removal: ary_remove_i moves one cell too many and reads behind the block whenever only one cell is unused, e.g. after seven pushes (C53_remove_refuted, C53_remove_overruns for every history). Proved: every sequence of push, pop, unshift, shift, set, get and removals with two unused cells behaves as the list, below 2^29 elements."
 },
 "C54": {
  "status": "proved",
  "note": "All vectors built by admissible expressions (see C10); different lengths, capacities and histories."
 },
 "C55": {
  "status": "partial",
  "note": "Refuted: compares the generation with 1 instead of -1."
 },
 "C56": {
  "status": "partial",
  "note": "Refuted as documented: padding is done with spaces (C56_zero_padding_refuted, whenever any padding is needed). Proved: width w and numeric order for all non-negative integers of at most w digits."
 },
 "C57": {
  "status": "proved",
  "note": "Byte tokenizers, for every classification of bytes (so for any single-byte locale); the multi-byte and standard tokenizers are not modelled."
 },
 "C58": {
  "status": "partial",
  "note": "Refuted: a reset in the middle of a word continues with the old word (C58_reset_refuted) and adjacent hyphens give empty tokens (C58_empty_tokens_refuted). Proved for all streams from a fresh filter: words and parts, offsets and positions."
 },
 "C59": {
  "status": "partial",
  "note": "Refuted for two threads, even with calls that do not overlap: the field number is shared but the enumerators are per thread (C59_two_threads_refuted). Proved for all lookups of one thread: C59_one_thread_lookups."
 },
 "C60": {
  "status": "partial",
  "note": "Refuted for moving by a term enumerator: the position file is not moved (C60_seek_by_enumerator_refuted). Proved for moving by name after any history: C60_seek_by_name."
 },
 "C61": {
  "status": "partial",
  "note": "Refuted for readers put together from readers with differently numbered fields (mr_set_norm_i drops the cached norms under the sub-reader's field number): C61_norms_of_joined_readers_refuted. Proved for all histories on a reader of one index (no field map); C20_any_history covers reading norms through any map without set_norm."
 },
 "C62": {
  "status": "proved",
  "note": "For uncompressed fields."
 },
 "C63": {
  "status": "partial",
  "note": "Refuted: the buffer is allocated with the compressed length and filled with the uncompressed text, so the write overruns it; without matches the terminating NUL is written out of bounds or behind uninitialised bytes."
 },
 "C64": {
  "status": "partial",
  "note": "Refuted for a match longer than the excerpt length: the candidate is empty and the match before the first one is read. Holds when every match fits."
 },
 "C65": {
  "status": "partial",
  "note": "Refuted: the comparison ignores the limits of prefix, wildcard and fuzzy queries and takes a typed range filter for a text range filter. Holds: equal queries differ at most in those limits, the type of range filters, the limit on clauses and the boosts of clauses of span queries."
 },
 "C66": {
  "status": "proved",
  "note": "Postings of the terms are given (documents in increasing order with sorted positions); the theorems hold for all large enough fuel, so they include termination. C66_skips gives the contract of skip_to. SpanMultiTerm is not modelled."
 },
 "C67": {
  "status": "partial",
  "note": "Refuted (C67_or_in_near_refuted): with the SpanOr as a later clause the top of an empty queue is read for every fuel, i.e. in every execution. As the first clause it works: C45_near_partial."
 },
 "C68": {
  "status": "proved",
  "note": "On the FieldsWriter and FieldsReader models, down to the bytes of both files; sizes of a document below 2^31 and at most 178956970 documents. C68_merged composes it with the merger of C23."
 },
 "C69": {
  "status": "partial",
  "note": "Refuted: a value of ZIP_BUFFER_SIZE (16348) bytes or more never comes back (C69_large_refuted, for every compressor): the reader sets avail_out once and loops, or the writer does. Holds for values whose plain and compressed sizes are below that (C69_small_partial)."
 },
 "C70": {
  "status": "partial",
  "note": "Refuted for asking for all vectors of a document: a field that stores offsets and has no terms leaves its offset count unread, and the vectors behind it are read as empty (C70_no_terms_refuted). Holds for one field always, and for all fields without such an empty one (C70_vectors_partial). Terms shorter than 255 bytes."
 },
 "C71": {
  "status": "partial",
  "note": "Refuted for compressed fields at a start between two values: the bytes are one place further and end in a space (C71_gap_refuted). C71_bytes_partial says what is returned for every start and length."
 },
 "C72": {
  "status": "proved",
  "note": "Stated for documents within the formats (terms below 255 bytes without NUL, positions that are ints, at most max_buffered_docs documents): the files answer as the index of the documents, with norms, vectors and stored fields."
 },
 "C73": {
  "status": "partial",
  "note": "Refuted: max_field_length + 1 terms of the first value are taken and one more of every further value. Proved: never more than that, always the first terms of each value, and fields of up to max_field_length + 1 terms whole."
 },
 "C74": {
  "status": "partial",
  "note": "Refuted: a value of exactly 255 bytes is indexed as a term that overflows the buffer of every reader, a longer value is cut to 254 bytes and is not found. Proved for values of up to 255 bytes on the level of postings, and with C72 up to the files for up to 254 bytes."
 },
 "C75": {
  "status": "partial",
  "note": "Refuted for raising the value after a document was added (and for 0): the norm is written behind its array. Proved for lower values and for changes after closing."
 },
 "C76": {
  "status": "proved",
  "note": "On the byte level postings of C16 and C21, for one segment and for several with or without a field map; frequencies are those of the postings. The score itself is not part of it."
 },
 "C77": {
  "status": "proved",
  "note": "The scores are not computed: the result of each step is the set of (term, frequency) pairs that multi_tsc_next adds up, stated up to the order of addition."
 },
 "C78": {
  "status": "proved",
  "note": "Composes C36/C37 (rewriting), C38/C39 (term enumeration) and C77. Literal prefixes of a pattern are shorter than 255 bytes (the buffer of wcq_rewrite); prefixes are not empty."
 },
 "C79": {
  "status": "proved",
  "note": "One theorem from the history of a writer to the scorer of a reader, for documents within the formats (log_fits: terms below 255 bytes without NUL and short enough for the merger's buffer, sizes) and skip_interval at least 3 (the default is 16)."
 },
 "C80": {
  "status": "proved",
  "note": "Under the hypotheses of C79; literal prefixes of patterns below 255 bytes. The limit counts all terms ever added: terms of deleted documents are still enumerated until their segment is merged."
 },
 "C81": {
  "status": "proved",
  "note": "For words shorter than 254 bytes and at most about 4998 words and marks (the depth of the generated parser). The automaton (bison tables, default reductions, look-ahead, error handling) is proved to agree with a recursive descent over the words and marks, and that with the grammar, both ways. The meaning of a part for which the code gives up or has undefined behaviour is part of the grammar (EAbort, EUb)."
 },
 "C82": {
  "status": "partial",
  "note": "Refuted for exceptions: a phrase between parentheses for more fields than max_clauses leaves its fields on the stack, and the next query fails an assertion (C82_again_refuted). Proved: answers never depend on earlier queries as long as the parser is ready; after every answered query and every syntax error it is ready."
 },
 "C83": {
  "status": "partial",
  "note": "Refuted: a reversed range, an alternative after a leading gap in a phrase, a slop that is no number and a long word before another word are undefined behaviour even with handle_parse_errors (C83_always_refuted); a Ruby parser without default field dereferences NULL for a word after a part with a field (C83_default_refuted). Proved for all other strings of moderate size: the meaning or the fallback, and for strict parsers an exception exactly outside the grammar."
 },
 "C84": {
  "status": "partial",
  "note": "Refuted: a last backslash outside quotes escapes the parenthesis that is added, and escapes between quotes lose their backslash (C84_balanced_refuted). Proved: the bound on the buffer for all strings, balance for strings without these, and that strings without quotes are only extended at their ends."
 },
 "C85": {
  "status": "partial",
  "note": "Refuted for the keywords AND, OR, NOT and REQ, which stay operators when escaped (C85_keywords_refuted). Proved for all other words of less than 254 bytes."
 },
 "C86": {
  "status": "partial",
  "note": "Refuted for mixed connectives: in a OR b AND c the AND does not require b (C86_neighbours_refuted). Proved for clauses all joined by the same connective."
 },
 "C87": {
  "status": "partial",
  "note": "Refuted for patterns and ranges over tokenized and untokenized fields and for alternatives in phrases (C87_fields_refuted). Proved for words and fuzzy words, and for patterns if all of the fields are put in lower case or none."
 },
 "C88": {
  "status": "partial",
  "note": "Refuted as stated: a nested conjunction brings documents that lack one of its terms (C88_nested_refuted, the defect of C33 end to end), a range over an index whose size is a multiple of 32 and at least 128 reads past its bit vector if the last document is in it (C88_range_refuted), a phrase of one position forgets the alternatives behind the 256th (C88_alternatives_refuted), and for sloppy phrases with repeated words one occurrence sometimes counts for two positions and sometimes does not (C88_repeated_refuted). Proved, from any history of the writer and for any sequence of searches, under [fine]: the numbers of terms a prefix, pattern or fuzzy query may have suffice, no query with several required clauses is asked to skip, no such range or phrase, and phrases of several positions only in fields whose words have non-decreasing positions. Scores are not modelled."
 },
 "C89": {
  "status": "partial",
  "note": "Refuted as stated: rewriting adds a clause for all documents to the query itself if all of its clauses are prohibited, so clauses added later mean something else (C89_kept_refuted). Proved: searching again with the same object finds the same documents, its meaning is the same, and later searches change it no more."
 },
 "C90": {
  "status": "proved",
  "note": "For terms whose positions are stored in non-decreasing order (in_order; every analyzer that gives non-negative position increments) and document numbers below INT_MAX. Nothing is said about calls after a call that found nothing (see C34)."
 },
 "C91": {
  "status": "proved",
  "note": "For every string that the parser answers (a strict parser, or a recovering one if the string is written by the grammar), the query means what the string says by an independent reading that passes fields down and builds no query, for any meaning of words, phrases with their slop, and similarity. Asked of the configuration: the analyzer gives the first token of a text an increment, lower case is idempotent, ranges are not typed, it is known which fields are tokenized."
 },
 "C92": {
  "status": "partial",
  "note": "Refuted as stated through C88 (a nested conjunction of required clauses, a range at the end of an index of 128 documents, repeated words in a sloppy phrase). Proved: composed with C81 and C88, the documents found after any history are those of which the string is true, for any sequence of strings, under the conditions of C88 (C92_found, C92_committed). Strings without parentheses never meet the nested conjunction (C92_flat). Typed ranges are outside."
 },
 "C93": {
  "status": "proved",
  "note": "Words with positions in non-decreasing order (in_order); the condition that the first word is at the start of the phrase is [leads]: some position is not further from the start of the phrase than its words from the start of the field. Without it a phrase with a slop finds nothing (C93_late_refuted; only phq_add_term_abs, which is C API, builds such phrases). Phrases with repeated words: C35 and C88_repeated_refuted."
 },
 "C94": {
  "status": "proved",
  "note": "Pages by score or sorted, with filters, by queries and by strings. Conditions: those of C88/C92 on the query; first and num as a search takes them; sort fields known to the index, readable numbers where sorted by numbers, AUTO only for fields all of whose terms have one type (C95 refutes it without). Scores are any function of the document; strcoll any consistent comparison."
 },
 "C95": {
  "status": "partial",
  "note": "Refuted in part: the AUTO type is taken from the first term only, so that later terms that are no numbers leave values unwritten (C95_auto_refuted), even if only a deleted document has that term (C95_deleted_refuted); the type found for one index stays in the Sort for the next (C95_kept_refuted); an unknown field with AUTO reads through NULL where a given type raises (C95_unknown_refuted); documents undeleted after a sorted search are sorted as if they had no value (C95_undeleted_refuted). Proved: every field index holds the value of the greatest term for all documents not deleted when it was built (C95_index)."
 },
 "C96": {
  "status": "proved",
  "note": "Scores as rationals, for every similarity; condition tame as in the quantifier (C96_hits). C96_only: a hit and its score depend on the document only; C96_order: the order of clauses does not matter."
 },
 "C97": {
  "status": "partial",
  "note": "Refuted in general: optional clauses without a scorer count in the coordination of the explanation only (C97_no_scorer_refuted); constant-score, range and match-all clauses are explained as matching every document (C97_bits_refuted, C97_not_found_refuted), so that a hit can be explained as prohibited (C97_found_refuted); clauses that match with score 0 are explained as missing (C97_zero_refuted). Proved (C97_explained, C97_value): if everything is positive, every leaf has a scorer and the constant-score clauses contain the document."
 },
 "C98": {
  "status": "proved",
  "note": "C98_blocks, for up to 536870909 allocations between two resets (further ones may overflow the int that counts buffers)."
 },
 "C99": {
  "status": "partial",
  "note": "Refuted in general: with max_buffered_docs above chunk_size, as the documentation of IndexWriter recommends (FIX_INT_MAX), the norms of the first normed field are zeroed beyond the end of their chunk (C99_documented_refuted); raising the setting after the first document lets norms overwrite other blocks (C99_raised_refuted); max_buffer_memory below chunk_size writes before any buffer exists (C99_small_memory_refuted); chunk_size 0 divides by zero (C99_zero_chunk_refuted). Proved (C99_segments): if the first document meets chunk_size <= max_buffer_memory and max_buffered_docs <= chunk_size, and max_buffered_docs is never above its first value when a document is added."
 }
}
