# Formal model of Ferret (dbalmain/ferret, C core)

Everything below `/verif/rocq/theories` is Coq 8.16.1.  The code in `/repo` is read as
text only; the only link between it and the theorems is the transcription, so every
definition in a `*_Model.v` file cites the file and lines it transcribes and says where it
simplifies.

## Layout

* `Util.v` – shared lemmas on lists and integers (no modelling content).
* `<Area>_Model.v` – executable transcription of the C functions of one area.
* `<Area>_Spec.v` – small independent specification (sets, maps, lists, glob relation ...);
  does not mention helper functions of the model.
* `<Area>_Proofs.v` – lemmas.
* `<Area>_Properties.v` – only the property theorems (`exact lemma`), the non-vacuity
  `Example`s and a `Print Assumptions` below every theorem.

Undefined behaviour (out-of-bounds access, NULL dereference, endless loop) is a distinct
outcome of the model (`None`, `UB`, `OutOfFuel`), never a default value.

A property which the code violates is not silently weakened: its name ends in `_refuted`
and exhibits a concrete input on which the faithful model breaks the English claim; what
does hold is proved beside it under the exact precondition.

## Trusted base

* Coq's kernel (and `vm_compute` for the finite sweeps and witnesses).
* The axioms printed by `Print Assumptions` below each theorem (target: none,
  "Closed under the global context").
* The reading of the C code: integer widths (int 32 bit, long/off_t/u64 64 bit), the file system
  (see the crash model), libc functions (`strcmp` as unsigned byte order, `memcpy`, `sscanf`).

## Plan per property

| id | modelled | proof idea |
|----|----------|------------|
| C01 | store.c vint writer/reader on byte lists with 64-bit wrap | strong induction on the value; list induction |
| C02 | fixed width writers/readers | arithmetic on bytes, `lia` |
| C03 | OutStream record (1024 byte buffer, start, pos) and op interpreter | refinement to a flat byte array |
| C04 | InStream record, refill, read, seek | refinement to the file's bytes |
| C05 | RAMFile as list of 1024 byte chunks | refinement to a flat byte array |
| C06 | new_output of both stores | witness (no truncation) |
| C07 | compound writer/reader | layout arithmetic |
| C08–C11 | BitVector words | bitwise refinement to sets of N |
| C12 | hash.c open addressing with perturbation | invariant + termination of the probe sequence |
| C13 | hashset.c linked list + hash | refinement to duplicate free lists |
| C14 | priorityqueue.c heap in an array | heap invariant, permutation, top-k |
| C15 | helper.c float2byte on bit patterns | bit arithmetic over Z |
| C16 | term dictionary blocks and sparse index | sortedness + binary search |
| C17–C19 | postings writer/reader, skip data | encode/decode induction, skip invariant |
| C20–C22 | multi reader offsets, multi enums | binary search, merge |
| C23 | segment merger | refinement to list of live docs |
| C24 | iw_add_readers | witness |
| C25 | base 36 names | positional notation |
| C26 | commit descriptor | encode/decode |
| C27 | commit protocol on a crashable directory | case analysis over all prefixes of write system calls |
| C28 | deleter | string functions |
| C29, C30 | version check, lock protocol | transition systems |
| C31, C32 | index writer state machine | refinement to log |
| C33 | boolean scorers | scorer contract, refinement to sorted lists |
| C34, C35 | phrase scorers | intersection algorithm |
| C36–C40 | wildcard, prefix, fuzzy, ranges | induction on strings / term lists |
| C41–C43 | top-k search, sort, multi searcher | uses C14 |
| C44 | constant score/filtered query | state machine with shared cursor |
| C45, C46 | span enumerators | window algorithm; witness |
| C47, C48 | rewriting, hash/eq | structural induction |
| C49–C53 | match vector, multi mapper, stop filter, number tools, arrays | induction |

## What is modelled and what is not

* BitVector: words, lazy size/count, scanning and set operations of bitvector.c; deletion files. Not: memory growth failure.
* Hash/HashSet: probing, resizing, dummies and the string hash. Not: the shared dummy key pointers, custom destructors.
* PQueue, Norm: whole algorithms; floats as IEEE bit patterns.
* Seg: file names, the commit descriptor writer and parser including the error handler of fis_read. Not: symbols (field names are
  byte strings), si reference counts.
* Commit: directory of named byte strings. A crash keeps a prefix of the system calls in program order, with the last write cut at any
  byte. Not: reordering by the file system, concurrent processes between two retries of a reader, I/O errors of a living process.
* Deleter: the decision per file name; reading an uninitialised buffer (norm file of a field without norms) is outcome `None`.
* Lock: each system call on the lock file is one step; waiting loops and failing `remove` are not modelled. Which build (mutexes
  as no-ops or pthreads) a trace needs is stated in Lock_Model.v.
* Array: ary.c cell by cell with capacities and free-slot reads. Not: element destructors.
* Lex: the Ruby helper that encodes integers for lexicographic order (digits and lengths).
* Token: tokenizers and filters as functions on byte lists; character classes of the C locale. Not: the lexer tables of the
  standard tokenizer, wide character decoding of other locales.
* Strcmp: strcmp as comparison of unsigned bytes.
* Dict: the files .tis, .tix, .tfx, the writer, the field index, the enumerator with its buffer bound, and per-thread lookups. Streams
  are the remaining bytes (their buffering is Stream_Model). Not: `last_term` as a pointer (see Merge), overflow of the
  enumerator's `int pos` by 2^31 calls after the end.
* Post: dw_flush's postings with the skip buffer, SegmentTermDocEnum and SegmentTermPosEnum operation by operation, the deletions an
  enumerator sees through the pointer it keeps. Not: documents from 2^30 on (overflow of `int`), bulk reads on position enumerators.
* Multi: MultiReader over segment readers that are lists of documents with a deletion set and norms; document numbers, deletions,
  counts, the norms cache and the map of field numbers. Not: locks and commits of the sub-readers, term vectors.
* Mte: MultiTermEnum on the dictionary enumerators of its segments and on the priority queue of PQueue; the wrappers in the queue are
  pairs of the current term and the segment. Not modelled: prev_term, overflow of the summed document frequency, nested MultiReaders.
* Mtde: MultiTermDocEnum and MultiTermPosEnum on the enumerators of Post and on Mte. The deletions of the whole are a set given with
  every operation; a part sees it shifted. Sub-readers are segments (the branch of mtde_seek_te for composed sub-readers is not modelled).
* Expand: wc_match and the rewriting of wildcard and prefix queries on the term enumerators of Dict and Mte, with the term queue of
  MultiTermQuery on PQueue; boosts are the bits of positive floats. The reader is given by its enumerators' sources. Not: memory.
* Range: RangeFilter and TypedRangeFilter on the term and posting enumerators of one or several segments; a bit vector is a list of
  documents. sscanf and floating point comparisons are parameters of the typed filter. Not: range_to_s, trange_new's checks.
* Query: rewriting of boolean and expanding queries per reader and their combination by the multi searcher; which documents match, not
  their scores. Expanding queries are given by the terms they accept.
* Search: the collecting loops of the index searcher and the multi searcher on PQueue, filters, post filters, the comparisons of sort.c.
  Scores and floats are their places in an order (NaN left out); a scorer is the list of its hits. strcoll is a parameter assumed to be a
  total preorder. Not: SORT_TYPE_AUTO, multi searchers of multi searchers, explanations.
* Bool: the scorers of q_boolean.c on PQueue, over term scorers and the scorer of MatchAllQuery; which documents they stop at. A leaf is the
  list of its documents. Loops take fuel; the theorems hold for all large enough fuel, so they include termination. Not: scores,
  coordination, the optional scorer that scoring moves, the required number of optional matches above 1 (no public caller sets it).
* Phrase: exact and sloppy phrase scorers of q_phrase.c over lists of documents with positions; qsort is any sort (equal elements in any
  order). A frequency is a count (exact) or the number of windows (sloppy), not a float. Not: the position enumerators below
  (see Post; MultipleTermDocPosEnum merges alternatives into one list), the phrase query's term vector matching, int overflow.
- **Fuzzy queries** (`Fuzzy_*`, C38): c/src/q_fuzzy.c, the scoring of candidates with its table of permitted distances, both early exits and the rows of the Levenshtein table, and
  `fuzq_rewrite` over the term enumerators of `Expand_Model`. Float arithmetic is not modelled: `calc` stands for `(int)((1.0 - min_sim) * x)`, a score is the pair of the distance and the
  shorter length (`1.0 - d / l`), and `sim` places it in the order of boosts; both are arbitrary functions. The buffer of the two rows is a list. An unknown field gives an empty MultiTermQuery in
  place of an empty BooleanQuery. `fuzq_rewrite` never copies the boost of the query (see C47).
* Match: match vectors (`matchv_*` of search.c) as arrays with uninitialised cells, in-place compaction, highlighting of a whole field with its
  buffer, and the sliding window that makes excerpt candidates. qsort is any sort. A lazy field is its joined text with the length that C code
  believes (C62, C63). Not: zlib/bzip2 themselves.
* QHash: hash values and equality of queries of all types and of the built-in filters, as trees of boosts, data and sub-queries. Addresses
  are compared by any function for which equal addresses have equal contents; floats are their bits. None is a call of a NULL
  function or a read through a wrong struct type. Not: filters written in Ruby.
* Mapper: c/src/multimapper.c, the non-deterministic automaton with the array it is kept in, the subset construction with its table, both
  mapping loops with their buffers. Bit vectors are lists of bools (C08 to C10 are about the real ones). Whether erealloc moves a block is a parameter.
* Filter: the cache of filters for one reader, ConstantScoreScorer over the shared bit vector (BitVector_Model, with its scan position), and
  FilteredQueryScorer over any boolean query of Bool_Model. What a filter selects is a parameter (a function of the deleted documents).
  Not: scores, filters written in Ruby, several readers.
* Span: the enumerators of q_span.c (term, first, or on PQueue, near, not) with next and skip_to, and the span scorer. A term's postings are a
  list of documents with positions; tde->skip_to always leaves the current document (Post). Not: SpanMultiTermEnum, scores, the check
  of field names.
* Merge: the SegmentMerger of index.c on the dictionaries and postings of Dict and Post and on PQueue: document maps, the queue of segments,
  byte-wise copying of postings with new skip data, the buffer of term texts that the dictionary writers point into, stored fields
  and norms. An input segment is what dw_flush or an earlier merge wrote, opened. Not: the loss of precision of `int` document lengths
  (is2os_copy_bytes), the choice of files inside compound stores, term vectors apart from the bytes they occupy.
* Fields: FieldsWriter, FieldsReader, LazyDocField and term vectors of index.c on the bytes of the fdt and fdx files, with the FieldInfos that
  grow while documents are added. The compressor is any pair of functions (`codec`); the loops around it are the code's, with fuel, so that
  an endless loop gives None for every fuel. h_set of names is list search. Not: caching of lazy values, terms with NUL bytes,
  zlib instead of bzlib.
* Invert: DocumentWriter of index.c: inverting tokenized and untokenized fields, posting lists, offsets, term vectors, norms, and dw_flush on
  top of Fields and Post. The analyzer is any function from a field name and a text to tokens; the byte of a norm is any function of the
  boosts and the length. The tables of posting lists are association lists (C12). Not: the memory pool, `num_terms` as an int, a
  position below zero in a field that stores offsets beyond being moved to 0 (documents with such positions do not `fit`).
* Iw: the IndexWriter of index.c over Invert, Merge, Fields, Post and Dict: adding with flushes, deletion by terms, commits, merging by size,
  optimizing, closing and opening, changes of max_buffered_docs, and the single key of ind.c. A history is any list of such operations.
  Segments are their files' bytes; the segments and fields files are taken to come back as written (Seg), .del files as bit vectors
  (BitVector). The memory pool's fill is a flag given with each document. Not: several writers (Lock, Commit),
  crashes in the middle (Commit), deletions through an IndexReader and keys of several fields.
* Addr: iw_add_readers of index.c over Iw: copying of documents with their fields renumbered, of the dictionary's tfx file, of norms, the
  joined FieldInfos, and both optimizations. The order in which C evaluates `is_read_u64(..) + is_read_u32(..)` is a parameter. Copies
  are limited by `int` lengths (`small_files`). Not: readers over other stores than a writer's, the swap of the store's file handles.
* Tsc: TermScorer of q_term.c and MultiTermScorer of q_multi_term.c over the term and document enumerators of Mte and Mtde: the buffer of 32
  documents with bulk reads, skipping in the buffer and in the enumerator, the lazily filled queue of term wrappers (PQueue). Deletions are
  any predicate on document numbers. Not: scores and norms (a step gives the document with its frequencies), explanations.
* Find: ir_open on the segments of Iw: one SegmentReader or a MultiReader without a field map; documents are located by the binary search of
  Multi. It composes Iw (any history of a writer) with Tsc (scorers), so that the theorems go from added documents to search results.
  The segments and field infos files are taken to come back as written (C13, C26).
* Qp*: q_parser.y/.c. QpLex: the lexer with its two static word buffers and the dynamic one as references, so that a word read after its buffer
  was reused is seen. QpAct: what the actions build (term, fuzzy, wildcard, range, phrase and boolean queries, the stack of fields, FLDS).
  QpClean: qp_clean_str. Qp_Model: the tables of the generated parser and yyparse (shifts, default reductions, look-ahead, YYMAXDEPTH,
  aborts), qp_parse with its recovery. The analyzer, `towlower`, `sscanf` and the comparison of typed bounds are parameters; lower_str is taken to keep the
  length. An exception in FLDS while `$$` is not yet set, or changed after setjmp, is undefined behaviour. Not: destructors, memory.
  Qp_Spec is a recursive descent parser, QpAst_Spec the grammar with its meaning; Qp_Proofs shows that the automaton agrees with the first, QpAst_Proofs that
  the first agrees with the grammar. QpSafe_Proofs: the stack of fields and the absence of undefined behaviour; QpTop_Proofs: qp_parse;
  QpUse_Proofs: cleaning, escaping, connectives, fields.
* Leaf: the leaves of Bool's scorers that are not lists: TermScorer and MultiTermScorer over postings (Tsc), the PhraseScorers (exact and sloppy) over
  position enumerators (Tpe) and ConstantScoreScorer over a bit vector; the contract of Bool_Spec holds for them up to a bound on document numbers.
* Look: a whole search: isea_rewrite, the rewriting of every query (Expand, Fuzzy, Range, phq_rewrite, bq_rewrite), weights, scorers (Leaf, Bool) and the
  documents isea_search_w visits, composed with Iw and Find, so that C88 goes from any history of a writer and any query to the documents.
  The arithmetic of similarities is a parameter with the condition `sim_ok`. Scores are not modelled, so optional clauses beside required ones are
  never moved (in C they are, when such a document is scored). `kept` is the caller's query object after rewriting.
  Not: spans and post filters in the composition (Filter, Span have them separately), boosts. Filters by ranges and sorting: Page.
* Ask: Ask_Spec tells what a query string says of a document, straight from what is written (no query is built, no stack of fields): C91 shows that
  the parser's query (Qp) means the same. Ask_Model turns the parser's queries into those of Look, so that C92 goes from a string and any
  history of a writer to the documents. Phrases are an uninterpreted predicate in C91; C92 gives it
  the meaning of Look (sloppy phrases: different words).
* Tpe: the position enumerators of a phrase on an opened index (SegmentTermDocPosEnum and MultiTermDocPosEnum of Mtde, MultipleTermDocPosEnum
  of index.c for alternatives, on PQueue) and the exact and sloppy phrase scorers of q_phrase.c on them. TpeSim_Proofs shows that it does what the
  scorer on lists of postings (Phrase) does, so that C90 and C93 go from posting files to documents. qsort is any function from the table of
  comparisons to an order of the elements. Not: scores.
* Sort: field_index.c (the four classes of indexes, built by walking over all terms of a field and their documents, and their cache) and the
  choice of comparators of sort.c, with AUTO, over the enumerators of Mte and Mtde and the comparisons and queue of Search. sscanf is given by what it stores.
  A cell is None if its value was never written. Not: memory, NaN (as if nothing was stored).
* Page: isea_search: query (Look), range filter (Range), page by score or by fields (Sort, Search), one search after the other on a reader with its caches,
  composed with Iw and, for query strings, with Ask, so that C94 goes from any history of a writer and any string to the hits of a page. Scores
  are any function of the document. Page_Spec says which page: the hits' order is from the documents' greatest terms, without indexes.
* Rank: scores. Weights (sums of squared weights, query norm, boosts), scorers that compute scores while they move, with the coordinator of a BooleanScorer, and
  the values of explanations; C96 gives each hit's score as a formula over the query (Rank_Spec.worth), C97 compares explanations with it. Numbers are
  rationals (no rounding, no infinities), the similarity is any functions, leaves are lists of postings with norms. Moving is as in Bool, with the same
  condition (`tame`). Not: scores of phrases, several terms and spans; texts of explanations.
* Except: except.c and except.h as programs over a stack of contexts; a jump back into a switch enters it again, so runs have fuel and "for ever" is "out of any
  fuel". What the comments of except.h promise is a structured evaluation without stack and jumps (Except_Spec.eval). Statements of the program proper are any
  partial functions. sis_write (C102) is such a program, with opening, writing and removing that may fail; closing raises nothing. Not: RETURN_EARLY, threads,
  errors other than those of sis_write and deleter_delete_file.
* Pool: mempool.c with buffers as memory (a block outside its buffer, an int overflow, a division by zero are undefined), and what a DocWriter keeps in a pool:
  field inverters, arrays of norms, the blocks of the inversion (any writes to its own blocks that depend on what it reads there), and when a writer flushes
  (memory used, number of documents, commits, changed settings). C98 compares pool and arrays (Pool_Spec.srun), C99 what a flush reads with the documents
  (Pool_Spec.segment_of). Not: alignment, malloc failing, the hash tables of posting lists (not in the pool), what the inversion writes (Invert).
* Idx: the Ruby class Index (ruby/lib/ferret/index.rb), method by method, as a state monad over the object (open flag, writer, reader, searcher) and the directory.
  Below the class: a commit is a numbered list of documents with holes, a version and a number of segments; the write lock is one field; when a writer flushes,
  how it merges (any renumbering that keeps the live documents in order) and how hits are ordered are a parameter (`policy`). The result of a history is compared
  with one list of documents (Idx_Spec.explains, and `shared` for several objects), where each method is atomic under @dir.synchronize. C104 rests on a directory
  with at least one segment (an empty one is refuted). Not: persist, highlight, explain, term vectors, scan, the analyzer argument, parsing of queries,
  the loops that retry for the commit lock, objects that stop half-way.
* Text: the to_s functions of the queries and filters, sort.c sort_to_s, document.c df_to_s/doc_to_s, index.c fis_to_s, search.c expl_to_s_depth/expl_to_html, frb_bc_to_s, and
  global.c dbl_to_s, strfmt, estrcat, estrdup. A block from malloc is a list of bytes, each written or not; a store behind its end and a read of a byte not written are None. A number
  is its pair of printf images (%#.7g, %#.6e), taken to have digits and at most 15 bytes; infinities and NaN leave the buffer as it was. Specification (Text_Spec): the text as
  concatenations, without blocks or sizes. Not modelled: printf itself, values of document fields with NUL bytes, td_to_s, the to_s of filters written in Ruby (a name is taken).
* Round (C108, C109; no code of its own): the strings of Text read by the parser of Qp. Specification (Round_Spec): `again` (queries whose words, fields and numbers need no
  escape), `same_query` (the query in the terms of the parser). Both models keep their own types of query; `same_query` is the only link between them. Trusted
  parameters: q_scanf/q_scand (sscanf), the analyzer, `bits` (the float a printed number stands for).
* Excerpt (C110, C111, C112): the rest of searcher_highlight on top of Match and PQueue: candidates with their running score, the choice with lazily refreshed scores (the loop over
  pq_top/pq_down), the sort by first match, positions, fillers, merging, expansion over offsets with skipped positions filled in, and excerpt_get_str with its buffer. Both sorts are any
  sort; a pointer to an excerpt is told apart by its first match; scores are integers. Specification (Excerpt_Spec): pieces of the text with a run of matches, windows and their worth
  given earlier windows. Not: overflow of sums other than excerpt_len * num_excerpts, freeing of memory; the collection of matches by queries is in Collect.
* Collect (C113 to C116): the get_matchv_i functions that collect the matches for highlighting: binary search in a term vector, terms, multi-terms, ranges of text and of numbers (with the
  length left over from an earlier sscanf and an indeterminate number), phrases (position lists with an offset, merging of alternatives through a queue, the sloppy loop over a queue, the exact
  loop over a ring) and boolean queries. A term vector is its terms with their positions; sscanf, doubles and the qsort of phrase positions are parameters. Specification (Collect_Spec): where
  terms occur, exact and sloppy occurrences of phrases, the positions a query marks. Composed with highlight_field of Match.
* CollectSpan (C117, C118): spanq_get_matchv_i with the dummy TermDocEnum on a term vector, mv_to_term_mv, get_terms, and the SpanMultiTermEnum as highlighting uses it. The enumerators are
  those of Span run with another term enumerator (`tv_skip`: yes to document 0 whatever the term, whose frequency and positions were never written if it is missing: None). The link to Span is
  a refinement (what is defined on the term vector equals the run on postings [(0, positions)]) and a condition under which both are the same (`ready`). Specification (CollectSpan_Spec): spans of
  a query in a field, marked positions. Not: the hash order of terms, memory of the dummy reader.
* Race (C119, C120; on top of Commit): sis_find_segments_file, sis_read, sis_read_current_version and ir_open on a directory that another process changes between any two accesses of the reader. The
  writer's history is a list of commits; a moment is (commits done, operations done, bytes of the next write); the reader's i-th access happens at the i-th of any non-decreasing sequence of
  moments. A listing is atomic in C119 and any POSIX-conforming scan in C120. Specification (Race_Spec): complete, under_way, current_between, the writer's rules (files of a commit are not
  touched while it is current and never written again). Not: the store's mutex, sleeping, which files a SegmentReader opens (`needs` is a parameter), failing removals.
* SortStr (C121, C122): frb_parse_sort_str byte by byte on its copy of the string, frb_sort_add and frb_sort_init with SortFields as cells of a heap that starts with the four constants of
  c/src/sort.c. Specification (SortStr_Spec): how items are written, which keys names stand for. Not: sort fields of explicit type, garbage collection, locales other than C.
* RamDir (C123, C124): the table of names of a RAM store, with its keys as addresses of strings that belong to the files (or, for touch, to the caller), reference counts, every function of
  c/src/ram_store.c that changes them, and open_ram_store_and_copy; str_hash is any function. Specification (RamDir_Spec): names for files, files that live on while a stream is open on them.
  The order of the entries is that of their making, where the C table has slots. Not: the buffers of a file (modelled in Stream), seeking of output streams, locks.
* Cache (C125): the bits of filters kept per filter and reader: the two tables a cache object is in, co_create and co_destroy, filt_get_bv, filt_destroy_i, ir_close's part, h_set, h_rem, h_clear and h_destroy
  on such tables. Addresses of filters and readers are chosen by the caller and may be used again; tables and cache objects are numbered for good, so that a use after free is undefined (None).
  Specification (Cache_Spec): filters and readers by number, and what the first question of each pair found. Not modelled: reference counts of filters and readers, filters asking other filters, threads.
* RubyPq (C126, C127): Ferret::Utils::PriorityQueue of r_utils.c, a heap of its own with the methods of Ruby as its order: pq_up, pq_down, pq_push, frb_pq_init, _clone, _clear, _insert, _adjust, _top, _pop, _size, _capa and frb_pq_mark.
  A comparison is told by its number, may answer differently each time and may raise, which leaves the function in the middle; a block that was collected may not be called.
  Specification (RubyPq_Spec): multisets with a capacity and an order, by PQueue_Spec. Not modelled: comparisons that use the queue they are made for, elements that change while they are in the queue (but by adjust), numbers beyond a C int, a collection in the middle of a call.
* Json (C128, C129): to_json of TermEnum, TermDocEnum and TopDocs: frb_te_to_json, frb_tde_to_json, frb_td_to_json, frb_lzd_load_to_json, json_concat_string, and the lengths fr_get_lazy_doc counts.
  A buffer has a size, and may be one that realloc has freed; whether a realloc moves the block is a parameter. Writes past the end and into a freed block are undefined.
  Specification (Json_Spec): the grammar of RFC 8259 as a relation between texts and values (no spaces, signs, fractions, true, false, null, \u, none of which these texts have), and the values of the documentation. Not modelled: numbers that do not fit into a C int, errors of reading while the text is made.
* TdStr (C132): frb_td_to_s with the buffers of Json. The texts printf makes of scores are given, of the lengths a float can have.
  Specification (TdStr_Spec): the lines, with decimal numbers by Json_Spec. Not modelled: more than 10^9 documents, values with zero bytes (they are cut).
* RubyDoc (C130, C131): FieldSymbol (its methods, and that Sort.new does not take it, by SortStr), Document and Field of the Ruby library as far as they compare (eql?, ==).
  A FieldSymbol holds what it was called on, which may be one, too. A Document is a Hash that keeps the order of its keys (as of Ruby 1.9), filled by any sequence of storing, deleting and boosting.
  Specification (RubyDoc_Spec): the last type and the number of descs in a sequence of calls; the last store of a key and the last boost in a sequence of changes. Not modelled: to_s, Field#+, values that are neither strings nor arrays of strings, boosts that are NaN.
