-Q theories Verif
theories/Util.v
theories/Codec_Model.v
theories/Codec_Spec.v
theories/Codec_Proofs.v
theories/Codec_Properties.v
theories/Stream_Model.v
theories/Stream_Spec.v
theories/Stream_Proofs.v
theories/Stream_Properties.v
theories/Compound_Model.v
theories/Compound_Spec.v
theories/Compound_Proofs.v
theories/Compound_Properties.v
theories/BitVector_Model.v
theories/BitVector_Spec.v
theories/BitVector_Proofs.v
theories/BitVector_Properties.v
theories/Hash_Model.v
theories/Hash_Spec.v
theories/Hash_Proofs.v
theories/HashSet_Model.v
theories/HashSet_Spec.v
theories/HashSet_Proofs.v
theories/Hash_Properties.v
theories/PQueue_Model.v
theories/PQueue_Spec.v
theories/PQueue_Proofs.v
theories/PQueue_Properties.v
theories/Norm_Model.v
theories/Norm_Spec.v
theories/Norm_Proofs.v
theories/Norm_Properties.v
theories/Seg_Model.v
theories/Seg_Spec.v
theories/Seg_Proofs.v
theories/SegCodec_Proofs.v
theories/Seg_Properties.v
theories/Commit_Model.v
theories/Commit_Spec.v
theories/Commit_Proofs.v
theories/Deleter_Proofs.v
theories/History_Proofs.v
theories/Commit_Properties.v
theories/Lock_Model.v
theories/Lock_Spec.v
theories/Lock_Proofs.v
theories/Lock_Properties.v
theories/Array_Model.v
theories/Array_Spec.v
theories/Array_Proofs.v
theories/Array_Properties.v
theories/Lex_Model.v
theories/Lex_Spec.v
theories/Lex_Proofs.v
theories/Lex_Properties.v
theories/Token_Model.v
theories/Token_Spec.v
theories/Token_Proofs.v
theories/Token_Properties.v
theories/Strcmp.v
theories/Dict_Model.v
theories/Dict_Spec.v
theories/DictCodec_Proofs.v
theories/Dict_Proofs.v
theories/DictCursor_Proofs.v
theories/Dict_Properties.v
theories/Post_Model.v
theories/Post_Spec.v
theories/Post_Proofs.v
theories/PostRun_Proofs.v
theories/Post_Properties.v
theories/Multi_Model.v
theories/Multi_Spec.v
theories/Multi_Proofs.v
theories/Multi_Properties.v
theories/Mte_Model.v
theories/Mte_Spec.v
theories/Mte_Proofs.v
theories/Mte_Properties.v
theories/Mtde_Model.v
theories/Mtde_Spec.v
theories/Mtde_Proofs.v
theories/Mtde_Properties.v
theories/Expand_Model.v
theories/Expand_Spec.v
theories/Expand_Proofs.v
theories/Expand_Properties.v
theories/Range_Model.v
theories/Range_Spec.v
theories/Range_Proofs.v
theories/Range_Properties.v
theories/Query_Model.v
theories/Query_Spec.v
theories/Query_Proofs.v
theories/Search_Model.v
theories/Search_Spec.v
theories/Search_Proofs.v
theories/Search_Properties.v
theories/Bool_Model.v
theories/Bool_Spec.v
theories/Bool_Proofs.v
theories/BoolSum_Proofs.v
theories/BoolCon_Proofs.v
theories/BoolQuery_Proofs.v
theories/Bool_Properties.v
theories/Ring.v
theories/Phrase_Model.v
theories/Phrase_Spec.v
theories/Phrase_Proofs.v
theories/PhraseSloppy_Proofs.v
theories/Phrase_Properties.v
theories/Fuzzy_Model.v
theories/Fuzzy_Spec.v
theories/Fuzzy_Proofs.v
theories/Fuzzy_Properties.v
theories/Match_Model.v
theories/Match_Spec.v
theories/Match_Proofs.v
theories/Match_Properties.v
theories/QHash_Model.v
theories/QHash_Spec.v
theories/QHash_Proofs.v
theories/QHash_Properties.v
theories/Mapper_Model.v
theories/Mapper_Spec.v
theories/Mapper_Proofs.v
theories/Mapper_Properties.v
theories/Filter_Model.v
theories/Filter_Spec.v
theories/Filter_Proofs.v
theories/Filter_Properties.v
theories/Span_Model.v
theories/Span_Spec.v
theories/Span_Proofs.v
theories/SpanNear_Proofs.v
theories/SpanQuery_Proofs.v
theories/Span_Properties.v
theories/Merge_Model.v
theories/Merge_Spec.v
theories/Merge_Proofs.v
theories/MergeBuf_Proofs.v
theories/MergeTerms_Proofs.v
theories/MergeRun_Proofs.v
theories/MergeDocs_Proofs.v
theories/MergeCheck.v
theories/Merge_Properties.v
theories/Fields_Model.v
theories/Fields_Spec.v
theories/Fields_Proofs.v
theories/FieldsRead_Proofs.v
theories/FieldsTv_Proofs.v
theories/FieldsVec_Proofs.v
theories/FieldsTop_Proofs.v
theories/Fields_Properties.v
theories/Invert_Model.v
theories/Invert_Spec.v
theories/Invert_Proofs.v
theories/InvertDoc_Proofs.v
theories/InvertIndex_Proofs.v
theories/InvertTop_Proofs.v
theories/Invert_Properties.v
theories/Iw_Model.v
theories/Iw_Spec.v
theories/IwExt_Proofs.v
theories/IwSeg_Proofs.v
theories/IwMerge_Proofs.v
theories/IwRun_Proofs.v
theories/Iw_Properties.v
theories/Addr_Model.v
theories/Addr_Spec.v
theories/AddrRen_Proofs.v
theories/AddrFile_Proofs.v
theories/AddrSeg_Proofs.v
theories/Addr_Proofs.v
theories/Addr_Properties.v
theories/Tsc_Model.v
theories/Tsc_Spec.v
theories/Tsc_Proofs.v
theories/TscMulti_Proofs.v
theories/TscOpen_Proofs.v
theories/TscQuery_Proofs.v
theories/Tsc_Properties.v
theories/Find_Model.v
theories/Find_Spec.v
theories/Find_Proofs.v
theories/FindTop_Proofs.v
theories/Find_Properties.v
theories/QpLex_Model.v
theories/QpAct_Model.v
theories/QpClean_Model.v
theories/Qp_Model.v
theories/Qp_Spec.v
theories/QpAst_Spec.v
theories/QpMean_Spec.v
theories/QpUse_Spec.v
theories/QpLex_Proofs.v
theories/Qp_Proofs.v
theories/QpFuel_Proofs.v
theories/QpAst_Proofs.v
theories/QpSafe_Proofs.v
theories/QpTop_Proofs.v
theories/QpUse_Proofs.v
theories/Qp_Properties.v
theories/Leaf_Model.v
theories/Leaf_Proofs.v
theories/Look_Model.v
theories/Look_Spec.v
theories/LookTerms_Proofs.v
theories/Look_Proofs.v
theories/LookKept_Proofs.v
theories/LookTop_Proofs.v
theories/Look_Properties.v
theories/Tpe_Model.v
theories/Tpe_Spec.v
theories/Tpe_Proofs.v
theories/TpeAlts_Proofs.v
theories/TpeSim_Proofs.v
theories/TpePhrase_Proofs.v
theories/Tpe_Properties.v
theories/Ask_Model.v
theories/Ask_Spec.v
theories/Ask_Proofs.v
theories/AskPhrase_Proofs.v
theories/AskTop_Proofs.v
theories/AskCalm_Proofs.v
theories/AskFound_Proofs.v
theories/Ask_Properties.v
theories/PhraseWindow_Proofs.v
theories/Sort_Model.v
theories/Sort_Spec.v
theories/Sort_Proofs.v
theories/Page_Model.v
theories/Page_Spec.v
theories/Page_Proofs.v
theories/PageAsk_Proofs.v
theories/Page_Properties.v
theories/Rank_Model.v
theories/Rank_Spec.v
theories/Rank_Proofs.v
theories/RankSum_Proofs.v
theories/RankCon_Proofs.v
theories/RankQuery_Proofs.v
theories/RankExpl_Proofs.v
theories/RankMore_Proofs.v
theories/Rank_Properties.v
theories/Pool_Model.v
theories/Pool_Spec.v
theories/Pool_Proofs.v
theories/PoolDw_Proofs.v
theories/PoolIw_Proofs.v
theories/Pool_Properties.v
theories/Except_Model.v
theories/Except_Spec.v
theories/Except_Proofs.v
theories/Except_Properties.v
theories/Idx_Model.v
theories/Idx_Spec.v
theories/Idx_Proofs.v
theories/IdxShare_Proofs.v
theories/Idx_Properties.v
theories/Text_Model.v
theories/Text_Spec.v
theories/Text_Proofs.v
theories/TextQ_Proofs.v
theories/TextAll_Proofs.v
theories/TextOther_Proofs.v
theories/Text_Properties.v
theories/Round_Spec.v
theories/Round_Proofs.v
theories/RoundMean_Proofs.v
theories/Round_Properties.v
theories/Excerpt_Model.v
theories/Excerpt_Spec.v
theories/Excerpt_Proofs.v
theories/ExcerptShow_Proofs.v
theories/ExcerptTop_Proofs.v
theories/Excerpt_Properties.v
theories/Collect_Model.v
theories/Collect_Spec.v
theories/Collect_Proofs.v
theories/CollectTyped_Proofs.v
theories/CollectPhrase_Proofs.v
theories/CollectExact_Proofs.v
theories/CollectSloppy_Proofs.v
theories/CollectTree_Proofs.v
theories/Collect_Properties.v
theories/CollectSpan_Model.v
theories/CollectSpan_Spec.v
theories/CollectSpan_Proofs.v
theories/CollectSpanMv_Proofs.v
theories/CollectSpan_Properties.v
theories/Race_Model.v
theories/Race_Spec.v
theories/RaceRead_Proofs.v
theories/Race_Proofs.v
theories/Race_Properties.v
theories/SortStr_Model.v
theories/SortStr_Spec.v
theories/SortStr_Proofs.v
theories/SortStr_Properties.v
theories/RamDir_Model.v
theories/RamDir_Spec.v
theories/RamDir_Proofs.v
theories/RamDir_Properties.v
theories/Cache_Model.v
theories/Cache_Spec.v
theories/Cache_Proofs.v
theories/Cache_Properties.v
theories/RubyPq_Model.v
theories/RubyPq_Spec.v
theories/RubyPq_Proofs.v
theories/RubyPq_Properties.v
theories/Json_Model.v
theories/Json_Spec.v
theories/Json_Proofs.v
theories/Json_Proofs2.v
theories/Json_Proofs3.v
theories/Json_Properties.v
theories/RubyDoc_Model.v
theories/RubyDoc_Spec.v
theories/RubyDoc_Proofs.v
theories/RubyDoc_Properties.v
theories/TdStr_Model.v
theories/TdStr_Spec.v
theories/TdStr_Proofs.v
theories/TdStr_Properties.v
