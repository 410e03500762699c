-Q theories Verif
theories/Py.v
theories/TokenModel.v
theories/SuffixModel.v
theories/IndexModel.v
theories/GraphModel.v
theories/AlignModel.v
theories/TableModel.v
theories/NearModel.v
theories/ExportModel.v
theories/CollateModel.v
theories/TokenSpec.v
theories/TokenProof.v
theories/DictProof.v
theories/Props_token.v
theories/Lib.v
theories/GraphSpec.v
theories/GraphProof.v
theories/MergeProof.v
theories/RankProof.v
theories/TableSpec.v
theories/TableProof.v
theories/AlignProof.v
theories/BlockProof.v
theories/RadixProof.v
theories/DC3Proof.v
theories/SuffixSpec.v
theories/SuffixProof.v
theories/FindProof.v
theories/Props_suffix.v
theories/IndexProof.v
theories/BlockText.v
theories/Samples.v
theories/Props_blocks.v
theories/InstProof.v
theories/CubeProof.v
theories/AlignerProof.v
theories/CollateProof.v
theories/JoinProof.v
theories/TopoProof.v
theories/CollateSpec.v
theories/ResultProof.v
theories/ErrorProof.v
theories/FactsProof.v
theories/FilterProof.v
theories/OutputProof.v
theories/StageProof.v
theories/PlainProof.v
theories/VariantProof.v
theories/NearProof.v
theories/NearTwoProof.v
theories/WalkSpec.v
theories/WalkProof.v
theories/WalkAlign.v
theories/WalkStage.v
theories/IdentProof.v
theories/NearSpec.v
theories/NearBest.v
theories/Props_align.v
theories/Props_collate.v
theories/Props_limits.v
theories/ExportSpec.v
theories/ExportProof.v
theories/AStarModel.v
theories/AStarSpec.v
theories/AStarProof.v
theories/Props_astar.v
theories/RangeSetModel.v
theories/RangeSpec.v
theories/RangeProof.v
theories/Props_rangeset.v
theories/HistorySpec.v
theories/HistoryProof.v
theories/Props_history.v
theories/Props_export.v
theories/JsonModel.v
theories/JsonSpec.v
theories/JsonProof.v
theories/Props_json.v
theories/DrawModel.v
theories/DrawSpec.v
theories/DrawProof.v
theories/Props_draw.v
theories/XmlSpec.v
theories/XmlProof.v
theories/Props_xml.v
theories/HtmlModel.v
theories/HtmlSpec.v
theories/HtmlProof.v
theories/Props_html.v
theories/AliasModel.v
theories/AliasSpec.v
theories/AliasProof.v
theories/Props_alias.v
theories/ParamSpec.v
theories/ParamProof.v
theories/Props_param.v
theories/OrderSpec.v
theories/OrderProof.v
theories/JsonInModel.v
theories/Props_order.v
theories/PairSpec.v
theories/ChosenSpec.v
theories/ChosenProof.v
theories/PairProof.v
theories/Props_pair.v
theories/RenameSpec.v
theories/RenameProof.v
theories/SpaceSpec.v
theories/SpaceProof.v
theories/Props_rename.v
theories/Props_renamecsv.v
theories/GrowSpec.v
theories/GrowProof.v
theories/Props_grow.v
theories/BlockModel.v
theories/BlockSpec.v
theories/Props_depth.v
theories/SegSpec.v
theories/SegProof.v
theories/Props_seg.v
theories/ReadSpec.v
theories/ReadProof.v
theories/Props_read.v
theories/WordSpec.v
theories/WordProof.v
theories/Props_word.v
theories/RangeMoreModel.v
theories/RangeMoreSpec.v
theories/RangeMoreProof.v
theories/Props_rangemore.v
theories/RangeTextProof.v
theories/Props_rangetext.v
theories/CommonSpec.v
theories/CommonProof.v
theories/CommonSegProof.v
theories/Props_common.v
theories/LineSpec.v
theories/LineProof.v
theories/Props_index.v
theories/AgainSpec.v
theories/Props_again.v
theories/SuffixTextModel.v
theories/SuffixTextSpec.v
theories/SuffixTextProof.v
theories/Props_suffixtext.v
theories/QueryModel.v
theories/QuerySpec.v
theories/PhraseModel.v
theories/PhraseSpec.v
theories/PhraseProof.v
theories/QueryProof.v
theories/Props_query.v
theories/Props_phrase.v
theories/ScorerModel.v
theories/ScorerSpec.v
theories/ScorerProof.v
theories/Props_scorer.v
theories/SizeSpec.v
theories/SizeProof.v
theories/Props_size.v
theories/ShapeProof.v
theories/ChangeSpec.v
theories/ChangeProof.v
theories/Props_shape.v
theories/StrangerProof.v
theories/Props_stranger.v
theories/ExtremesProof.v
theories/Props_extremes.v
theories/HtmlLibModel.v
theories/HtmlLibSpec.v
theories/HtmlLibProof.v
theories/Props_htmllib.v
theories/ExtBlockModel.v
theories/Props_extblock.v
theories/TextErrSpec.v
theories/TextErrProof.v
theories/Props_texterr.v
theories/UnnamedSpec.v
theories/UnnamedProof.v
theories/UnnamedJoin.v
theories/UnnamedTable.v
theories/Props_unnamed.v
theories/Props_between.v
theories/RangeArgModel.v
theories/RangeArgSpec.v
theories/Props_rangearg.v
theories/CutSpec.v
theories/CutProof.v
theories/Props_cut.v
theories/AnyDataModel.v
theories/AnyDataSpec.v
theories/AnyDataProof.v
theories/Props_anydata.v
theories/Props_narrow.v
theories/Props_graphsize.v
theories/RangeFoldSpec.v
theories/RangeFoldProof.v
theories/Props_fold.v
theories/Props_exact.v
theories/RangeOldModel.v
theories/RangeOldSpec.v
theories/Props_oldrange.v
theories/SuffixDepthModel.v
theories/Props_longtext.v
theories/SegTableSpec.v
theories/SegTableProof.v
theories/Props_segtable.v
theories/NearTableSpec.v
theories/NearTableProof.v
theories/NearLayoutProof.v
theories/Props_neartable.v
theories/ProgSpec.v
theories/ProgProof.v
theories/Props_chosen.v
theories/Props_prog.v
theories/ProgTwo.v
theories/Props_three.v
theories/SegProgSpec.v
theories/SegProgProof.v
theories/Props_segprog.v
theories/AnyProgSpec.v
theories/AnyProgProof.v
theories/Props_anyprog.v
theories/NestedProof.v
theories/Props_nested.v
theories/FiltProgSpec.v
theories/FiltProgProof.v
theories/Props_filtprog.v
theories/NearSideSpec.v
theories/NearSideProof.v
theories/NearKeepProof.v
theories/Props_nearside.v
theories/PassageProof.v
theories/Props_passage.v
theories/SplitSpec.v
theories/SplitProof.v
theories/Props_split.v
theories/NearSplitProof.v
theories/Props_nearsplit.v
theories/HeurModel.v
theories/Props_heur.v
theories/TraceModel.v
theories/TraceProof.v
theories/Props_trace.v
theories/Tests.v
theories/DictErrSpec.v
theories/Props_dicterr.v
theories/NearRowSpec.v
theories/NearRowProof.v
theories/Props_nearrows.v
