-Q theories Verif
theories/QueryModel.v
theories/QuerySpec.v
theories/QueryProofs.v
theories/QueryProps.v
theories/ItrModel.v
theories/ItrSpec.v
theories/ItrProofs.v
theories/CompProofs.v
theories/ScanProofs.v
theories/ArrayModel.v
theories/ArrayProofs.v
theories/ItrProps.v
theories/TableModel.v
theories/ColumnModel.v
theories/TableSpec.v
theories/TableProofs.v
theories/RowProofs.v
theories/ClusterProofs.v
theories/ColumnProofs.v
theories/TableProps.v
theories/StrategyModel.v
theories/StrategyProofs.v
theories/StrategyProps.v
theories/FileModel.v
theories/FileSpec.v
theories/FileProofs.v
theories/FileProps.v
theories/InserterModel.v
theories/InserterSpec.v
theories/InserterProofs.v
theories/InserterProps.v
theories/PipeModel.v
theories/PipeProofs.v
theories/PipeProps.v
theories/UtilModel.v
theories/UtilSpec.v
theories/UtilProofs.v
theories/UtilProps.v
theories/ConcModel.v
theories/ConcProps.v
theories/SessModel.v
theories/SessSpec.v
theories/SessProofs.v
theories/SessProps.v
theories/NotInModel.v
theories/NotInProps.v
theories/EdgeModel.v
theories/EdgeSpec.v
theories/EdgeProofs.v
theories/EdgeProps.v
theories/CardModel.v
theories/CardSpec.v
theories/CardProps.v
theories/AggrModel.v
theories/AggrSpec.v
theories/AggrProps.v
theories/OpModel.v
theories/OpSpec.v
theories/OpProofs.v
theories/OpProofs2.v
theories/OpProofs3.v
theories/OpProofs4.v
theories/OpProofs5.v
theories/OpProofs6.v
theories/OpProofs7.v
theories/OpProps.v
theories/OpProps2.v
theories/OpHashModel.v
theories/OpHashProofs.v
theories/OpHashProofs2.v
theories/OpHashProps.v
theories/OpMergeModel.v
theories/OpMergeProofs.v
theories/OpMergeProofs2.v
theories/OpMergeProps.v
theories/TreeModel.v
theories/TreeSpec.v
theories/TreeProofs.v
theories/TreeProofs2.v
theories/TreeProofs3.v
theories/TreeProofs4.v
theories/TreeProps.v
theories/TreeImageModel.v
theories/TreeImageSpec.v
theories/TreeImageProofs.v
theories/TreeImageProofs2.v
theories/TreeImageProps.v
theories/StrModel.v
theories/StrSpec.v
theories/StrProofs.v
theories/StrProofs2.v
theories/StrProofs3.v
theories/StrProofs4.v
theories/StrProofs5.v
theories/StrProofs6.v
theories/StrProofs7.v
theories/StrProofs8.v
theories/StrProofs9.v
theories/StrProps.v
theories/StrCloseModel.v
theories/StrCloseProofs.v
theories/StrCloseProps.v
theories/UpdModel.v
theories/UpdSpec.v
theories/UpdProofs.v
theories/UpdProofs2.v
theories/UpdProofs3.v
theories/UpdProps.v
theories/DictModel.v
theories/DictSpec.v
theories/DictProofs.v
theories/DictProofs2.v
theories/DictProps.v
theories/TextSpec.v
theories/TextProps.v
theories/CrashModel.v
theories/CrashProps.v
theories/DiffModel.v
theories/DiffProofs.v
theories/DiffProofs2.v
theories/DiffProps.v
theories/NodeModel.v
theories/NodeSpec.v
theories/NodeProofs.v
theories/NodeProofs2.v
theories/NodeProps.v
theories/SortModel.v
theories/SortSpec.v
theories/SortProofs.v
theories/SortProofs2.v
theories/SortProofs3.v
theories/SortProps.v
theories/FlatModel.v
theories/FlatProofs.v
theories/FlatProofs2.v
theories/KbModel.v
theories/KbProofs.v
theories/KbProofs2.v
theories/KbProofs3.v
theories/KbProofs4.v
theories/KbSpec.v
theories/KbProofs5.v
theories/KbProofs6.v
theories/KbProofs7.v
theories/KbProofs8.v
theories/FlatProofs3.v
theories/KbProps.v
theories/FlatProps.v
theories/TupleModel.v
theories/TupleSpec.v
theories/TupleProofs.v
theories/TupleProps.v
theories/HjModel.v
theories/HjSpec.v
theories/HjProofs.v
theories/HjProps.v
theories/TermModel.v
theories/TermSpec.v
theories/TermProofs.v
theories/TermProps.v
theories/DomModel.v
theories/DomSpec.v
theories/DomProofs.v
theories/DomProps.v
theories/TsModel.v
theories/TsSpec.v
theories/TsProofs.v
theories/TsProofs2.v
theories/TsProofs3.v
theories/TsKbModel.v
theories/TsProps.v
theories/CidxModel.v
theories/CidxSpec.v
theories/CidxProofs.v
theories/CidxProofs2.v
theories/CidxProofs3.v
theories/CidxProps.v
theories/UpdKbModel.v
theories/UpdKbSpec.v
theories/UpdKbProofs.v
theories/UpdKbProofs2.v
theories/UpdKbProps.v
theories/TallySpec.v
theories/TallyProofs.v
theories/TallyProofs2.v
theories/TallyProofs3.v
theories/TallyProps.v
theories/SelModel.v
theories/SelSpec.v
theories/SelProofs.v
theories/SelProps.v
theories/PlanModel.v
theories/PlanSpec.v
theories/PlanProofs.v
theories/PlanProofs2.v
theories/PlanProofs3.v
theories/PlanProofs4.v
theories/PlanProofs5.v
theories/PlanProofs6.v
theories/PlanProps.v
theories/PlanGenModel.v
theories/PlanGenProofs.v
theories/PlanGenProps.v
theories/QgModel.v
theories/QgProps.v
theories/PlanUpdModel.v
theories/PlanUpdProps.v
theories/AggModel.v
theories/AggSpec.v
theories/AggProofs.v
theories/AggProofs2.v
theories/AggProps.v
theories/FullModel.v
theories/FullProofs.v
theories/FullProps.v
theories/FiltModel.v
theories/FiltSpec.v
theories/FiltProofs.v
theories/FiltProps.v
theories/FiltUpdProps.v
theories/PushModel.v
theories/PushProofs.v
theories/PushProofs2.v
theories/PushProofs3.v
theories/PushProps.v
theories/PushUpdProps.v
theories/DistModel.v
theories/DistProofs.v
theories/DistProps.v
theories/PrintProps.v
theories/DistUpdProps.v
theories/OrdModel.v
theories/OrdProofs.v
theories/OrdProps.v
