-Q theories Verif
theories/Base.v
theories/OriginModel.v
theories/OriginSpec.v
theories/OriginProofs.v
theories/OriginProps.v
theories/InfixModel.v
theories/InfixSpec.v
theories/InfixProofs.v
theories/InfixProps.v
theories/UtilModel.v
theories/UtilSpec.v
theories/UtilProofs.v
theories/UtilProps.v
theories/DescModel.v
theories/TokensModel.v
theories/ParseFormulaModel.v
theories/TokensSpec.v
theories/TokensProofs.v
theories/TokensProps.v
theories/ParseFormulaSpec.v
theories/ParseFormulaProofs.v
theories/ParseFormulaProps.v
theories/IntSpec.v
theories/IntProofs.v
theories/DescSpec.v
theories/DescProofs.v
theories/DescTopProofs.v
theories/FormulaModel.v
theories/FormulaSpec.v
theories/FormulaProofs.v
theories/DescribeProofs.v
theories/DescProps.v
theories/PySort.v
theories/RedundancyModel.v
theories/RedundancySpec.v
theories/SubsetsProofs.v
theories/RedundancyProofs.v
theories/PickProofs.v
theories/RankSpec.v
theories/RankProofs.v
theories/RankTopProofs.v
theories/SimplifyProofs.v
theories/RedundancyProps.v
theories/RankProps.v
theories/NumModel.v
theories/ContrastModel.v
theories/ContrastSpec.v
theories/ContrastProofs.v
theories/ContrastMatProofs.v
theories/ContrastTopProofs.v
theories/ContrastProps.v
theories/ConstraintModel.v
theories/ConstraintSpec.v
theories/ConstraintLexProofs.v
theories/ConstraintProofs.v
theories/ConstraintTopProofs.v
theories/ConstraintProps.v
theories/BuildModel.v
theories/BuildSpec.v
theories/BuildProofs.v
theories/BuildSubtermProofs.v
theories/BuildInfoProofs.v
theories/BuildMatrixProofs.v
theories/BuildAllProofs.v
theories/BuildTopProofs.v
theories/BuildOrderProofs.v
theories/BuildSubsetProofs.v
theories/BuildDesignProofs.v
theories/BuildChunkProofs.v
theories/BuildProps.v
theories/MemorizeModel.v
theories/MemorizeSpec.v
theories/MemorizeProofs.v
theories/MemorizeProps.v
theories/EvalModel.v
theories/EvalSpec.v
theories/EvalTextProofs.v
theories/EvalMarkProofs.v
theories/EvalCaptureProofs.v
theories/EvalBinsProofs.v
theories/EvalProofs.v
theories/EvalTopProofs.v
theories/EvalEnvProofs.v
theories/PyExprModel.v
theories/PyExprSpec.v
theories/PyExprProofs.v
theories/PyLexModel.v
theories/PyLexSpec.v
theories/PyLexProofs.v
theories/EvalLexProofs.v
theories/EvalProps.v
theories/CategoricalModel.v
theories/CategoricalSpec.v
theories/CategoricalKeyProofs.v
theories/CategoricalProofs.v
theories/CategoricalSortProofs.v
theories/CategoricalCodeProofs.v
theories/CategoricalTypeProofs.v
theories/CategoricalProps.v
theories/StateModel.v
theories/StateSpec.v
theories/StateProofs.v
theories/StateProps.v
theories/MiscModel.v
theories/MiscSpec.v
theories/MiscFmtProofs.v
theories/MiscProofs.v
theories/MiscDemoProofs.v
theories/MiscProps.v
theories/SplineModel.v
theories/SplineNumProofs.v
theories/SplineSpec.v
theories/SplineProofs.v
theories/SplineProps.v
theories/LinModel.v
theories/LinProofs.v
theories/BsModel.v
theories/BsSpec.v
theories/BsProofs.v
theories/BsProps.v
theories/CrsProofs.v
theories/CrsProps.v
theories/CrsSpec.v
theories/CrsCurveProofs.v
theories/CrsSolveProofs.v
theories/CrsSplineProofs.v
theories/CrsCyclicProofs.v
theories/QrProofs.v
theories/CrsConsProofs.v
theories/CrsFinalProofs.v
theories/CrsCenterProofs.v
theories/CrsFewProofs.v
theories/CrsSplineProps.v
theories/PipeModel.v
theories/PipeSpec.v
theories/PipeProofs.v
theories/PipeHighProofs.v
theories/PipeProps.v
theories/PipeSeedSpec.v
theories/PipeSeedProofs.v
theories/PipeSeedTopProofs.v
theories/PipeSeedProps.v
theories/PolyModel.v
theories/PolySpec.v
theories/PolyProofs.v
theories/PolyQrProofs.v
theories/PolyProps.v
theories/ChoiceModel.v
theories/ChoiceSpec.v
theories/ChoiceProofs.v
theories/ChoiceProps.v
theories/FrameModel.v
theories/FrameSpec.v
theories/FrameProofs.v
theories/FrameProps.v
theories/FitModel.v
theories/FitSpec.v
theories/FitProofs.v
theories/FitProps.v
theories/SplitSpec.v
theories/SplitProofs.v
theories/SplitProps.v
theories/EntryModel.v
theories/EntrySpec.v
theories/EntryProofs.v
theories/EntryFitProofs.v
theories/EntryProps.v
theories/RankMatLinProofs.v
theories/RankMatSpec.v
theories/RankMatProofs.v
theories/RankPipeSpec.v
theories/RankPipeProofs.v
theories/RankMatProps.v
theories/CodeModel.v
theories/CodeSpec.v
theories/CodeTreeProofs.v
theories/CodeProofs.v
theories/CodeEvalProofs.v
theories/CodeTopProofs.v
theories/CodeEntryProofs.v
theories/CodeProps.v
theories/IncrModel.v
theories/IncrSpec.v
theories/IncrProofs.v
theories/IncrClassSpec.v
theories/IncrClassProofs.v
theories/IncrProps.v
theories/PipeExplicitProofs.v
theories/PipeExplicitProps.v
theories/ReprModel.v
theories/ReprSpec.v
theories/ReprProofs.v
theories/ReprProps.v
theories/WriteModel.v
theories/WriteSpec.v
theories/WriteProofs.v
theories/WriteProps.v
theories/LookupModel.v
theories/LookupProps.v
theories/DDescModel.v
theories/DDescProofs.v
theories/DDescProps.v
theories/SubsetSpec.v
theories/SubsetProofs.v
theories/SubsetProps.v
theories/TextModel.v
theories/TextSpec.v
theories/TextProofs.v
theories/TextSameProofs.v
theories/TextBackProofs.v
theories/TextErrProofs.v
theories/TextOpenProofs.v
theories/TextProps.v
theories/ErrPlaceProofs.v
theories/ErrTextModel.v
theories/ErrTextSpec.v
theories/ErrTextProofs.v
theories/ErrTextProps.v
theories/SpacingSpec.v
theories/SpacingProofs.v
theories/SpacingProps.v
theories/WidthProofs.v
theories/WidthProps.v
theories/ArrangeSpec.v
theories/ArrangeProofs.v
theories/ArrangeFitProofs.v
theories/ArrangeProps.v
theories/BuildErrProofs.v
theories/PipeErrSpec.v
theories/PipeErrProofs.v
theories/PipeErrProps.v
theories/KnotSpec.v
theories/KnotProofs.v
theories/KnotProps.v
theories/ODictModel.v
theories/ODictSpec.v
theories/ODictProofs.v
theories/ODictProps.v
theories/LayoutSpec.v
theories/LayoutProofs.v
theories/LayoutProps.v
theories/SubsetAloneSpec.v
theories/SubsetAloneProofs.v
theories/SubsetAloneProps.v
theories/NameSpec.v
theories/NameTextProofs.v
theories/NameStructProofs.v
theories/NameBuildProofs.v
theories/NameProofs.v
theories/NameProps.v
theories/MadeSpec.v
theories/MadeProofs.v
theories/MadeHighProofs.v
theories/MadeProps.v
theories/ShowModel.v
theories/ShowSpec.v
theories/ShowProofs.v
theories/ShowProps.v
theories/SpaceSpec.v
theories/SpaceProofs.v
theories/SpaceProps.v
theories/DropSpec.v
theories/DropProofs.v
theories/DropProps.v
theories/ApartProofs.v
theories/ApartProps.v
theories/LaterSpec.v
theories/LaterProofs.v
theories/LaterProps.v
theories/SourceProofs.v
theories/SourceTextProofs.v
theories/SourceSpec.v
theories/SourceProps.v
theories/SourceEnvProofs.v
theories/NaProofs.v
theories/NaProps.v
theories/AffineSpec.v
theories/AffineProofs.v
theories/AffineProps.v
theories/BsCurveSpec.v
theories/BsCurveProofs.v
theories/BsDimProofs.v
theories/BsCurveProps.v
theories/TeSpec.v
theories/TeProofs.v
theories/TeProps.v
theories/UnitSpec.v
theories/UnitProofs.v
theories/UnitStdProofs.v
theories/UnitProps.v
theories/AttrModel.v
theories/AttrProps.v
theories/BsLocalProps.v
theories/BsNestProps.v
theories/CrsNestProofs.v
theories/CrsNestProps.v
