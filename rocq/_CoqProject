-Q theories Verif
theories/Base.v
theories/LinearIndexModel.v
theories/LinearIndexSpec.v
theories/LinearIndexProofs.v
theories/LinearIndexProps.v
theories/ShapeToolsModel.v
theories/ShapeToolsProofs.v
theories/ShapeToolsSpec.v
theories/ShapeToolsProps.v
theories/Int128Model.v
theories/Int128Proofs.v
theories/Int128Spec.v
theories/Int128Props.v
theories/HalfModel.v
theories/HalfProofs.v
theories/HalfSpec.v
theories/HalfProps.v
theories/ParseIntModel.v
theories/ParseIntProofs.v
theories/ParseIntProps.v
theories/ParseIntSpec.v
theories/EncodingModel.v
theories/EncodingProofs.v
theories/EncodingSpec.v
theories/EncodingProps.v
theories/ScanModel.v
theories/ScanProofs.v
theories/ScanSpec.v
theories/ScanProps.v
theories/EscapeModel.v
theories/EscapeProofs.v
theories/EscapeProps.v
theories/EscapeSpec.v
theories/StrSearchModel.v
theories/StrSearchProofs.v
theories/StrSearchSpec.v
theories/StrSearchProofs2.v
theories/StrSearchProps.v
theories/SsoModel.v
theories/SsoSpec.v
theories/SsoProofs.v
theories/SsoProofs2.v
theories/SsoProofs3.v
theories/SsoProofs4.v
theories/SsoProofs5.v
theories/SsoProps.v
theories/ArenaModel.v
theories/ArenaProofs.v
theories/ArenaProofs2.v
theories/ArenaProps.v
theories/ArenaSpec.v
theories/DispatchModel.v
theories/DispatchProofs.v
theories/DispatchProofs2.v
theories/DispatchProofs3.v
theories/DispatchProps.v
theories/DispatchSpec.v
theories/PromoteModel.v
theories/PromoteProofs.v
theories/PromoteProofs2.v
theories/PromoteProps.v
theories/PromoteSpec.v
theories/TypesModel.v
theories/RegistryModel.v
theories/RegistryProofs.v
theories/RegistryProps.v
theories/RegistrySpec.v
theories/RefCountModel.v
theories/RefCountProofs.v
theories/RefCountProofs2.v
theories/RefCountProofs3.v
theories/RefCountProofs4.v
theories/RefCountProofs5.v
theories/RefCountProps.v
theories/RefCountSpec.v
theories/RefCountEffect.v
theories/LayoutModel.v
theories/LayoutProofs.v
theories/LayoutProofs2.v
theories/LayoutProofs3.v
theories/LayoutProofs4.v
theories/LayoutProofs5.v
theories/LayoutProps.v
theories/LayoutSpec.v
theories/IndexModel.v
theories/IndexProofs.v
theories/IndexProofs2.v
theories/IndexProofs3.v
theories/IndexProofs4.v
theories/IndexProofs5.v
theories/IndexProofs6.v
theories/IndexProps.v
theories/IndexSpec.v
theories/MatchModel.v
theories/MatchSpec.v
theories/MatchProofs.v
theories/MatchProofs2.v
theories/MatchProofs3.v
theories/MatchProofs4.v
theories/MatchProofs5.v
theories/MatchProofs6.v
theories/MatchProofs7.v
theories/MatchProps.v
theories/AssignModel.v
theories/AssignProofs.v
theories/AssignProofs2.v
theories/AssignProofs3.v
theories/AssignProofs4.v
theories/AssignProps.v
theories/AssignSpec.v
theories/StridedModel.v
theories/StridedProofs.v
theories/StridedProofs2.v
theories/StridedProofs3.v
theories/StridedProofs4.v
theories/StridedProofs5.v
theories/StridedProofs6.v
theories/StridedProps.v
theories/StridedSpec.v
theories/ElwiseModel.v
theories/ElwiseProofs.v
theories/ElwiseProofs2.v
theories/ElwiseProofs3.v
theories/ElwiseProofs4.v
theories/ElwiseProofs5.v
theories/ElwiseProps.v
theories/ElwiseSpec.v
theories/OptionModel.v
theories/OptionProofs.v
theories/OptionSpec.v
theories/OptionProps.v
theories/SearchModel.v
theories/SearchSpec.v
theories/SearchProofs.v
theories/SearchProofs2.v
theories/SearchProps.v
theories/ReduceModel.v
theories/ReduceProofs.v
theories/ReduceProofs2.v
theories/ReduceSpec.v
theories/ReduceProps.v
theories/DatashapeModel.v
theories/DatashapeProofs.v
theories/DatashapeSpec.v
theories/DatashapeRead.v
theories/DatashapePrint.v
theories/DatashapeTotal.v
theories/DatashapeAlias.v
theories/DatashapeProps.v
theories/DatashapeSound.v
theories/JsonError.v
theories/JsonFormat.v
theories/JsonModel.v
theories/JsonParse.v
theories/JsonProofs.v
theories/JsonProps.v
theories/JsonRead.v
theories/JsonSpec.v
theories/JsonTotal.v
theories/LosslessModel.v
theories/LosslessProofs.v
theories/LosslessSpec.v
theories/LosslessProps.v
theories/IterModel.v
theories/IterProofs.v
theories/IterProofs2.v
theories/IterProps.v
theories/IterSpec.v
theories/RangeModel.v
theories/RangeProps.v
theories/RangeSpec.v
theories/ViewsModel.v
theories/ViewsProofs.v
theories/ViewsProofs2.v
theories/ViewsProps.v
theories/ViewsSpec.v
theories/ArithModel.v
theories/ArithProofs.v
theories/ArithProps.v
theories/ArithSpec.v
theories/FlowModel.v
theories/FlowProofs.v
theories/FlowProps.v
theories/FlowSpec.v
theories/KeepModel.v
theories/KeepProofs.v
theories/KeepProps.v
theories/KeepSpec.v
theories/CallModel.v
theories/CallProofs.v
theories/CallProps.v
theories/CallSpec.v
theories/SwapModel.v
theories/SwapProofs.v
theories/SwapSpec.v
theories/SwapProps.v
theories/BufModel.v
theories/BufProofs.v
theories/BufSpec.v
theories/BufProps.v
theories/ShortVecModel.v
theories/ShortVecSpec.v
theories/ShortVecMulti.v
theories/ShortVecProofs.v
theories/ShortVecProps.v
theories/TextParseModel.v
theories/TextParseSpec.v
theories/TextParseMore.v
theories/TextParseProofs.v
theories/TextParseAgree.v
theories/TextParseProps.v
theories/CatModel.v
theories/CatProofs.v
theories/CatProps.v
theories/CatSpec.v
theories/FixedStrModel.v
theories/FixedStrProofs.v
theories/FixedStrProps.v
theories/FixedStrSpec.v
theories/NestModel.v
theories/NestProofs.v
theories/NestProps.v
theories/NestSpec.v
theories/WalkModel.v
theories/WalkProofs.v
theories/WalkSpec.v
theories/WalkProps.v
theories/LinspaceModel.v
theories/LinspaceProofs.v
theories/LinspaceSpec.v
theories/LinspaceProps.v
theories/ConcatModel.v
theories/ConcatProofs.v
theories/ConcatProps.v
theories/ComplexModel.v
theories/ComplexProps.v
theories/ComplexLawsProps.v
