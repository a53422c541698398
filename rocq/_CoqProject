-Q theories Verif
theories/Base.v
theories/DodModel.v
theories/DodSpec.v
theories/DodProofs.v
theories/DodProps.v
theories/TreeModel.v
theories/TreeSpec.v
theories/TreeProofs.v
theories/TreeProps.v
theories/LexModel.v
theories/LexSpec.v
theories/LexProofs.v
theories/LexProps.v
theories/SetModel.v
theories/SetSpec.v
theories/SetProofs.v
theories/SetProps.v
theories/SliceModel.v
theories/SliceSpec.v
theories/SliceProofs.v
theories/SliceProps.v
theories/RangeModel.v
theories/RangeSpec.v
theories/RangeProofs.v
theories/RangeProps.v
theories/TrackModel.v
theories/TrackSpec.v
theories/TrackProofs.v
theories/TrackProps.v
theories/OrderModel.v
theories/OrderSpec.v
theories/OrderProofs.v
theories/OrderProps.v
theories/StrModel.v
theories/StrSpec.v
theories/StrProofs.v
theories/Utf8Proofs.v
theories/StrProps.v
theories/BimapModel.v
theories/BimapSpec.v
theories/BimapProofs.v
theories/BimapProps.v
theories/DiffModel.v
theories/DiffSpec.v
theories/LevProofs.v
theories/MyersProofs.v
theories/LcsProofs.v
theories/FuzzyProofs.v
theories/DiffProps.v
theories/HierModel.v
theories/HierSpec.v
theories/HierProofs.v
theories/HierQueries.v
theories/HierProps.v
theories/EdgeModel.v
theories/EdgeSpec.v
theories/EdgeProofs.v
theories/EdgeProps.v
theories/PortModel.v
theories/PortProofs.v
theories/PortProps.v
theories/LayoutModel.v
theories/LayoutSpec.v
theories/LayoutProofs.v
theories/LayoutSums.v
theories/LayoutLine.v
theories/LayoutBlocks.v
theories/LayoutPrint.v
theories/LayoutProps.v
theories/ImmModel.v
theories/ImmSpec.v
theories/ImmProofs.v
theories/ImmAssign.v
theories/ImmCascade.v
theories/ImmList.v
theories/ImmProps.v
theories/CommentModel.v
theories/CommentSpec.v
theories/CommentProofs.v
theories/CommentProps.v
theories/RadioModel.v
theories/RadioSpec.v
theories/RadioProofs.v
theories/RadioProps.v
theories/ParaModel.v
theories/ParaSpec.v
theories/ParaProofs.v
theories/ParaProps.v
theories/AttrModel.v
theories/AttrSpec.v
theories/AttrProofs.v
theories/AttrProps.v
theories/LoadModel.v
theories/LoadSpec.v
theories/LoadProofs.v
theories/LoadProps.v
theories/MmapModel.v
theories/MmapSpec.v
theories/MmapProofs.v
theories/MmapProps.v
theories/TokKind.v
theories/TokModel.v
theories/TokSpec.v
theories/TokProofs.v
theories/TokRun.v
theories/TokProse.v
theories/TokProps.v
theories/RegroupModel.v
theories/RegroupSpec.v
theories/RegroupProofs.v
theories/RegroupProps.v
theories/TokKinds.v
theories/RegroupTotal.v
theories/RecombSpec.v
theories/RecombProofs.v
theories/MarkProofs.v
theories/RecombProps.v
theories/NodeKind.v
theories/KindEq.v
theories/ParseModel.v
theories/ParseSpec.v
theories/ParseLogic.v
theories/ParseText.v
theories/ParseFold.v
theories/ParseStmt.v
theories/ParseProofs.v
theories/ParseNest.v
theories/ParseLoop.v
theories/ParseProps.v
theories/LayoutKindSpec.v
theories/ParseShape.v
theories/ParseShapeText.v
theories/ParseShapeFold.v
theories/ParseShapeStmt.v
theories/ParseHead.v
theories/ParseHeadProps.v
theories/ConvModel.v
theories/ConvSpec.v
theories/ConvProofs.v
theories/ConvMeans.v
theories/ConvWords.v
theories/ConvAttach.v
theories/ConvDoc.v
theories/ConvProps.v
theories/SliceStrModel.v
theories/SliceStrProps.v
theories/EagerModel.v
theories/EagerSpec.v
theories/EagerProofs.v
theories/EagerProps.v
theories/AstDiffModel.v
theories/AstDiffSpec.v
theories/AstDiffTree.v
theories/AstDiffMap.v
theories/AstDiffZs.v
theories/AstDiffDist.v
theories/AstDiffMarks.v
theories/AstDiffReports.v
theories/AstDiffSame.v
theories/AstDiffOrder.v
theories/AstDiffSem.v
theories/AstDiffProps.v
theories/AstDiffRead.v
theories/ConvTexts.v
theories/PlainSpec.v
theories/PlainLex.v
theories/PlainParse.v
theories/PlainConv.v
theories/PlainNest.v
theories/PlainProps.v
theories/LayoutTextSpec.v
theories/LayoutText.v
theories/LayoutTextProps.v
theories/LayoutOrder.v
theories/FormatModel.v
theories/FormatSpec.v
theories/FormatBlock.v
theories/FormatPlain.v
theories/FormatWords.v
theories/FormatProps.v
theories/WriteSpec.v
theories/WriteBlock.v
theories/WriteProofs.v
theories/WriteProps.v
theories/EvalModel.v
theories/EvalSpec.v
theories/EvalProofs.v
theories/EvalProps.v
theories/JsonModel.v
theories/JsonSpec.v
theories/JsonProofs.v
theories/JsonProps.v
theories/DemoteModel.v
theories/DemoteSpec.v
theories/DemoteProofs.v
theories/DemoteTree.v
theories/DemoteMain.v
theories/DemoteDone.v
theories/DemoteProps.v
theories/WrapModel.v
theories/WrapSpec.v
theories/WrapProofs.v
theories/WrapNum.v
theories/WrapTable.v
theories/WrapProps.v
theories/PathsModel.v
theories/PathsSpec.v
theories/PathsProofs.v
theories/PathsTree.v
theories/PathsProps.v
theories/KeysModel.v
theories/KeysSpec.v
theories/KeysProofs.v
theories/KeysProps.v
theories/ShowModel.v
theories/ShowSpec.v
theories/ShowProofs.v
theories/ShowProps.v
theories/ReportModel.v
theories/ReportSpec.v
theories/ReportProofs.v
theories/ReportGroups.v
theories/ReportProps.v
theories/TimeModel.v
theories/TimeSpec.v
theories/TimeProofs.v
theories/TimeProps.v
theories/PropModel.v
theories/PropSpec.v
theories/PropProofs.v
theories/PropRead.v
theories/PropWrite.v
theories/PropAgain.v
theories/PropWrong.v
theories/PropProps.v
theories/PropLex.v
theories/LogModel.v
theories/LogSpec.v
theories/LogProofs.v
theories/LogProps.v
theories/OptModel.v
theories/OptSpec.v
theories/OptProofs.v
theories/OptProps.v
theories/AttachModel.v
theories/AttachSpec.v
theories/AttachProofs.v
theories/AttachProps.v
theories/EditModel.v
theories/EditSpec.v
theories/EditProofs.v
theories/EditProps.v
theories/ColModel.v
theories/ColSpec.v
theories/ColProofs.v
theories/ColProps.v
theories/SpanModel.v
theories/SpanSpec.v
theories/SpanProofs.v
theories/SpanProps.v
theories/XmlModel.v
theories/XmlSpec.v
theories/XmlProofs.v
theories/XmlProps.v
