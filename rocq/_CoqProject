-Q theories Verif

theories/PyBase.v
theories/PyBaseProof.v
theories/HeapModel.v
theories/HeapSpec.v
theories/HeapProof.v
theories/HeapProps.v
theories/SchedModel.v
theories/SchedSpec.v
theories/SchedProof.v
theories/SchedProof2.v
theories/SchedProof3.v
theories/SchedProps.v
theories/PyDict.v
theories/PyDictProof.v
theories/GraphModel.v
theories/GraphSpec.v
theories/GraphSpec2.v
theories/GraphProof1.v
theories/GraphProof2.v
theories/GraphProof3.v
theories/GraphProof4.v
theories/GraphProof5.v
theories/GraphProof6.v
theories/GraphProof7.v
theories/GraphProof8.v
theories/GraphProof9.v
theories/GraphProps.v
theories/GraphProps2.v
theories/GraphProps3.v
theories/GraphProps4.v
theories/ShowModel.v
theories/ShowProps.v
theories/GraphlibSpec.v
theories/GraphlibProof.v
theories/GraphlibCycle.v
theories/GraphlibProps.v
theories/StateModel.v
theories/StateSpec.v
theories/StateProof.v
theories/StateProof2.v
theories/StateProps.v
theories/PyStr.v
theories/PyStrProof.v
theories/Regex.v
theories/RegexProof.v
theories/VersionModel.v
theories/VersionProof.v
theories/VersionSpec.v
theories/VersionParse.v
theories/VersionProof2.v
theories/VersionProof3.v
theories/VersionProps.v
theories/SplitModel.v
theories/SplitSpec.v
theories/SplitProof.v
theories/SplitProof2.v
theories/SplitProof3.v
theories/SplitProps.v
theories/DelimModel.v
theories/DelimSpec.v
theories/DelimProof.v
theories/DelimProof2.v
theories/DelimProof3.v
theories/DelimProof4.v
theories/DelimProof5.v
theories/DelimProof6.v
theories/DelimProps.v
theories/DelimScanSpec.v
theories/DelimScanProof.v
theories/DelimScanProof2.v
theories/DelimProps2.v
theories/LinesModel.v
theories/LinesSpec.v
theories/LinesProof.v
theories/LinesProof2.v
theories/LinesProof3.v
theories/LinesProps.v
theories/LinesSpec2.v
theories/LinesProps2.v
theories/LinesSpec3.v
theories/LinesProps3.v
theories/LinesProps4.v
theories/LazyModel.v
theories/LazySpec.v
theories/LazyProof.v
theories/LazyProps.v
theories/DeprModel.v
theories/DeprSpec.v
theories/DeprProof.v
theories/DeprProof2.v
theories/DeprProps.v
theories/DeprProof3.v
theories/DeprProps2.v
theories/WordsModel.v
theories/WordsSpec.v
theories/WordsProof.v
theories/WordsProof2.v
theories/WordsProof3.v
theories/WordsProps.v
theories/IntWordsModel.v
theories/IntWordsSpec.v
theories/IntWordsProof.v
theories/IntWordsProps.v
theories/CombineModel.v
theories/CombineSpec.v
theories/CombineProof.v
theories/CombineProps.v
theories/PushbackModel.v
theories/PushbackSpec.v
theories/PushbackProps.v
theories/LogModel.v
theories/LogSpec.v
theories/LogProps.v
theories/FilenameModel.v
theories/FilenameSpec.v
theories/FilenameProps.v
theories/FilenameProps2.v
theories/RefindModel.v
theories/RefindSpec.v
theories/RefindProof.v
theories/RefindProof2.v
theories/RefindRegex.v
theories/RefindProps.v
theories/RefindSpec2.v
theories/RefindProps2.v
theories/RefindProps3.v
theories/SplitSpec2.v
theories/SplitProof4.v
theories/SplitProps2.v
theories/VersionProof4.v
theories/VersionProps2.v
theories/VersionProps4.v
theories/VersionProps5.v
theories/GrepModel.v
theories/GrepSpec.v
theories/GrepProof.v
theories/GrepProps.v
theories/FsModel.v
theories/FsSpec.v
theories/FsProof.v
theories/FsProps.v
theories/FsSpec2.v
theories/FsProps2.v
theories/FsSpec3.v
theories/FsProps3.v
theories/TextCodeModel.v
theories/TextCodeSpec.v
theories/TextCodeProof.v
theories/TextCodeProof2.v
theories/TextCodeProof3.v
theories/TextCodeProps.v
theories/TextCodeProps2.v
theories/TextCodeProps3.v
theories/MergeModel.v
theories/MergeSpec.v
theories/MergeProof.v
theories/MergeProof2.v
theories/MergeProof3.v
theories/MergeProps.v
theories/BicModel.v
theories/BicSpec.v
theories/BicSpec2.v
theories/BicProof.v
theories/BicProof2.v
theories/BicProof3.v
theories/BicProps.v
theories/BicProps2.v
theories/NumModel.v
theories/NumSpec.v
theories/NumProps.v
theories/TimeModel.v
theories/TimeSpec.v
theories/TimeProof.v
theories/TimeProof2.v
theories/TimeProps.v
theories/TimeProps2.v
theories/EncodeModel.v
theories/EncodeSpec.v
theories/EncodeProof.v
theories/EncodeProof2.v
theories/EncodeProps.v
theories/ConstModel.v
theories/ConstSpec.v
theories/ConstProps.v
theories/SplitSpec3.v
theories/SplitProps3.v
theories/SplitProps4.v
theories/SplitSpec4.v
theories/SplitProps5.v
theories/SplitSpec6.v
theories/SplitProof6.v
theories/SplitProps6.v
theories/AccessModel.v
theories/AccessSpec.v
theories/AccessProps.v
theories/DateModel.v
theories/DateSpec.v
theories/DateProps.v
theories/TypedModel.v
theories/TypedSpec.v
theories/TypedProps.v
theories/TypedSpec2.v
theories/TypedProof.v
theories/TypedProps2.v
theories/DargModel.v
theories/DargSpec.v
theories/DargProps.v
theories/LargModel.v
theories/LargSpec.v
theories/LargProps.v
theories/LargProps2.v
theories/GargModel.v
theories/GargSpec.v
theories/GargProps.v
theories/HexnModel.v
theories/HexnSpec.v
theories/HexnProps.v
theories/SexnModel.v
theories/SexnSpec.v
theories/SexnProof.v
theories/SexnProps.v
theories/PatModel.v
theories/PatProof.v
theories/PatProof2.v
theories/PatProps.v
theories/PatProps2.v
theories/VargModel.v
theories/VargProps.v
theories/GexnModel.v
theories/GexnProps.v
theories/SliveSpec.v
theories/SliveProof.v
theories/SliveProps.v
theories/SregModel.v
theories/SregSpec.v
theories/SregProof.v
theories/SregProof2.v
theories/SregModel2.v
theories/SregProps.v
theories/ResumeSpec.v
theories/ResumeProof.v
theories/ResumeProof2.v
theories/ResumeProof3.v
theories/ResumeProps.v
theories/TsortModel.v
theories/TsortSpec.v
theories/TsortProps.v
theories/BthrModel.v
theories/BthrSpec.v
theories/BthrProof.v
theories/BthrProof2.v
theories/BthrProof3.v
theories/BthrProof4.v
theories/BthrProps.v
theories/ReflowProps.v
theories/ColumnsProps.v
theories/AlgebraProps.v
theories/SplitSpec7.v
theories/SplitProof7.v
theories/SplitProps7.v
theories/RefindProps4.v
theories/SchedlibModel.v
theories/SchedlibProof.v
theories/SchedlibProps.v
theories/KindSpec.v
theories/KindProof.v
theories/KindProof2.v
theories/KindProof3.v
theories/KindProof4.v
theories/KindProps.v
theories/MigrateSpec.v
theories/MigrateProof.v
theories/MigrateProof2.v
theories/MigrateProps.v
theories/QuoteAgreeSpec.v
theories/QuoteAgreeProof.v
theories/QuoteAgreeProps.v
theories/ReprModel.v
theories/ReprProps.v
theories/LawsProof.v
theories/LawsProps.v
theories/TitleLawsProps.v
theories/StripLawsProps.v
theories/IntLawsProps.v
theories/GentleLawsProps.v
theories/WrapLawsProps.v
theories/KeepLawsProps.v
theories/NormLawsProps.v
theories/PartLawsProps.v
theories/BicReprModel.v
theories/BicReprProps.v
