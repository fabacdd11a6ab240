-Q theories Verif
theories/Base.v
theories/ApiModel.v
theories/ApiSpec.v
theories/ApiVecModel.v
theories/ApiVecProofs.v
theories/ApiVecProps.v
theories/DepthFirstModel.v
theories/DepthFirstProofs.v
theories/DepthFirstProps.v
theories/GcModel.v
theories/GcProofs.v
theories/GcProps.v
theories/RemoveIgnoredModel.v
theories/RemoveIgnoredProofs.v
theories/RemoveIgnoredProps.v
theories/QNamesModel.v
theories/QNamesProofs.v
theories/QNamesProps.v
theories/KnownTypesModel.v
theories/KnownTypesProofs.v
theories/KnownTypesProps.v
theories/ErrorReporterModel.v
theories/ErrorReporterProofs.v
theories/ErrorReporterProps.v
theories/NameCheckModel.v
theories/NameCheckProofs.v
theories/NameCheckProps.v
theories/TrackersModel.v
theories/TrackersProofs.v
theories/TrackersProps.v
theories/SynthNamesModel.v
theories/SynthNamesProofs.v
theories/SynthNamesProps.v
theories/TypesModel.v
theories/TypesSpec.v
theories/TypedefsModel.v
theories/TypedefsProofs.v
theories/TypedefsProps.v
theories/CppTypesModel.v
theories/CppTypesProofs.v
theories/CppTypesProps.v
theories/ConcreteNamesModel.v
theories/ConcreteNamesProofs.v
theories/ConcreteNamesProps.v
theories/UnqualifyModel.v
theories/UnqualifyProofs.v
theories/UnqualifyProps.v
theories/ConversionModel.v
theories/ExternFunModel.v
theories/ExternFunProofs.v
theories/ExternFunProps.v
theories/TypeConverterModel.v
theories/TypeConverterProofs.v
theories/TypeConverterProps.v
theories/TypeConverterDepsProps.v
theories/ByValueModel.v
theories/ByValueProofs.v
theories/ByValueProps.v
theories/PodStructProps.v
theories/ImplicitCtorsModel.v
theories/CxxClassSpec.v
theories/ImplicitCtorsProofs.v
theories/ImplicitCtorsProps.v
theories/AbstractTypesModel.v
theories/AbstractTypesProps.v
theories/FnAnalysisModel.v
theories/FnCodegenModel.v
theories/FnAnalysisProofs.v
theories/FnAnalysisProps.v
theories/FnCodegenProps.v
theories/CppWrapperModel.v
theories/CppWrapperProps.v
theories/ConfigModel.v
theories/ConfigProofs.v
theories/ConfigProps.v
theories/CallbacksModel.v
theories/CallbacksProps.v
theories/ParseBindgenModel.v
theories/ParseBindgenSpec.v
theories/ParseBindgenProofs.v
theories/ParseBindgenProps.v
theories/OutputModel.v
theories/OutputProps.v
theories/OutputNamesProps.v
theories/OutputDepProps.v
theories/DiscoverModel.v
theories/DiscoverProps.v
theories/EngineModel.v
theories/EngineProps.v
theories/ParseFileModel.v
theories/ParseFileProps.v
theories/LocationsModel.v
theories/LocationsProps.v
theories/NsModel.v
theories/NsProps.v
theories/SubclassRtModel.v
theories/SubclassRtProofs.v
theories/SubclassRtProps.v
theories/SubclassGenModel.v
theories/SubclassGenProps.v
theories/ValueParamModel.v
theories/ValueParamProps.v
theories/RefWrapperModel.v
theories/RefWrapperProps.v
theories/PipelineModel.v
theories/PipelineProofs.v
theories/PipelineProps.v
theories/FrontModel.v
theories/FrontProofs.v
theories/FrontProps.v
theories/FnDriverModel.v
theories/FnDriverProofs.v
theories/FnDriverProps.v
theories/KeptProofs.v
theories/KeptProps.v
theories/ListedProps.v
theories/CppGenModel.v
theories/CppGenProps.v
theories/CalledModel.v
theories/CalledProps.v
theories/RsGenModel.v
theories/RsGenProps.v
theories/BridgeTypesProofs.v
theories/BridgeTypesProps.v
theories/ParseFullModel.v
theories/ParseFullProofs.v
theories/ParseFullProps.v
theories/RsAllProps.v
theories/RsTotalProps.v
theories/MdBookModel.v
theories/MdBookProofs.v
theories/MdBookProps.v
theories/ReduceModel.v
theories/ReduceProps.v
theories/BuilderModel.v
theories/BuilderProps.v
theories/DepsModel.v
theories/DepsProps.v
theories/AttrModel.v
theories/AttrProps.v
theories/GuardProps.v
theories/DumpModel.v
theories/DumpProps.v
theories/TraitKeyModel.v
theories/TraitKeyProps.v
theories/CtypeModel.v
theories/CtypeProps.v
theories/IncludeMacroModel.v
theories/IncludeMacroProps.v
