-Q theories Verif
theories/Base/Ascii.v
theories/Base/Bytes.v
theories/Base/Sort.v
theories/Base/Tactics.v
theories/Base/Text.v
theories/Bin/AddonModel.v
theories/Bin/AddonProps.v
theories/Bin/AddonSpec.v
theories/Bin/ArchiveProofs.v
theories/Bin/ArchiveProps.v
theories/Bin/ArchiveSpec.v
theories/Bin/BinarizeModel.v
theories/Bin/BinarizeProofs.v
theories/Bin/BinarizeProps.v
theories/Bin/BinarizeSpec.v
theories/Bin/BomModel.v
theories/Bin/BomProps.v
theories/Bin/BomSpec.v
theories/Bin/CaseModel.v
theories/Bin/CaseProps.v
theories/Bin/CaseSpec.v
theories/Bin/ConvertModel.v
theories/Bin/ConvertProofs.v
theories/Bin/ConvertProps.v
theories/Bin/ConvertSpec.v
theories/Bin/ExecModel.v
theories/Bin/ExecProps.v
theories/Bin/ExecSpec.v
theories/Bin/HookModel.v
theories/Bin/HookProofs.v
theories/Bin/HookProps.v
theories/Bin/HookSpec.v
theories/Bin/InspectModel.v
theories/Bin/InspectProps.v
theories/Bin/InspectSpec.v
theories/Bin/LaunchLineModel.v
theories/Bin/LaunchLineProofs.v
theories/Bin/LaunchLineProps.v
theories/Bin/LaunchLineSpec.v
theories/Bin/LintModel.v
theories/Bin/LintProps.v
theories/Bin/LintSpec.v
theories/Bin/NewModel.v
theories/Bin/NewProps.v
theories/Bin/NewSpec.v
theories/Bin/OutputModel.v
theories/Bin/OutputProofs.v
theories/Bin/OutputProps.v
theories/Bin/OutputSpec.v
theories/Bin/PackModel.v
theories/Bin/PackProofs.v
theories/Bin/PackProps.v
theories/Bin/PackSpec.v
theories/Bin/RequiredProps.v
theories/Bin/RequiredSpec.v
theories/Bin/ScriptArchive.v
theories/Bin/SettingsModel.v
theories/Bin/SettingsProofs.v
theories/Bin/SettingsProps.v
theories/Bin/SettingsSpec.v
theories/Bin/TempModel.v
theories/Bin/TempProps.v
theories/Bin/TempSpec.v
theories/Bin/UpdateModel.v
theories/Bin/UpdateProps.v
theories/Bin/UpdateSpec.v
theories/Bin/ValueModel.v
theories/Bin/ValueProps.v
theories/Bin/VerifyModel.v
theories/Bin/VerifyProofs.v
theories/Bin/VerifyProps.v
theories/Bin/VerifyRelease.v
theories/Bin/VerifySpec.v
theories/Common/LaunchModel.v
theories/Common/LaunchProofs.v
theories/Common/LaunchProps.v
theories/Common/LaunchSpec.v
theories/Common/MathModel.v
theories/Common/MathProofs.v
theories/Common/MathSpec.v
theories/Common/ProjectVersionModel.v
theories/Common/ProjectVersionProps.v
theories/Common/ProjectVersionSpec.v
theories/Common/Props.v
theories/Common/VersionModel.v
theories/Common/VersionProofs.v
theories/Common/VersionSpec.v
theories/Config/AnalyzeModel.v
theories/Config/AnalyzeMore.v
theories/Config/AnalyzeProofs.v
theories/Config/AnalyzeProps.v
theories/Config/AnalyzeSpec.v
theories/Config/AnalyzeTree.v
theories/Config/AnalyzeWalk.v
theories/Config/BracesProps.v
theories/Config/FileModel.v
theories/Config/FileProofs.v
theories/Config/FileProps.v
theories/Config/FileSpec.v
theories/Config/GrammarProofs.v
theories/Config/GrammarSpec.v
theories/Config/ParseModel.v
theories/Config/ParseProofs.v
theories/Config/ParseProps.v
theories/Config/ParseSpec.v
theories/Config/PatchModel.v
theories/Config/PatchProofs.v
theories/Config/PatchProps.v
theories/Config/PatchSpec.v
theories/Config/RapModel.v
theories/Config/RapProofs.v
theories/Config/RapProps.v
theories/Config/RapReads.v
theories/Config/RapSpec.v
theories/Config/RapTree.v
theories/Hls/DiagModel.v
theories/Hls/DiagProofs.v
theories/Hls/DiagProps.v
theories/Hls/DiagSpec.v
theories/Hls/LocateModel.v
theories/Hls/LocateProps.v
theories/Hls/LocateSpec.v
theories/Hls/UrlModel.v
theories/Hls/UrlProps.v
theories/Hls/UrlSpec.v
theories/Io/Model.v
theories/Io/Proofs.v
theories/Io/Props.v
theories/Io/Spec.v
theories/Io/Utf8.v
theories/Lzo/Codes.v
theories/Lzo/Format.v
theories/Lzo/FormatSpec.v
theories/Lzo/Model.v
theories/Lzo/Props.v
theories/Lzo/Roundtrip.v
theories/Lzo/Safety.v
theories/Lzo/Stream.v
theories/P3d/Model.v
theories/P3d/Proofs.v
theories/P3d/Props.v
theories/P3d/Spec.v
theories/Paa/ConvertModel.v
theories/Paa/ConvertProps.v
theories/Paa/ConvertSpec.v
theories/Paa/Model.v
theories/Paa/Proofs.v
theories/Paa/Props.v
theories/Paa/Spec.v
theories/Pbo/Final.v
theories/Pbo/Foreign.v
theories/Pbo/History.v
theories/Pbo/ListModel.v
theories/Pbo/ListProps.v
theories/Pbo/ListSpec.v
theories/Pbo/Model.v
theories/Pbo/Proofs.v
theories/Pbo/Props.v
theories/Pbo/Roundtrip.v
theories/Pbo/Spec.v
theories/Pbo/UnpackModel.v
theories/Pbo/UnpackProofs.v
theories/Pbo/UnpackProps.v
theories/Pbo/UnpackSpec.v
theories/Preproc/BlockSpec.v
theories/Preproc/Blocks.v
theories/Preproc/EndProps.v
theories/Preproc/EndSpec.v
theories/Preproc/Ends.v
theories/Preproc/Examples.v
theories/Preproc/Expand.v
theories/Preproc/Fuel.v
theories/Preproc/Invariants.v
theories/Preproc/LexModel.v
theories/Preproc/LexProofs.v
theories/Preproc/LexSpec.v
theories/Preproc/Misuse.v
theories/Preproc/MisuseProps.v
theories/Preproc/MisuseSpec.v
theories/Preproc/Model.v
theories/Preproc/Plain.v
theories/Preproc/Props.v
theories/Preproc/Reject.v
theories/Preproc/RejectSpec.v
theories/Preproc/Spec.v
theories/Shoot/PictureModel.v
theories/Shoot/PictureProps.v
theories/Shoot/PictureSpec.v
theories/Shoot/ShootModel.v
theories/Shoot/ShootProofs.v
theories/Shoot/ShootProps.v
theories/Shoot/ShootSpec.v
theories/Shoot/WireProofs.v
theories/Signing/Digests.v
theories/Signing/Fermat.v
theories/Signing/Model.v
theories/Signing/Proofs.v
theories/Signing/Props.v
theories/Signing/Proth.v
theories/Signing/Spec.v
theories/Sqf/Ast.v
theories/Sqf/BuildProofs.v
theories/Sqf/BuildProps.v
theories/Sqf/BuildRead.v
theories/Sqf/BuildSpec.v
theories/Sqf/CompareModel.v
theories/Sqf/CompareProofs.v
theories/Sqf/CompareProps.v
theories/Sqf/CompareSpec.v
theories/Sqf/CompileModel.v
theories/Sqf/CompileProofs.v
theories/Sqf/CompileProps.v
theories/Sqf/CompileSpec.v
theories/Sqf/FormatModel.v
theories/Sqf/FormatProps.v
theories/Sqf/FormatSpec.v
theories/Sqf/LexModel.v
theories/Sqf/LexProofs.v
theories/Sqf/LexProps.v
theories/Sqf/LexSpec.v
theories/Sqf/NameLintModel.v
theories/Sqf/NameLintProps.v
theories/Sqf/NameLintSpec.v
theories/Sqf/OptimizeEngine.v
theories/Sqf/OptimizeEngineProofs.v
theories/Sqf/OptimizeModel.v
theories/Sqf/OptimizeProofs.v
theories/Sqf/OptimizeProps.v
theories/Sqf/OptimizeSpec.v
theories/Sqf/OptimizeTotal.v
theories/Sqf/ParseComplete.v
theories/Sqf/ParseModel.v
theories/Sqf/ParseProofs.v
theories/Sqf/ParseProps.v
theories/Sqf/ParseSpec.v
theories/Sqf/ScriptModel.v
theories/Sqf/ScriptProps.v
theories/Sqf/ScriptSpec.v
theories/Sqf/SerializeModel.v
theories/Sqf/SerializeProofs.v
theories/Sqf/SerializeProps.v
theories/Sqf/SerializeSpec.v
theories/Sqf/SourceBack.v
theories/Sqf/SourceModel.v
theories/Sqf/SourceProofs.v
theories/Sqf/SourceProps.v
theories/Sqf/SourceSpec.v
theories/Sqf/StateLintModel.v
theories/Sqf/StateLintProps.v
theories/Sqf/StateLintSpec.v
theories/Sqf/SuggestCases.v
theories/Sqf/SuggestExact.v
theories/Sqf/SuggestModel.v
theories/Sqf/SuggestProofs.v
theories/Sqf/SuggestProps.v
theories/Sqf/SuggestSpec.v
theories/Sqf/TypedProofs.v
theories/Sqf/WalkModel.v
theories/Sqf/WalkProofs.v
theories/Sqf/WalkProps.v
theories/Sqf/WalkSpec.v
theories/Stringtable/FileModel.v
theories/Stringtable/FileProofs.v
theories/Stringtable/FileProps.v
theories/Stringtable/FileSpec.v
theories/Stringtable/Model.v
theories/Stringtable/Props.v
theories/Stringtable/Spec.v
theories/Workspace/FilesModel.v
theories/Workspace/FilesProofs.v
theories/Workspace/PathModel.v
theories/Workspace/PathProofs.v
theories/Workspace/PathProps.v
theories/Workspace/PathSpec.v
theories/Workspace/ProcessedModel.v
theories/Workspace/ProcessedProofs.v
theories/Workspace/Props.v
theories/Workspace/Spec.v
