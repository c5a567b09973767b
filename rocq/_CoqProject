-Q theories Verif

theories/Base.v
theories/HashModel.v
theories/HashSpec.v
theories/HashProofs.v
theories/HashProps.v
theories/ConstPropModel.v
theories/ConstPropProofs.v
theories/ConstPropProps.v
theories/ConstModel.v
theories/ConstSpec.v
theories/ConstProofs.v
theories/ConstProps.v
theories/CapModel.v
theories/CapSpec.v
theories/CapProofs.v
theories/CapProps.v
theories/PyStr.v
theories/PreprocModel.v
theories/PreprocSpec.v
theories/PreprocProofs.v
theories/PreprocProps.v
theories/UnitModel.v
theories/UnitSpec.v
theories/UnitProofs.v
theories/UnitProps.v
theories/CompatModel.v
theories/CompatSpec.v
theories/CompatProofs.v
theories/CompatProps.v
theories/ConstPropSpec.v
theories/FileModel.v
theories/FileSpec.v
theories/FileProofs.v
theories/FileProps.v
theories/ReqModel.v
theories/ReqSpec.v
theories/ReqProofs.v
theories/ReqProps.v
theories/PyNum.v
theories/DictModel.v
theories/DictSpec.v
theories/DictProofs.v
theories/DictProps.v
theories/DimModel.v
theories/DimSpec.v
theories/DimProofs.v
theories/DimProps.v
theories/Regex.v
theories/PhaseModel.v
theories/PhaseSpec.v
theories/PhaseProofs.v
theories/PhaseProps.v
theories/CheckModel.v
theories/ParenSpec.v
theories/ParenProofs.v
theories/ParenProps.v
theories/CheckSpec.v
theories/CheckProofs.v
theories/LitProofs.v
theories/CheckProps.v
theories/LineModel.v
theories/LineSpec.v
theories/LineProofs.v
theories/LineProps.v
theories/ScanModel.v
theories/ScanSpec.v
theories/ScanProofs.v
theories/MergeProofs.v
theories/MergeText.v
theories/FixedProofs.v
theories/ScanProps.v
theories/FWModel.v
theories/FWSpec.v
theories/FWProofs.v
theories/FWFold.v
theories/FWKeep.v
theories/FWLayout.v
theories/FWProps.v
theories/CommonModel.v
theories/CommonSpec.v
theories/CommonProps.v
theories/EnvModel.v
theories/EnvSpec.v
theories/EnvProps.v
theories/DdtModel.v
theories/DdtSpec.v
theories/DdtProps.v
theories/DataModel.v
theories/DataSpec.v
theories/DataProps.v
theories/TrackModel.v
theories/TrackSpec.v
theories/TrackProps.v
theories/MetaModel.v
theories/MetaSpec.v
theories/MetaProofs.v
theories/MetaProps.v
theories/MetaFile.v
theories/MetaFileProps.v
theories/TreeModel.v
theories/TreeSpec.v
theories/TreeProps.v
theories/StaticModel.v
theories/StaticSpec.v
theories/StaticProofs.v
theories/StaticProps.v
theories/PassModel.v
theories/PassSpec.v
theories/PassProofs.v
theories/PassProps.v
theories/MkModel.v
theories/MkSpec.v
theories/MkProofs.v
theories/MkProps.v
theories/PreModel.v
theories/PreSpec.v
theories/PreProofs.v
theories/PreProps.v
theories/SelModel.v
theories/SelSpec.v
theories/SelProofs.v
theories/SelProps.v
theories/HdrModel.v
theories/HdrSpec.v
theories/HdrProofs.v
theories/HdrProps.v
theories/XmlModel.v
theories/XmlSpec.v
theories/XmlProofs.v
theories/XmlProps.v
theories/DfModel.v
theories/DfSpec.v
theories/DfProps.v
theories/ResModel.v
theories/ResSpec.v
theories/ResProofs.v
theories/ResNames.v
theories/ResLoops.v
theories/ResMore.v
theories/ResProps.v
theories/DeclModel.v
theories/DeclSpec.v
theories/DeclProofs.v
theories/DeclHeads.v
theories/DeclBody.v
theories/DeclProps.v
theories/DeclMoreProps.v
theories/ModModel.v
theories/ModSpec.v
theories/ModProofs.v
theories/ModScan.v
theories/ModRun.v
theories/ModProps.v
theories/RegModel.v
theories/RegSpec.v
theories/RegProofs.v
theories/RegRun.v
theories/RegProps.v
theories/HcModel.v
theories/HcSpec.v
theories/HcProofs.v
theories/HcArgs.v
theories/HcProps.v
theories/VtModel.v
theories/VtSpec.v
theories/VtProofs.v
theories/VtRun.v
theories/VtProps.v
theories/ActModel.v
theories/ActSpec.v
theories/ActProofs.v
theories/ActProps.v
theories/ActNeed.v
theories/ActNeedProps.v
theories/ParModel.v
theories/ParSpec.v
theories/ParProofs.v
theories/ParProps.v
theories/ParGroup.v
theories/ParGroupProps.v
theories/DbgModel.v
theories/DbgSpec.v
theories/DbgProps.v
theories/ArModel.v
theories/ArSpec.v
theories/ArProofs.v
theories/ArProps.v
theories/HmModel.v
theories/HmSpec.v
theories/HmProofs.v
theories/HmFind.v
theories/HmProps.v
theories/CsModel.v
theories/CsSpec.v
theories/CsProofs.v
theories/CsMore.v
theories/CsDim.v
theories/CsProps.v
theories/WdModel.v
theories/WdSpec.v
theories/WdProofs.v
theories/WdModes.v
theories/WdProps.v
theories/SzModel.v
theories/SzSpec.v
theories/SzProofs.v
theories/SzProps.v
theories/LnModel.v
theories/LnSpec.v
theories/LnProofs.v
theories/LnProps.v
theories/NmModel.v
theories/NmSpec.v
theories/NmProofs.v
theories/NmProps.v
theories/PsModel.v
theories/PsSpec.v
theories/PsProofs.v
theories/PsProps.v
theories/AlModel.v
theories/AlSpec.v
theories/AlProofs.v
theories/AlProps.v
theories/VrModel.v
theories/VrSpec.v
theories/VrProofs.v
theories/VrProps.v
theories/WmModel.v
theories/WmSpec.v
theories/WmProofs.v
theories/WmProps.v
