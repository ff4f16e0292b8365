-Q theories Verif
theories/Base.v
theories/BaselineModel.v
theories/BaselineProofs.v
theories/BaselineProps.v
theories/ModModel.v
theories/ModSpec.v
theories/ModProofs.v
theories/ModProps.v
theories/PackModel.v
theories/PackSpec.v
theories/PackProofs.v
theories/PackProps.v
theories/MaskModel.v
theories/MaskSpec.v
theories/MaskProofs1.v
theories/MaskProofs2.v
theories/MaskProofs3.v
theories/MaskProofs4.v
theories/MaskProofs5.v
theories/MaskProps.v
theories/HioModel.v
theories/HioSpec.v
theories/HioProofs.v
theories/HioProofs2.v
theories/HioProps.v
theories/TreeModel.v
theories/TreeSpec.v
theories/TreeProofs.v
theories/TreeProofs2.v
theories/TreeProps.v
theories/UvModel.v
theories/UvSpec.v
theories/UvProofs.v
theories/UvProofs2.v
theories/UvProofs3.v
theories/AppModel.v
theories/AppSpec.v
theories/UvProofs4.v
theories/UvProofs5.v
theories/UvProps.v
theories/AppProps.v
theories/SelModel.v
theories/SelSpec.v
theories/SelProofs.v
theories/SelProofs2.v
theories/SelProofs3.v
theories/SelProps.v
theories/ScriptModel.v
theories/ScriptSpec.v
theories/ScriptProofs.v
theories/ScriptProofs2.v
theories/ScriptProofs3.v
theories/ScriptProps.v
theories/FlatModel.v
theories/FlatSpec.v
theories/FlatProofs.v
theories/FlatProps.v
theories/ParamModel.v
theories/ParamSpec.v
theories/ParamProofs.v
theories/ParamProofs2.v
theories/ParamProofs3.v
theories/ParamProps.v
theories/CleanModel.v
theories/CleanSpec.v
theories/CleanProofs.v
theories/CleanProofs2.v
theories/CleanProps.v
theories/GridModel.v
theories/GridSpec.v
theories/GridProofs.v
theories/GridProofs2.v
theories/GridProps.v
theories/ImgModel.v
theories/ImgSpec.v
theories/ImgProofs.v
theories/ImgProofs2.v
theories/ImgProofs3.v
theories/ImgProofs4.v
theories/ImgProps.v
theories/HpxModel.v
theories/HpxSpec.v
theories/HpxProofs.v
theories/HpxProofs2.v
theories/HpxProofs3.v
theories/HpxProps.v
theories/FacetModel.v
theories/FacetSpec.v
theories/FacetProofs.v
theories/FacetProps.v
theories/WinModel.v
theories/WinSpec.v
theories/WinProofs.v
theories/WinProps.v
theories/CatModel.v
theories/CatSpec.v
theories/CatProofs.v
theories/CatProps.v
theories/FitsModel.v
theories/FitsSpec.v
theories/FitsProofs.v
theories/FitsProofs2.v
theories/FitsProofs3.v
theories/FitsProofs4.v
theories/FitsProofs5.v
theories/FitsProps.v
theories/MapfModel.v
theories/MapfSpec.v
theories/MapfProofs.v
theories/MapfProps.v
theories/InterpModel.v
theories/InterpSpec.v
theories/InterpProofs.v
theories/InterpProofs2.v
theories/InterpProps.v
theories/SrcModel.v
theories/SrcSpec.v
theories/SrcProofs.v
theories/SrcProps.v
theories/SrcProofs2.v
theories/SrcProofs3.v
theories/SrcProps2.v
theories/RfiModel.v
theories/RfiProps.v
theories/GeoModel.v
theories/GeoSpec.v
theories/GeoProofs.v
theories/GeoProps.v
theories/ArrModel.v
theories/ArrSpec.v
theories/ArrProofs.v
theories/ArrProofs2.v
theories/ArrProofs3.v
theories/ArrProps.v
theories/ArrProps2.v
theories/ArrProofs4.v
theories/ArrProps3.v
theories/ArrProofs5.v
theories/ArrProofs6.v
theories/ArrProofs7.v
theories/ArrProps4.v
theories/ArrProps5.v
theories/PatModel.v
theories/PatProps.v
theories/FitModel.v
theories/FitSpec.v
theories/FitProofs.v
theories/FitProps.v
theories/FitProps2.v
theories/QuantModel.v
theories/QuantProps.v
theories/PipeModel.v
theories/PipeSpec.v
theories/PipeProofs.v
theories/PipeProofs2.v
theories/PipeProofs3.v
theories/PipeProofs4.v
theories/PipeProps.v
theories/HdrModel.v
theories/HdrSpec.v
theories/HdrProofs.v
theories/HdrProofs2.v
theories/HdrProofs3.v
theories/HdrProps.v
theories/FloatModel.v
theories/FloatProofs.v
theories/FloatProps.v
theories/CrashModel.v
theories/CrashSpec.v
theories/CrashProofs.v
theories/CrashProofs2.v
theories/CrashProofs3.v
theories/CrashProps.v
theories/PrmModel.v
theories/PrmSpec.v
theories/PrmProofs.v
theories/PrmProps.v
theories/RfModel.v
theories/RfSpec.v
theories/RfProofs.v
theories/RfProps.v
theories/PolModel.v
theories/PolSpec.v
theories/PolProofs.v
theories/PolProps.v
theories/SkyModel.v
theories/SkySpec.v
theories/SkyProofs.v
theories/SkyProofs2.v
theories/SkyProofs3.v
theories/SkyProps.v
theories/CmdModel.v
theories/CmdSpec.v
theories/CmdProofs.v
theories/CmdProofs2.v
theories/CmdProofs3.v
theories/CmdProofs4.v
theories/CmdProofs5.v
theories/CmdProofs6.v
theories/CmdProps.v
theories/HcopyModel.v
theories/HcopySpec.v
theories/HcopyProofs.v
theories/HcopyProps.v
theories/GaussModel.v
theories/GaussSpec.v
theories/GaussProps.v
theories/ScrModel.v
theories/ScrProofs.v
theories/ScrProps.v
theories/XrsModel.v
theories/XrsSpec.v
theories/XrsProofs.v
theories/XrsProps.v
theories/XtkModel.v
theories/XtkSpec.v
theories/XtkProofs.v
theories/XtkProps.v
theories/BpModel.v
theories/BpSpec.v
theories/BpProofs.v
theories/BpProps.v
theories/BpProps2.v
theories/FsrModel.v
theories/FsrSpec.v
theories/FsrProofs.v
theories/FsrProofs2.v
theories/FsrProps.v
theories/FsrProps2.v
theories/FsrProps3.v
theories/SrlModel.v
theories/SrlSpec.v
theories/SrlProps.v
theories/SrlProps2.v
theories/TarModel.v
theories/TarSpec.v
theories/TarProps.v
