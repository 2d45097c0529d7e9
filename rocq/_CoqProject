-Q theories Verif
theories/Base.v
theories/UtfModel.v
theories/UtfSpec.v
theories/UtfProofs1.v
theories/BaseFacts.v
theories/UtfProofs2.v
theories/UtfProofs3.v
theories/UtfProofs4.v
theories/UtfProofs5.v
theories/UtfProps.v
theories/StrModel.v
theories/StrSpec.v
theories/StrProofs.v
theories/StrProps.v
theories/NumModel.v
theories/NumSpec.v
theories/NumProofs.v
theories/NumProps.v
theories/LstModel.v
theories/LstSpec.v
theories/LstProofs.v
theories/LstProps.v
theories/CaseModel.v
theories/CaseSpec.v
theories/CaseProofs.v
theories/CaseProps.v
theories/SrtModel.v
theories/SrtSpec.v
theories/SrtProofs.v
theories/SrtProps.v
theories/DctModel.v
theories/DctSpec.v
theories/DctProofs.v
theories/DctProps.v
theories/QsModel.v
theories/QsSpec.v
theories/QsProofs.v
theories/QsProps.v
theories/GphModel.v
theories/GphSpec.v
theories/GphProofs.v
theories/GphProps.v
theories/LzyModel.v
theories/LzySpec.v
theories/LzyProofs.v
theories/LzyProps.v
theories/CpyModel.v
theories/CpySpec.v
theories/CpyProofs.v
theories/CpyProps.v
theories/RcModel.v
theories/RcSpec.v
theories/RcProofs.v
theories/RcProofs2.v
theories/RcProps.v
theories/ComModel.v
theories/ComSpec.v
theories/ComProofs.v
theories/ComProps.v
theories/ParModel.v
theories/ParSpec.v
theories/ParProofs.v
theories/ParProps.v
theories/PoaModel.v
theories/PoaSpec.v
theories/PoaProofs.v
theories/PoaProps.v
theories/BomModel.v
theories/BomSpec.v
theories/BomProofs.v
theories/BomProps.v
theories/TupModel.v
theories/TupSpec.v
theories/TupProofs.v
theories/TupProps.v
theories/NulModel.v
theories/NulSpec.v
theories/NulProofs.v
theories/NulProps.v
theories/VarModel.v
theories/VarSpec.v
theories/VarProofs.v
theories/VarProps.v
theories/DateModel.v
theories/DateSpec.v
theories/DateProofs.v
theories/DateProps.v
theories/GlobModel.v
theories/GlobSpec.v
theories/GlobProofs.v
theories/GlobProofs2.v
theories/GlobProps.v
theories/EvtModel.v
theories/EvtSpec.v
theories/EvtProofs.v
theories/EvtProps.v
theories/UtModel.v
theories/UtSpec.v
theories/UtProofs.v
theories/UtProps.v
theories/LoremModel.v
theories/LoremSpec.v
theories/LoremProofs.v
theories/LoremProps.v
theories/FunModel.v
theories/FunSpec.v
theories/FunProofs.v
theories/FunProps.v
theories/CrefModel.v
theories/CrefSpec.v
theories/CrefProofs.v
theories/CrefProps.v
theories/ForModel.v
theories/ForSpec.v
theories/ForProofs.v
theories/ForProps.v
theories/LzhModel.v
theories/LzhSpec.v
theories/LzhProofs.v
theories/LzhProps.v
theories/LzhReadSpec.v
theories/LzhReadProofs.v
theories/LzhReadProps.v
theories/UtDbgSpec.v
theories/UtDbgProofs.v
theories/EvrModel.v
theories/EvrSpec.v
theories/EvrProofs.v
theories/EvrProps.v
theories/MbModel.v
theories/MbSpec.v
theories/MbProofs.v
theories/MbProps.v
theories/FltModel.v
theories/FltSpec.v
theories/FltProofs.v
theories/FltProps.v
theories/SparModel.v
theories/SparSpec.v
theories/SparHeap.v
theories/SparSafe.v
theories/SparOps.v
theories/SparProofs.v
theories/SparProps.v
theories/UtfProofs6.v
theories/UtfProofs7.v
theories/UcModel.v
theories/UcSpec.v
theories/UcProofs.v
theories/UcProps.v
theories/QstModel.v
theories/QstSpec.v
theories/QstProofs.v
theories/QstProps.v
theories/PtyModel.v
theories/PtySpec.v
theories/PtyProofs.v
theories/PtyProps.v
theories/EnuModel.v
theories/EnuSpec.v
theories/EnuProofs.v
theories/EnuProps.v
theories/ExcModel.v
theories/ExcSpec.v
theories/ExcProofs.v
theories/ExcProps.v
theories/ExnModel.v
theories/ExnSpec.v
theories/ExnProofs.v
theories/ExnProps.v
theories/ExvModel.v
theories/ExvSpec.v
theories/ExvProofs.v
theories/ExvProps.v
theories/OwnModel.v
theories/OwnSpec.v
theories/OwnProofs.v
theories/OwnProps.v
theories/MovModel.v
theories/MovSpec.v
theories/MovProofs.v
theories/MovProps.v
theories/OrdModel.v
theories/OrdProofs.v
theories/OrdProps.v
theories/UtfProofs8.v
theories/ConModel.v
theories/ConSpec.v
theories/ConProofs.v
theories/ConProps.v
theories/DtrModel.v
theories/DtrSpec.v
theories/DtrProofs.v
theories/DtrProofs2.v
theories/DtrProps.v
theories/DtrProofs3.v
theories/StrProofs2.v
theories/TplModel.v
theories/TplSpec.v
theories/TplProofs.v
theories/TplProofs2.v
theories/TplProps.v
theories/LpModel.v
theories/LpSpec.v
theories/LpProofs.v
theories/LpProofs2.v
theories/LpProofs3.v
theories/LpProofs4.v
theories/LpProofs5.v
theories/LpProofs6.v
theories/LpProofs7.v
theories/LpProofs8.v
theories/LpProofs9.v
theories/LpProofs10.v
theories/LpProps.v
theories/EngModel.v
theories/EngSpec.v
theories/EngProofs.v
theories/EngProps.v
theories/CpdModel.v
theories/CpdSpec.v
theories/CpdProofs.v
theories/CpdProps.v
theories/ExgModel.v
theories/ExgSpec.v
theories/ExgProofs.v
theories/ExgProps.v
theories/SlModel.v
theories/SlSpec.v
theories/SlProofs.v
theories/SlProofs2.v
theories/SlProofs3.v
theories/SlProofs4.v
theories/SlProofs5.v
theories/SlProps.v
theories/SdModel.v
theories/SdSpec.v
theories/SdProofs.v
theories/SdProofs2.v
theories/SdProps.v
theories/OmModel.v
theories/OmSpec.v
theories/OmProofs.v
theories/OmProofs2.v
theories/OmProps.v
theories/LmModel.v
theories/LmSpec.v
theories/LmProofs.v
theories/LmProps.v
theories/TmModel.v
theories/TmSpec.v
theories/TmProofs.v
theories/TmProofs2.v
theories/TmProps.v
theories/FrModel.v
theories/FrSpec.v
theories/FrProofs.v
theories/FrProps.v
theories/RpModel.v
theories/RpSpec.v
theories/RpProofs.v
theories/RpProps.v
theories/PmModel.v
theories/PmSpec.v
theories/PmProofs.v
theories/PmProofs2.v
theories/PmProps.v
theories/QcModel.v
theories/QcSpec.v
theories/QcProofs.v
theories/QcProps.v
theories/LzeModel.v
theories/LzeSpec.v
theories/LzeProofs.v
theories/LzeProofs2.v
theories/LzeProps.v
theories/PgrModel.v
theories/PgrSpec.v
theories/PgrProofs.v
theories/PgrProofs2.v
theories/PgrProofs3.v
theories/PgrProofs4.v
theories/PgrProofs5.v
theories/PgrProofs6.v
theories/PgrProps.v
theories/PgrProofs7.v
theories/DmModel.v
theories/DmSpec.v
theories/DmProofs.v
theories/DmProps.v
theories/MemSpec.v
theories/MemProofs.v
theories/MemProofs2.v
theories/MemProps.v
theories/LzgModel.v
theories/LzgSpec.v
theories/LzgProofs.v
theories/LzgProps.v
theories/KeyModel.v
theories/KeySpec.v
theories/KeyProofs.v
theories/KeyProofs2.v
theories/KeyProofs3.v
theories/KeyProps.v
theories/PdModel.v
theories/PdSpec.v
theories/PdProofs.v
theories/PdProofs2.v
theories/PdProofs3.v
theories/PdProps.v
theories/CstSpec.v
theories/CstProofs.v
theories/CstProps.v
theories/RenModel.v
theories/RenSpec.v
theories/RenProofs.v
theories/RenProofs2.v
theories/RenProps.v
theories/ReaModel.v
theories/ReaSpec.v
theories/ReaProofs.v
theories/ReaProofs2.v
theories/ReaProofs3.v
theories/ReaProps.v
theories/EvxModel.v
theories/EvxSpec.v
theories/EvxProofs.v
theories/EvxProofs2.v
theories/EvxProps.v
theories/TaModel.v
theories/TaSpec.v
theories/TaProofs.v
theories/TaProps.v
theories/AnyModel.v
theories/AnySpec.v
theories/AnyProofs.v
theories/AnyProofs2.v
theories/AnyProps.v
theories/AngModel.v
theories/AngSpec.v
theories/AngProofs.v
theories/AngProofs2.v
theories/AngProps.v
theories/AngProofs3.v
theories/LeqModel.v
theories/LeqSpec.v
theories/LeqProofs.v
theories/LeqProps.v
theories/AnsModel.v
theories/AnsSpec.v
theories/AnsProofs.v
theories/AnsProps.v
theories/DxnModel.v
theories/DxnSpec.v
theories/DxnProofs.v
theories/DxnProps.v
theories/DxnProofs2.v
