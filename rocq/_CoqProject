-Q theories Verif
theories/AlloyProofs.v
theories/AlloyProps.v
theories/AlloyTextProps.v
theories/AniModel.v
theories/AniProofs.v
theories/AniProps.v
theories/AniSpec.v
theories/ArrModel.v
theories/ArrProofs.v
theories/ArrProps.v
theories/ArrSpec.v
theories/AttrModel.v
theories/AttrProps.v
theories/AttrSpec.v
theories/BandInitProps.v
theories/BandModel.v
theories/BandProofs.v
theories/BandProps.v
theories/BandSpec.v
theories/BcfgModel.v
theories/BcfgProps.v
theories/BcfgSpec.v
theories/BvecModel.v
theories/BvecProofs.v
theories/BvecProps.v
theories/BvecSpec.v
theories/CfgModel.v
theories/CfgProofs.v
theories/CfgProps.v
theories/CfgSpec.v
theories/CliModel.v
theories/CliProofs.v
theories/CliProps.v
theories/CliSpec.v
theories/CmdModel.v
theories/CmdProofs.v
theories/CmdProps.v
theories/CmdSpec.v
theories/CompModel.v
theories/CompProofs.v
theories/CompProps.v
theories/CompSpec.v
theories/CrashModel.v
theories/CrashNumProps.v
theories/CrashProofs.v
theories/CrashProps.v
theories/CrashSpec.v
theories/DataModel.v
theories/DataProofs.v
theories/DataProps.v
theories/DataSpec.v
theories/DebyeModel.v
theories/DebyeProofs.v
theories/DebyeProps.v
theories/DebyeSpec.v
theories/EngModel.v
theories/EngProofs.v
theories/EngProps.v
theories/EngSpec.v
theories/ExecModel.v
theories/ExecProofs.v
theories/ExecProps.v
theories/ExecSpec.v
theories/FloatEndProofs.v
theories/FloatEndProps.v
theories/FloatSeqModel.v
theories/FloatSeqProofs.v
theories/FloatSeqProps.v
theories/FmtModel.v
theories/FmtProofs.v
theories/FmtProps.v
theories/FmtSpec.v
theories/FuncModel.v
theories/FuncProofs.v
theories/FuncProps.v
theories/GposModel.v
theories/GposProofs.v
theories/GposProps.v
theories/GposSpec.v
theories/GprModel.v
theories/GprProofs.v
theories/GprProps.v
theories/GprSpec.v
theories/InstrModel.v
theories/InstrProofs.v
theories/InstrProps.v
theories/InstrSpec.v
theories/InterpModel.v
theories/InterpProofs.v
theories/InterpProps.v
theories/InterpSpec.v
theories/KcumProofs.v
theories/KcumProps.v
theories/KfitModel.v
theories/KfitProofs.v
theories/KfitProps.v
theories/KfitSpec.v
theories/KlemModel.v
theories/KlemProofs.v
theories/KlemProps.v
theories/KlemSpec.v
theories/KoutModel.v
theories/KoutProps.v
theories/KoutSpec.v
theories/KvarModel.v
theories/KvarProofs.v
theories/KvarProps.v
theories/KvarSpec.v
theories/KvecModel.v
theories/KvecProofs.v
theories/KvecProps.v
theories/KvecSpec.v
theories/ListDictModel.v
theories/ListDictProofs.v
theories/ListDictProps.v
theories/LiveModel.v
theories/LiveProofs.v
theories/LiveProps.v
theories/LiveSpec.v
theories/LoggerModel.v
theories/LoggerProofs.v
theories/LoggerProps.v
theories/LoggerSpec.v
theories/LsbProofs.v
theories/LsbProps.v
theories/LsbSpec.v
theories/LvlProofs.v
theories/LvlProps.v
theories/MetricModel.v
theories/MetricProofs.v
theories/MetricProps.v
theories/MixModel.v
theories/MixProofs.v
theories/MixProps.v
theories/MixSpec.v
theories/MixbProofs.v
theories/MixbProps.v
theories/MlvProofs.v
theories/MlvProps.v
theories/MlvSpec.v
theories/MonoModel.v
theories/MonoProofs.v
theories/MonoProps.v
theories/MonoSpec.v
theories/NdosModel.v
theories/NdosProofs.v
theories/NdosProps.v
theories/NdosSpec.v
theories/NumModel.v
theories/NumProofs.v
theories/NumProofs2.v
theories/NumProps.v
theories/NumSpec.v
theories/OptFermi.v
theories/OptNum.v
theories/OptProofs.v
theories/OptProps.v
theories/OptSpec.v
theories/OrdProofs.v
theories/OrdProps.v
theories/OrdSpec.v
theories/Py.v
theories/PyDict.v
theories/PyStr.v
theories/RUtil.v
theories/RconvBands.v
theories/RconvFermi.v
theories/RconvProofs.v
theories/RconvProps.v
theories/RconvSpec.v
theories/Regex.v
theories/RetainModel.v
theories/RetainProofs.v
theories/RetainProps.v
theories/RetainSpec.v
theories/RombModel.v
theories/RombProofs.v
theories/RombProps.v
theories/RoptProofs.v
theories/RoptProps.v
theories/RposProofs.v
theories/RposProps.v
theories/RspbModel.v
theories/RspbProps.v
theories/RunModel.v
theories/RunProofs.v
theories/RunProps.v
theories/RunSpec.v
theories/SbkProofs.v
theories/SbkProps.v
theories/SbkSpec.v
theories/ScatModel.v
theories/ScatProps.v
theories/ScatSpec.v
theories/SlackProps.v
theories/SpbModel.v
theories/SpbProofs.v
theories/SpbProps.v
theories/SubsModel.v
theories/SubsProofs.v
theories/SubsProps.v
theories/SubsSpec.v
theories/TxtModel.v
theories/TxtProofs.v
theories/TxtProps.v
theories/TxtSpec.v
theories/VarModel.v
theories/VarProofs.v
theories/VarProps.v
theories/VarSpec.v
theories/VecModel.v
theories/VecProofs.v
theories/VecProps.v
theories/VecSpec.v
theories/ZtModel.v
theories/ZtProofs.v
theories/ZtProps.v
theories/ZtSpec.v
