-Q theories Verif
theories/Fl.v
theories/FlFacts.v
theories/NpList.v
theories/NpFacts.v
theories/Spec.v
theories/Samplers.v
theories/SamplersSpec.v
theories/SamplersFacts.v
theories/Properties_Samplers.v
theories/RStruct.v
theories/Problems.v
theories/ProblemsFacts.v
theories/EA.v
theories/EASpec.v
theories/EAFacts.v
theories/PSOFacts.v
theories/FlMag.v
theories/PSOFinite.v
theories/DEFacts.v
theories/Properties_EA.v
theories/BO.v
theories/BOSpec.v
theories/BOFacts.v
theories/ConsFacts.v
theories/MFFacts.v
theories/BOTotal.v
theories/BOMain.v
theories/Properties_BO.v
theories/LinAlg.v
theories/LinSpec.v
theories/LinAlgFacts.v
theories/Kernel.v
theories/KernelFacts.v
theories/Krig.v
theories/KrigFacts.v
theories/GP.v
theories/GPSpec.v
theories/GPFacts.v
theories/GPMain.v
theories/EvoBridge.v
theories/GPEvo.v
theories/MF.v
theories/CoKrig.v
theories/MFSpec.v
theories/MFMain.v
theories/CoKrigMain.v
theories/Properties_Kernel.v
theories/Properties_GP.v
theories/Properties_MF.v
theories/Normal.v
theories/NormalFacts.v
theories/Acq.v
theories/AcqSpec.v
theories/AcqReal.v
theories/AcqSpecM.v
theories/AcqFacts.v
theories/Properties_Acq.v
theories/ProblemsSpec.v
theories/ProblemsMore.v
theories/ProblemsNum.v
theories/ProblemsMain.v
theories/Properties_Problems.v
theories/ProblemArrays.v
theories/ProblemArraysSpec.v
theories/ProblemArraysFacts.v
theories/Properties_Arrays.v
theories/ProblemsRange.v
theories/Properties_Ranges.v
theories/KernelFl.v
theories/FlErr.v
theories/KernelFlSpec.v
theories/KernelFlFacts.v
theories/RSum.v
theories/RDep.v
theories/CholFl.v
theories/CholFlFacts.v
theories/KernelPsd.v
theories/KernelFlMain.v
theories/KernelFlRef.v
theories/KernelFlWit.v
theories/KernelFlThms.v
theories/Properties_KernelFl.v
theories/Interfaces.v
theories/InterfacesSpec.v
theories/InterfacesFacts.v
theories/Properties_Interfaces.v
theories/OutputFl.v
theories/OutputFlSpec.v
theories/OutputFlFacts.v
theories/OutputFlMain.v
theories/OutputFlThms.v
theories/Properties_OutputFl.v
theories/GPState.v
theories/GPStateSpec.v
theories/GPStateFacts.v
theories/Properties_GPState.v
theories/HKState.v
theories/HKStateSpec.v
theories/HKStateFacts.v
theories/Properties_HKState.v
theories/CKState.v
theories/CKStateSpec.v
theories/CKStateFacts.v
theories/CKStateEx.v
theories/Properties_CKState.v
theories/SKState.v
theories/SKStateSpec.v
theories/SKStateFacts.v
theories/SKStateEx.v
theories/Properties_SKState.v
theories/MFUnits.v
theories/Properties_Units.v
theories/LikSpec.v
theories/LikFacts.v
theories/LikMain.v
theories/LikEx.v
theories/OrderFacts.v
theories/Properties_Lik.v
theories/BlupSpec.v
theories/BlupFacts.v
theories/BlupMain.v
theories/Properties_Blup.v
theories/RankSpec.v
theories/RankFacts.v
theories/RankEx.v
theories/Properties_Rank.v
theories/AcqUnitsSpec.v
theories/AcqUnits.v
theories/Properties_AcqUnits.v
theories/EAFiles.v
theories/EAFilesSpec.v
theories/EAFilesFacts.v
theories/Properties_EAFiles.v
theories/CKGrow.v
theories/CKGrowSpec.v
theories/CKGrowFacts.v
theories/Properties_CKGrow.v
theories/FarSpec.v
theories/FarFacts.v
theories/FarMain.v
theories/Properties_Far.v
theories/TrainFl.v
theories/TrainFlSpec.v
theories/TrainFlFacts.v
theories/TrainFlMain.v
theories/TrainFlWit.v
theories/Properties_TrainFl.v
theories/CKTrainFl.v
theories/CKTrainFlMain.v
theories/Properties_CKTrainFl.v
theories/WideFl.v
theories/WideFlSpec.v
theories/WideFlMain.v
theories/Properties_WideFl.v
theories/HKTrainFl.v
theories/HKTrainFlMain.v
theories/Properties_HKTrainFl.v
theories/SKTrainFl.v
theories/SKTrainFlMain.v
theories/Properties_SKTrainFl.v
theories/AcqFl.v
theories/AcqFlSpec.v
theories/AcqFlFacts.v
theories/AcqFlMain.v
theories/AcqFlMulti.v
theories/AcqFlErr.v
theories/AcqFlErrMore.v
theories/AcqFlWit.v
theories/Properties_AcqFl.v
theories/SampFlSpec.v
theories/SampFlMain.v
theories/SampFlThms.v
theories/SampFlWit.v
theories/Properties_SampFl.v
theories/PredFlSpec.v
theories/PredFlMean.v
theories/PredFlCore.v
theories/PredFlMain.v
theories/PredFlWit.v
theories/PredFlThms.v
theories/Properties_PredFl.v
theories/StdFlSpec.v
theories/StdFlReal.v
theories/StdFlCell.v
theories/StdFlMain.v
theories/StdFlWit.v
theories/Properties_StdFl.v
theories/NoiseFlSpec.v
theories/NoiseFlMain.v
theories/NoiseFlWit.v
theories/Properties_NoiseFl.v
