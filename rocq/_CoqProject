-Q theories Verif
theories/Scalar.v
theories/LinAlg.v
theories/LinAlgFacts.v
theories/ToolsModel.v
theories/ToolsSpec.v
theories/ToolsFacts.v
theories/TriFacts.v
theories/PropTools.v
theories/InterpModel.v
theories/InterpFacts.v
theories/PropInterp.v
theories/PolygonModel.v
theories/PolygonFacts.v
theories/HullFacts.v
theories/HullCases.v
theories/PropPolygon.v
theories/QPModel.v
theories/QPFacts.v
theories/QPExist.v
theories/PropQP.v
theories/NoDynModel.v
theories/TrajModel.v
theories/TrajSpec.v
theories/TrajFacts.v
theories/PropTraj.v
theories/LipModel.v
theories/BaseModel.v
theories/FootModel.v
theories/ModelsSpec.v
theories/ModelsFacts.v
theories/PropModels.v
theories/SupModel.v
theories/SupSpec.v
theories/SupFacts.v
theories/SupTime.v
theories/SupWalk.v
theories/PropSup.v
theories/PropGait.v
theories/PropSteps.v
theories/PropSupCases.v
theories/HumModel.v
theories/HumAlg.v
theories/HumSpec.v
theories/HumFacts.v
theories/HumObj.v
theories/HumProb.v
theories/HumWorld.v
theories/HumTable.v
theories/PropHum.v
theories/PropHumSolve.v
theories/PropHumCases.v
theories/ZebModel.v
theories/ZebSpec.v
theories/ZebAlg.v
theories/ZebFacts.v
theories/ZebObj.v
theories/ZebTilt.v
theories/ZebProb.v
theories/ZebCon.v
theories/ZebLive.v
theories/ZebCalls.v
theories/ZebInv.v
theories/ZebView.v
theories/ZebDemo.v
theories/PropZeb.v
theories/PropZebCases.v
theories/PropZebCalls.v
theories/PropZebSolve.v
theories/PropWeights.v
theories/HumRunSpec.v
theories/HumRun.v
theories/PropHumRun.v
theories/PropSmooth.v
theories/PropSupCalls.v
theories/PropHumCalls.v
theories/PropHumStart.v
theories/HumOptSpec.v
theories/PropHumOpt.v
theories/HumSafeSpec.v
theories/PropHumSafe.v
theories/PropHumSafeCase.v
theories/PropFoot.v
theories/RoundModel.v
theories/RoundSpec.v
theories/RoundSup.v
theories/PropRound.v
theories/LimSpec.v
theories/PropLim.v
theories/ShiftSpec.v
theories/SupShift.v
theories/SelCover.v
theories/HumShift.v
theories/HumMoved.v
theories/PropShift.v
theories/PropShiftCases.v
theories/TrajCallSpec.v
theories/PropTrajCalls.v
theories/HumPlanSpec.v
theories/PropHumPlan.v
theories/PropHumPlanCase.v
theories/DriftSpec.v
theories/DriftFacts.v
theories/PropDrift.v
theories/DriftZeb.v
theories/ZebShiftSpec.v
theories/ZebShift.v
theories/PropZebShift.v
theories/RoundHumSpec.v
theories/PropRoundHum.v
theories/HumFloatCase.v
theories/TrajShiftSpec.v
theories/TrajShift.v
theories/PropTrajShift.v
theories/SteadySpec.v
theories/PropSteady.v
