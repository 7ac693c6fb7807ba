-Q theories Verif
theories/Base.v
theories/GoFloat.v
theories/FloatSpec.v
theories/FloatProofs.v
theories/GoValue.v
theories/Formats.v
theories/Maybe.v
theories/HostSpec.v
theories/Constraint.v
theories/StructInfo.v
theories/Validate.v
theories/Fuel.v
theories/Reach.v
theories/ReadOnly.v
theories/Frame.v
theories/Preserve.v
theories/Spec.v
theories/SpecSound.v
theories/SpecObj.v
theories/SpecMain.v
theories/ConstrInd.v
theories/Terminate.v
theories/Scalars.v
theories/Structure.v
theories/Composite.v
theories/Refuted.v
theories/DocSpec.v
theories/Linear.v
theories/RefConc.v
theories/RegConc.v
theories/Server.v
theories/Fluent.v
theories/MaybeProofs.v
theories/Simulate.v
theories/StructProofs.v
theories/DefaultProofs.v
theories/StructCases.v
theories/NoPanic.v
theories/Repeat.v
theories/Cases.v
theories/DocDeviates.v
theories/Builder.v
theories/BuildSpec.v
theories/BuildProofs.v
theories/Local.v
theories/BuildRefs.v
theories/BuildErr.v
theories/Height.v
theories/SchemaSpec.v
theories/SchemaForm.v
theories/SchemaRegular.v
theories/SchemaMeans.v
theories/SchemaMain.v
theories/BuildCases.v
theories/Extras.v
theories/GoText.v
theories/GoLang.v
theories/GoEval.v
theories/Generator.v
theories/GenLex.v
theories/GenParse.v
theories/GenCode.v
theories/GenLike.v
theories/GenSpec.v
theories/GenFaith.v
theories/GenRound.v
theories/GenObj.v
theories/GenMain.v
theories/GenProcess.v
theories/GenTheorems.v
theories/GenLoss.v
theories/GenDet.v
theories/GenCases.v
theories/EndToEnd.v
theories/EndCases.v
theories/Cli.v
theories/CliProofs.v
theories/CliCases.v
theories/Heap.v
theories/HeapProofs.v
theories/HeapCases.v
theories/Custom.v
theories/CustomProofs.v
theories/CustomCases.v
theories/Witness.v
theories/WitnessBuild.v
theories/SrcSyntax.v
theories/SrcText.v
theories/SrcExec.v
theories/SrcProg.v
theories/SrcStep.v
theories/SrcScalar.v
theories/SrcString.v
theories/SrcCombo.v
theories/SrcDefault.v
theories/SrcArray.v
theories/SrcAccess.v
theories/SrcProps.v
theories/SrcSet.v
theories/SrcPlace.v
theories/SrcObject.v
theories/SrcLoops.v
theories/SrcRest.v
theories/SrcSorted.v
theories/SrcMain.v
theories/SrcCases.v
theories/SrcInfo.v
theories/SrcTextB.v
theories/SrcStore.v
theories/SrcProgB.v
theories/SrcStepB.v
theories/SrcSetters.v
theories/SrcSetObj.v
theories/SrcRep.v
theories/SrcBuildS.v
theories/SrcGuess.v
theories/SrcLoop.v
theories/SrcBuildA.v
theories/SrcBuildO.v
theories/SrcBuildAll.v
theories/SrcBuilt.v
theories/SrcBuildW.v
theories/SrcRepFun.v
theories/SrcEnd.v
theories/SrcFluent.v
theories/SrcFluentRun.v
theories/SrcTextG.v
theories/SrcGen.v
theories/SrcProgG.v
theories/SrcStepG.v
theories/SrcGenFun.v
theories/SrcGenEnum.v
theories/SrcGenStr.v
theories/SrcGenLoop.v
theories/SrcGenTree.v
theories/SrcGenObj.v
theories/SrcGenCode.v
theories/SrcGenAll.v
theories/SrcGenVal.v
theories/SrcGenMerge.v
theories/SrcGenProc.v
theories/SrcGenRun.v
theories/SrcTidy.v
theories/SrcWay.v
theories/SrcMaybe.v
theories/SrcMaybeRun.v
theories/SrcTextC.v
theories/SrcShell.v
theories/SrcCli.v
theories/SrcCliRun.v
theories/SrcCliCases.v
theories/SrcServer.v
theories/SrcServerRun.v
theories/SrcServerCases.v
theories/SrcShellWay.v
theories/PropertiesBuilder.v
theories/PropertiesConc.v
theories/PropertiesGo.v
theories/PropertiesRuns.v
theories/PropertiesScalars.v
theories/PropertiesValidate.v
theories/PropertiesGenerator.v
theories/PropertiesSource.v
