-Q theories Verif
theories/Base.v
theories/Numeric.v
theories/Study.v
theories/Fluent.v
theories/BaseFacts.v
theories/SpecNumeric.v
theories/NumericFacts.v
theories/P_Numeric.v
theories/SpecStudy.v
theories/StudyFacts.v
theories/FluentFacts.v
theories/P_Study.v
theories/Output.v
theories/Json.v
theories/SpecJson.v
theories/JsonFacts.v
theories/P_Json.v
theories/LP.v
theories/SpecLP.v
theories/LPFacts.v
theories/LPBuild.v
theories/LPSat.v
theories/LPResult.v
theories/LPSolve.v
theories/LPReady.v
theories/LPOpt.v
theories/LPWeak.v
theories/LPMore.v
theories/P_LP.v
theories/P_Opt.v
theories/Remote.v
theories/SpecRemote.v
theories/P_Remote.v
theories/Analyzer.v
theories/SpecAnalyzer.v
theories/AnalyzerFacts.v
theories/P_Tables.v
theories/P_Exact.v
theories/QueryFacts.v
theories/P_Query.v
theories/P_Reuse.v
theories/SumFacts.v
theories/SpecTotals.v
theories/P_Totals.v
theories/P_Cost.v
theories/Frame.v
theories/Pipeline.v
theories/SpecWorkflow.v
theories/P_Plugs.v
theories/P_Stages.v
theories/P_Focus.v
theories/P_Run.v
theories/Shuffler.v
theories/SpecShuffler.v
theories/P_Shuffler.v
theories/Viewer.v
theories/ViewFacts.v
theories/SpecViewer.v
theories/P_Viewer.v
theories/P_Map.v
theories/P_Stack.v
theories/P_Timeline.v
theories/P_CostExact.v
theories/Objects.v
theories/SpecObjects.v
theories/ObjectsFacts.v
theories/P_Objects.v
theories/P_Hash.v
theories/Seed.v
theories/P_Seed.v
theories/Picture.v
theories/P_Picture.v
theories/P_Law.v
theories/P_Accept.v
theories/P_More.v
theories/P_Units.v
theories/P_Parts.v
theories/Text.v
theories/P_Text.v
theories/P_Compare.v
theories/Optimum.v
theories/LPPrice.v
theories/LPMarket.v
theories/P_Optimum.v
theories/P_Prices.v
theories/P_Free.v
theories/P_Margin.v
theories/P_Absent.v
theories/Transport.v
theories/P_Transport.v
theories/Drawing.v
theories/P_Drawing.v
theories/P_Status.v
theories/P_Saving.v
theories/P_Routes.v
theories/T_Domain.v
theories/T_LP.v
theories/T_Solve.v
theories/T_Analyzer.v
theories/T_Workflow.v
theories/P_Mean.v
theories/P_Solvable.v
theories/P_Refused.v
theories/Settings.v
theories/P_Settings.v
theories/P_Plain.v
theories/LPNear.v
theories/P_Near.v
theories/SpecReach.v
theories/P_Reach.v
theories/SpecRead.v
theories/P_Read.v
theories/SpecReadResult.v
theories/P_ReadResult.v
theories/P_Repeat.v
theories/P_Links.v
theories/P_Order.v
theories/P_Selectors.v
theories/P_Lines.v
theories/P_Names.v
theories/Titles.v
theories/P_Titles.v
theories/SpecReadStep.v
theories/P_ReadStep.v
theories/SpecRename.v
theories/P_Rename.v
theories/P_Evolve.v
theories/SpecEnd.v
theories/P_EndToEnd.v
theories/SpecGather.v
theories/P_Gather.v
theories/SpecStack.v
theories/P_StackAll.v
theories/SpecHollow.v
theories/P_Hollow.v
theories/SpecBounds.v
theories/P_Bounds.v
theories/SpecRolling.v
theories/P_Rolling.v
theories/P_Alone.v
theories/Shared.v
theories/SpecShared.v
theories/P_Shared.v
theories/P_Inputs.v
theories/SpecFigures.v
theories/P_Figures.v
theories/P_Nothing.v
theories/SpecPlace.v
theories/P_Place.v
theories/SpecWhere.v
theories/P_Where.v
theories/P_ReadModel.v
theories/P_ReadBest.v
theories/P_Kinds.v
theories/P_StackKinds.v
