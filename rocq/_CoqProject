-Q theories Verif
theories/Base.v
theories/PotentialModel.v
theories/BaseProofs.v
theories/PotentialSpec.v
theories/PotentialProofs.v
theories/PotentialProofs2.v
theories/PotentialProofs3.v
theories/PotentialProofs4.v
theories/PropertiesPotential.v
theories/VariableModel.v
theories/VariableSpec.v
theories/VariableProofs.v
theories/PropertiesVariable.v
theories/HeapModel.v
theories/HeapSpec.v
theories/HeapProofs.v
theories/PropertiesHeap.v
theories/JoinTreeModel.v
theories/AssignSpec.v
theories/JoinTreeSpec.v
theories/AssignProofs.v
theories/JoinTreeProofs.v
theories/JoinTreeProofs2.v
theories/JoinTreeProofs3.v
theories/JoinTreeProofs4.v
theories/JoinTreeProofs5.v
theories/JoinTreeProofs6.v
theories/JoinTreeProofs7.v
theories/JoinTreeCheck.v
theories/PropertiesJoinTree.v
theories/NipModel.v
theories/NipSpec.v
theories/NipProofs.v
theories/NipProofs2.v
theories/NipProofs3.v
theories/NipProofs4.v
theories/NipCheck.v
theories/GatherModel.v
theories/GatherProofs.v
theories/GatherProofs2.v
theories/PropertiesNip.v
theories/SliceModel.v
theories/SliceSpec.v
theories/SliceProofs.v
theories/SliceProofs2.v
theories/SliceProofs3.v
theories/SliceProofs4.v
theories/SliceProofs5.v
theories/SliceCheck.v
theories/PropertiesSlice.v
theories/LearnModel.v
theories/LearnSpec.v
theories/LearnProofs.v
theories/LearnProofs2.v
theories/LearnProofs3.v
theories/LearnProofs4.v
theories/LearnProofs5.v
theories/LearnProofs6.v
theories/LearnProofs7.v
theories/LearnProofs8.v
theories/LearnCheck.v
theories/LearnProofs9.v
theories/FactorProofs.v
theories/PropertiesLearn.v
theories/HeapProofs2.v
theories/GraphModel.v
theories/GraphSpec.v
theories/GraphTheory.v
theories/GraphTheory2.v
theories/GraphProofs.v
theories/GraphProofs2.v
theories/ReorderProofs.v
theories/GraphProofs3.v
theories/GraphProofs4.v
theories/GraphProofs5.v
theories/GraphProofs6.v
theories/GraphProofs7.v
theories/GraphProofs8.v
theories/GraphCheck.v
theories/PropertiesGraph.v
theories/ParseModel.v
theories/ParseSpec.v
theories/ParseProofs.v
theories/ParseProofs2.v
theories/ParseProofs3.v
theories/ParseProofs4.v
theories/ParseProofs5.v
theories/ParseProofs6.v
theories/ParseProofs7.v
theories/ParseProofs8.v
theories/ParseProofs9.v
theories/ParseCheck.v
theories/ParseProofs10.v
theories/PropertiesParse.v
theories/StringModel.v
theories/StringSpec.v
theories/StringProofs.v
theories/StringProofs2.v
theories/ListModel.v
theories/ListSpec.v
theories/ListProofs.v
theories/ErrorModel.v
theories/ErrorProofs.v
theories/PropertiesText.v
theories/SeriesFileModel.v
theories/SeriesFileSpec.v
theories/SeriesFileProofs.v
theories/SeriesFileProofs2.v
theories/SeriesFileProofs3.v
theories/SeriesFileProofs4.v
theories/SeriesFileProofs5.v
theories/SeriesFileProofs6.v
theories/SeriesFileProofs7.v
theories/PropertiesSeries.v
theories/NetLexModel.v
theories/NetGrammarModel.v
theories/NetSpec.v
theories/NetLexProofs.v
theories/NetLexProofs2.v
theories/NetGrammarProofs.v
theories/NetGrammarProofs2.v
theories/NetCheck.v
theories/NetProofs3.v
theories/PropertiesNet.v
theories/WriteModel.v
theories/WriteSpec.v
theories/WriteProofs.v
theories/WriteProofs2.v
theories/WriteProofs3.v
theories/WriteProofs4.v
theories/WriteProofs5.v
theories/WriteProofs6.v
theories/WriteProofs7.v
theories/WriteProofs8.v
theories/WriteProofs9.v
theories/WriteProofs10.v
theories/WriteProofs11.v
theories/WriteCheck.v
theories/PropertiesWrite.v
theories/ToolModel.v
theories/ToolSpec.v
theories/ToolProofs.v
theories/ToolProofs2.v
theories/ToolProofs3.v
theories/ToolProofs4.v
theories/ToolProofs5.v
theories/ToolCheck.v
theories/PropertiesTool.v
theories/ToolModel2.v
theories/ToolSpec2.v
theories/ToolProofs6.v
theories/ToolProofs7.v
theories/ToolProofs8.v
theories/PropertiesTool2.v
theories/ToolModel3.v
theories/ToolSpec3.v
theories/ToolProofs9.v
theories/ToolProofs10.v
theories/ToolProofs11.v
theories/ToolProofs12.v
theories/ToolProofs13.v
theories/ToolProofs14.v
theories/PropertiesTool3.v
theories/ToolSpec4.v
theories/EmProofs.v
theories/EmProofs2.v
theories/EmProofs3.v
theories/PropertiesTool4.v
theories/MemoryModel.v
theories/MemorySpec.v
theories/MemoryProofs.v
theories/MemoryProofs2.v
theories/MemoryProofs3.v
theories/MemoryProofs4.v
theories/MemoryProofs5.v
theories/MemoryProofs6.v
theories/MemoryProofs7.v
theories/MemoryProofs8.v
theories/MemoryProofs9.v
theories/MemoryProofs10.v
theories/MemoryProofs11.v
theories/MemoryProofs12.v
theories/MemoryProofs13.v
theories/PropertiesMemory.v
theories/ToolModel4.v
theories/ToolSpec5.v
theories/ToolProofs15.v
theories/ToolProofs16.v
theories/ToolProofs17.v
theories/ToolCheck2.v
theories/PropertiesTool5.v
theories/RoundModel.v
theories/RoundSpec.v
theories/RoundProofs.v
theories/RoundProofs2.v
theories/RoundProofs3.v
theories/RoundProofs4.v
theories/RoundProofs5.v
theories/RoundProofs6.v
theories/RoundProofs7.v
theories/RoundProofs8.v
theories/RoundProofs9.v
theories/RoundProofs10.v
theories/RoundProofs11.v
theories/RoundProofs12.v
theories/PropertiesRound.v
theories/RoundSpec2.v
theories/RoundProofs13.v
theories/RoundProofs14.v
theories/RoundProofs15.v
theories/PropertiesRound2.v
theories/RoundModel2.v
theories/RoundProofs16.v
theories/RoundProofs17.v
theories/RoundProofs18.v
theories/RoundCheck2.v
theories/PropertiesRound3.v
theories/MemoryModel2.v
theories/MemorySpec2.v
theories/MemoryProofs14.v
theories/MemoryProofs15.v
theories/MemoryProofs16.v
theories/MemoryProofs17.v
theories/MemoryProofs18.v
theories/PropertiesMemory2.v
theories/RoundModel3.v
theories/RoundSpec3.v
theories/RoundProofs19.v
theories/RoundProofs20.v
theories/RoundProofs21.v
theories/RoundProofs22.v
theories/RoundProofs23.v
theories/RoundProofs24.v
theories/RoundCheck3.v
theories/PropertiesRound4.v
theories/MemoryModel3.v
theories/MemoryProofs19.v
theories/MemoryProofs20.v
theories/MemoryProofs21.v
theories/MemoryProofs22.v
theories/MemoryProofs23.v
theories/MemoryProofs24.v
theories/MemorySpec3.v
theories/MemoryProofs25.v
theories/PropertiesMemory3.v
theories/MemoryModel4.v
theories/MemorySpec4.v
theories/MemoryProofs26.v
theories/MemoryProofs27.v
theories/MemoryProofs28.v
theories/MemoryProofs29.v
theories/MemoryProofs30.v
theories/MemoryProofs31.v
theories/MemoryProofs32.v
theories/PropertiesMemory4.v
theories/ToolModel5.v
theories/ToolSpec6.v
theories/ToolProofs18.v
theories/ToolProofs19.v
theories/ToolCheck3.v
theories/PropertiesTool6.v
theories/MemoryModel5.v
theories/MemorySpec5.v
theories/MemoryProofs33.v
theories/MemoryProofs34.v
theories/MemoryProofs35.v
theories/PropertiesMemory5.v
theories/MemoryModel6.v
theories/MemorySpec6.v
theories/MemoryProofs36.v
theories/MemoryProofs37.v
theories/MemoryProofs38.v
theories/PropertiesMemory6.v
theories/MemoryModel7.v
theories/MemorySpec7.v
theories/MemoryProofs39.v
theories/PropertiesMemory7.v
theories/PotPropSpec.v
theories/PotPropModel.v
theories/PotPropProofs.v
theories/PropertiesPotProp.v
theories/CostModel.v
theories/CostProofs.v
theories/CostProofs2.v
theories/PropertiesCost.v
theories/SeedSpec.v
theories/SeedModel.v
theories/SeedProofs.v
theories/PropertiesSeed.v
theories/MemorySpec8.v
theories/MemoryModel8.v
theories/MemoryProofs40.v
theories/MemoryProofs41.v
theories/PropertiesMemory8.v
theories/ArgumentSpec.v
theories/ArgumentModel.v
theories/ArgumentProofs.v
theories/ArgumentProofs2.v
theories/PropertiesArgument.v
theories/RereadSpec.v
theories/RereadModel.v
theories/RereadProofs.v
theories/RereadProofs2.v
theories/PropertiesReread.v
theories/LinkSpec.v
theories/LinkModel.v
theories/LinkProofs.v
theories/LinkProofs2.v
theories/PropertiesLink.v
theories/KeptSpec.v
theories/KeptModel.v
theories/KeptProofs.v
theories/KeptCheck.v
theories/PropertiesKept.v
theories/LostModel.v
theories/LostSpec.v
theories/LostProofs.v
theories/PropertiesLost.v
theories/StaleModel.v
theories/StaleSpec.v
theories/StaleProofs.v
theories/StaleProofs2.v
theories/PropertiesStale.v
theories/SizeModel.v
theories/SizeSpec.v
theories/SizeProofs.v
theories/SizeCheck.v
theories/PropertiesSize.v
