-Q theories Verif
theories/Base.v
theories/BaseFacts.v
theories/BgModel.v
theories/BgSpec.v
theories/BgStep.v
theories/BgGen.v
theories/BgTurn.v
theories/BgReach.v
theories/BgPips.v
theories/BgMirror.v
theories/EncModel.v
theories/EncProof.v
theories/BgWitness.v
theories/BgApi.v
theories/Prop_Bg.v
theories/EncApi.v
theories/Prop_Enc.v
theories/Tensor.v
theories/BgTensor.v
theories/TttModel.v
theories/TttSpec.v
theories/TttApi.v
theories/Prop_Ttt.v
theories/F32.v
theories/F32Facts.v
theories/GameModel.v
theories/McModel.v
theories/McSpec.v
theories/McProof.v
theories/McProof2.v
theories/GameFacts.v
theories/McApi.v
theories/Prop_Mc.v
theories/AlphaModel.v
theories/AlphaSpec.v
theories/TensorFacts.v
theories/AlphaProof.v
theories/AlphaPar.v
theories/AlphaPar2.v
theories/AlphaPar3.v
theories/AlphaCount.v
theories/AlphaInst.v
theories/RoundFacts.v
theories/AlphaApi.v
theories/SampleModel.v
theories/SampleFacts.v
theories/SumFacts.v
theories/ProbFacts.v
theories/VisitSpec.v
theories/DivError.v
theories/VisitFacts.v
theories/SelfModel.v
theories/SelfSpec.v
theories/SelfProof.v
theories/AlphaApi2.v
theories/Witness.v
theories/AlphaApi3.v
theories/Prop_Alpha.v
theories/SelfApi.v
theories/SelfApi2.v
theories/Prop_Self.v
theories/VersusModel.v
theories/VersusSpec.v
theories/VersusProof.v
theories/VersusApi.v
theories/VersusStuck.v
theories/GateModel.v
theories/VersusApi2.v
theories/Prop_Versus.v
theories/TrainModel.v
theories/TrainSpec.v
theories/TrainProof.v
theories/TrainApi.v
theories/Prop_Train.v
theories/FilesModel.v
theories/FilesSpec.v
theories/FilesApi.v
theories/NetModel.v
theories/NetApi.v
theories/ConfigModel.v
theories/ConfigApi.v
theories/Prop_Files.v
theories/Prop_Net.v
theories/Prop_Config.v
theories/VersusAgents.v
theories/TrainLoop.v
theories/LogSpec.v
theories/LogProof.v
theories/AlphaLogSpec.v
theories/AlphaLog.v
theories/NanFacts.v
theories/SelectSpec.v
theories/SelectProof.v
theories/LogApi.v
theories/Prop_Log.v
theories/RepoTests.v
theories/NumFacts.v
theories/SelectNum.v
theories/JsonModel.v
theories/JsonSpec.v
theories/JsonProof.v
theories/JsonApi.v
theories/Prop_Json.v
theories/ShowModel.v
theories/ShowSpec.v
theories/ShowApi.v
theories/Prop_Show.v
theories/SeekSpec.v
theories/SeekApi.v
theories/GapFacts.v
theories/WinProof.v
theories/WinApi.v
theories/Prop_Seek.v
theories/ConfigSpec.v
theories/ConfigNum.v
theories/NetSpec.v
theories/NetApi2.v
theories/CommandModel.v
theories/CommandSpec.v
theories/CommandApi.v
theories/Prop_Command.v
theories/TreeModel.v
theories/TreeSpec.v
theories/TreeApi.v
theories/Prop_Tree.v
theories/RulesSpec.v
theories/RulesApi.v
theories/Prop_Rules.v
theories/RaceSpec.v
theories/RaceApi.v
theories/Prop_Race.v
