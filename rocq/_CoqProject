-Q theories Verif

theories/Base.v
theories/BaseFacts.v
theories/Chunks.v
theories/ChunkSpec.v
theories/ChunkFacts.v
theories/ChunkMatch.v
theories/ChunkGround.v
theories/ChunkWitness.v
theories/Props_Chunks.v
theories/TypeFacts.v
theories/RoundFacts.v
theories/PmFacts.v
theories/ResolveFacts.v
theories/SplitFacts.v
theories/Props_Slots.v
theories/DecMem.v
theories/DecMemFacts.v
theories/FanFacts.v
theories/Forget.v
theories/ForgetSpec.v
theories/ForgetFacts.v
theories/Props_Forget.v
theories/Buffers.v
theories/BufferFacts.v
theories/ModifyFacts.v
theories/RetrieveFacts.v
theories/FinstFacts.v
theories/DecMemHeap.v
theories/HeapFacts.v
theories/Props_Memory.v
theories/Props_Buffers.v
theories/Props_Retrieve.v
theories/Productions.v
theories/ProdSpec.v
theories/ProdFacts.v
theories/ActFacts.v
theories/HarvestFacts.v
theories/CycleFacts.v
theories/LearnFacts.v
theories/SelectFacts.v
theories/ProdWitness.v
theories/Props_Productions.v
theories/EffectFacts.v
theories/UpdateFacts.v
theories/Props_Effects.v
theories/Sim.v
theories/SimFacts.v
theories/SimSpec.v
theories/SerialFacts.v
theories/StoryFacts.v
theories/InterruptFacts.v
theories/SimWitness.v
theories/Props_Sim.v
theories/Environment.v
theories/EnvSpec.v
theories/EnvFacts.v
theories/EnvWitness.v
theories/Props_Environment.v
theories/Model.v
theories/ModelSpec.v
theories/ModelFacts.v
theories/Props_Model.v
theories/MotorSpec.v
theories/MotorFacts.v
theories/ReachSpec.v
theories/LiftFacts.v
theories/ReachFacts.v
theories/Props_Lift.v
theories/MotorWitness.v
theories/Props_Motor.v
theories/Vision.v
theories/VisionSpec.v
theories/VisionFacts.v
theories/VisionWitness.v
theories/VisionEffect.v
theories/VisionRun.v
theories/Props_Vision.v
theories/Subsymbolic.v
theories/SubFacts.v
theories/SubWitness.v
theories/Props_Subsymbolic.v
theories/Compile.v
theories/CompileSpec.v
theories/CompileFacts.v
theories/CompileSame.v
theories/CompileQuery.v
theories/CompileWitness.v
theories/CompileTerms.v
theories/CompileFire.v
theories/CompileSound.v
theories/CompileSoundWitness.v
theories/Props_Compile.v
theories/Strings.v
theories/StringSpec.v
theories/StringRead.v
theories/StringMeaning.v
theories/StringChunk.v
theories/StringRule.v
theories/StringSides.v
theories/StringRound.v
theories/StringWitness.v
theories/Props_Strings.v
theories/FrameSpec.v
theories/FrameFacts.v
theories/FrameWitness.v
theories/Props_Frame.v
theories/Run.v
theories/RunSpec.v
theories/RunFacts.v
theories/SafeSpec.v
theories/RequestFacts.v
theories/QueueFacts.v
theories/SafeFacts.v
theories/SafeSteps.v
theories/SafeMain.v
theories/FailFacts.v
theories/SafeRuns.v
theories/BrokenFacts.v
theories/QuietFacts.v
theories/QuietSteps.v
theories/QuietRuns.v
theories/QuietLead.v
theories/QuietMain.v
theories/QuietPop.v
theories/ShadowFacts.v
theories/QuietEnd.v
theories/QuietGens.v
theories/RunWitness.v
theories/SafeWitness.v
theories/Props_Safe.v
theories/QuietWitness.v
theories/Props_Quiet.v
theories/Props_Run.v
theories/ShiftFacts.v
theories/Emma.v
theories/EmmaFacts.v
theories/EmmaWitness.v
theories/Props_Eyes.v
theories/CostFacts.v
theories/BillFacts.v
theories/EndFacts.v
theories/EndInit.v
theories/EndWitness.v
theories/Props_End.v
theories/FreeSpec.v
theories/FreeGens.v
theories/FreeQueue.v
theories/FreeSteps.v
theories/FreeRuns.v
theories/FreeWork.v
theories/CommandFacts.v
theories/FreeEnd.v
theories/FreeWitness.v
theories/Props_Free.v
theories/KeepSpec.v
theories/KeepFacts.v
theories/KeepRuns.v
theories/KeepWitness.v
theories/Props_Keep.v
theories/Repr.v
theories/ReprSpec.v
theories/ReprFacts.v
theories/ReprWitness.v
theories/Props_Repr.v
theories/AgainSpec.v
theories/AgainFacts.v
theories/AgainWitness.v
theories/Props_Again.v
theories/KeySpec.v
theories/KeyFacts.v
theories/KeyRuns.v
theories/KeyWitness.v
theories/Props_Key.v
theories/BusySpec.v
theories/BusyFacts.v
theories/BusyWitness.v
theories/Props_Busy.v
theories/CopySpec.v
theories/CopyFacts.v
theories/Props_Copy.v
theories/Signatures.v
theories/SignatureSpec.v
theories/SignatureFacts.v
theories/Props_Signature.v
theories/Gui.v
theories/GuiFacts.v
theories/GuiWitness.v
theories/Props_Gui.v
theories/Window.v
theories/WindowSpec.v
theories/WindowFacts.v
theories/WindowWitness.v
theories/Props_Window.v
theories/Attributes.v
theories/AttributeFacts.v
theories/Props_Attribute.v
theories/Naming.v
theories/NamingSpec.v
theories/NamingFacts.v
theories/Props_Naming.v
theories/RulesSpec.v
theories/RulesFacts.v
theories/RulesWitness.v
theories/Props_Rules.v
theories/SessionLift.v
theories/Props_Sessions.v
theories/LifeFacts.v
theories/Props_Life.v
theories/Defining.v
theories/DefiningSpec.v
theories/DefiningFacts.v
theories/Props_Defining.v
theories/SleepFacts.v
theories/Props_Sleep.v
theories/DriveFacts.v
theories/DriveWitness.v
theories/Props_Drive.v
theories/CareerSpec.v
theories/CareerFacts.v
theories/Props_Career.v
theories/Assigning.v
theories/AssigningFacts.v
theories/Props_Assigning.v
