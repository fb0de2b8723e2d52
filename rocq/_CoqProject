-Q theories Verif
theories/Model/Base.v
theories/Model/Num.v
theories/Model/Rng.v
theories/Model/Fitness.v
theories/Model/Vector.v
theories/Model/Tree.v
theories/Model/World.v
theories/Model/Show.v
theories/Spec/ShowSpec.v
theories/Proofs/ShowP.v
theories/Model/Operators.v
theories/Model/Selection.v
theories/Model/Creators.v
theories/Model/Evolution.v
theories/Model/Publisher.v
theories/Model/Nsga2.v
theories/Spec/FitnessSpec.v
theories/Spec/WorldSpec.v
theories/Spec/VectorSpec.v
theories/Spec/IndSpec.v
theories/Spec/SelSpec.v
theories/Spec/TreeSpec.v
theories/Spec/EvoSpec.v
theories/Proofs/Lib.v
theories/Proofs/WorldP.v
theories/Proofs/StepP.v
theories/Proofs/IndP.v
theories/Proofs/FitnessP.v
theories/Proofs/VectorP.v
theories/Proofs/VecOpP.v
theories/Proofs/VecCreateP.v
theories/Proofs/VecFinalP.v
theories/Proofs/VecEffectP.v
theories/Proofs/SelP.v
theories/Proofs/BreedP.v
theories/Proofs/EvalP.v
theories/Proofs/RunP.v
theories/Proofs/BestP.v
theories/Proofs/TraceP.v
theories/Proofs/OnceP.v
theories/Proofs/AgainP.v
theories/Proofs/CheckP.v
theories/Proofs/EvoFinalP.v
theories/Proofs/TreeP.v
theories/Proofs/TreeCreateP.v
theories/Proofs/TreeOpP.v
theories/Proofs/TreeExecP.v
theories/Proofs/TreeFinalP.v
theories/Props/FitnessProps.v
theories/Props/VectorProps.v
theories/Props/IndProps.v
theories/Props/SelProps.v
theories/Props/TreeProps.v
theories/Props/EvoProps.v
theories/Spec/PubSpec.v
theories/Proofs/PubP.v
theories/Proofs/OperP.v
theories/Props/OperProps.v
theories/Spec/Nsga2Spec.v
theories/Proofs/ParetoP.v
theories/Proofs/SortP.v
theories/Proofs/CrowdP.v
theories/Proofs/LoopP.v
theories/Proofs/Nsga2P.v
theories/Proofs/CornerP.v
theories/Proofs/MooCheckP.v
theories/Props/Nsga2Props.v
theories/Model/Double.v
theories/Model/Construct.v
theories/Proofs/DoubleP.v
theories/Proofs/ConstructP.v
theories/Props/ConstructProps.v
theories/Model/FP.v
theories/Spec/FPSpec.v
theories/Proofs/FPP.v
theories/Props/FPProps.v
theories/Model/BaseFns.v
theories/Spec/BaseSpec.v
theories/Proofs/BaseP.v
theories/Proofs/BaseValueP.v
theories/Props/BaseProps.v
theories/Model/Classifier.v
theories/Spec/ClassSpec.v
theories/Proofs/ClassP.v
theories/Props/ClassProps.v
theories/Model/Objects.v
theories/Model/Checkpoint.v
theories/Spec/ObjSpec.v
theories/Proofs/ObjP.v
theories/Proofs/CheckpointP.v
theories/Props/ObjProps.v
theories/Model/NodeStore.v
theories/Spec/NodeSpec.v
theories/Proofs/NodeP.v
theories/Props/NodeProps.v
theories/Spec/CompleteSpec.v
theories/Proofs/CompleteP.v
theories/Proofs/KindP.v
theories/Proofs/CompleteVecP.v
theories/Proofs/CompleteTreeP.v
theories/Proofs/ProgramP.v
theories/Props/CompleteProps.v
theories/Proofs/SchedP.v
theories/Spec/OrderSpec.v
theories/Proofs/OrderP.v
theories/Props/OrderProps.v
theories/Props/ShowProps.v
theories/Model/Regressor.v
theories/Spec/RegSpec.v
theories/Proofs/RegP.v
theories/Proofs/MooRunP.v
theories/Props/RegProps.v
theories/Props/MooRunProps.v
theories/Proofs/ParetoRunP.v
theories/Props/ParetoProps.v
theories/Proofs/MooCompleteP.v
theories/Props/MooCompleteProps.v
theories/Model/Statistics.v
theories/Spec/StatSpec.v
theories/Proofs/StatP.v
theories/Props/StatProps.v
theories/Spec/LimitSpec.v
theories/Proofs/LimitP.v
theories/Proofs/ShrinkP.v
theories/Props/LimitProps.v
theories/Model/Execute.v
theories/Spec/ExecuteSpec.v
theories/Proofs/ExecuteP.v
theories/Props/ExecuteProps.v
theories/Model/Population.v
theories/Proofs/PopulationP.v
theories/Props/PopulationProps.v
theories/Proofs/NodeCloneP.v
theories/Proofs/CrowdAnswerP.v
theories/Model/Setup.v
theories/Spec/SetupSpec.v
theories/Proofs/SetupP.v
theories/Props/SetupProps.v
theories/Spec/PressureSpec.v
theories/Proofs/PressureP.v
theories/Props/PressureProps.v
theories/Spec/ReachSpec.v
theories/Spec/InheritSpec.v
theories/Spec/FairSpec.v
theories/Proofs/ReachP.v
theories/Proofs/ReachVecP.v
theories/Props/ReachProps.v
theories/Spec/RootSpec.v
theories/Proofs/RootP.v
theories/Props/RootProps.v
theories/Spec/MoveSpec.v
theories/Proofs/MoveP.v
theories/Proofs/ChanceP.v
theories/Proofs/InheritP.v
theories/Proofs/FairP.v
theories/Proofs/XoReachP.v
theories/Props/MoveProps.v
theories/Props/ChanceProps.v
theories/Props/InheritProps.v
theories/Props/FairProps.v
theories/Spec/ErrorSpec.v
theories/Proofs/ErrorP.v
theories/Props/ErrorProps.v
theories/Model/Listeners.v
theories/Spec/ListenSpec.v
theories/Proofs/ListenP.v
theories/Props/ListenProps.v
theories/Model/Make.v
theories/Spec/MakeSpec.v
theories/Proofs/MakeP.v
theories/Props/MakeProps.v
theories/Spec/InterruptSpec.v
theories/Proofs/InterruptP.v
theories/Props/InterruptProps.v
theories/Spec/AnnounceSpec.v
theories/Proofs/AnnounceP.v
theories/Props/AnnounceProps.v
theories/Model/Examples.v
theories/Spec/ExamplesSpec.v
theories/Proofs/LeadP.v
theories/Proofs/TargetP.v
theories/Proofs/ExamplesP.v
theories/Props/ExamplesProps.v
theories/Model/MooStat.v
theories/Spec/MooStatSpec.v
theories/Proofs/MooStatP.v
theories/Props/MooStatProps.v
theories/Model/MooExamples.v
theories/Spec/MooExamplesSpec.v
theories/Proofs/MooExamplesP.v
theories/Props/MooExamplesProps.v
theories/Model/RootFunction.v
theories/Proofs/RootFunctionP.v
theories/Props/RootFunctionProps.v
theories/Model/Multiplexer.v
theories/Spec/MultiplexerSpec.v
theories/Proofs/MultiplexerP.v
theories/Props/MultiplexerProps.v
theories/Model/Symbolic.v
theories/Spec/SymbolicSpec.v
theories/Proofs/SymbolicP.v
theories/Props/SymbolicProps.v
theories/Model/SkClassifier.v
theories/Spec/SkClassifierSpec.v
theories/Proofs/ColumnsP.v
theories/Proofs/SkClassifierP.v
theories/Props/SkClassifierProps.v
theories/Model/SkRegressor.v
theories/Spec/SkRegressorSpec.v
theories/Proofs/SkRegressorP.v
theories/Props/SkRegressorProps.v
theories/Model/Float.v
theories/Spec/FloatSpec.v
theories/Proofs/FloatP.v
theories/Props/FloatProps.v
theories/Spec/EverySpec.v
theories/Proofs/LocalP.v
theories/Proofs/EveryP.v
theories/Props/EveryProps.v
theories/Spec/OwnSpec.v
theories/Proofs/OwnP.v
theories/Props/OwnProps.v
theories/Spec/ResumeSpec.v
theories/Proofs/ResumeP.v
theories/Props/ResumeProps.v
