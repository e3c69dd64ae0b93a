-Q theories Verif
theories/Base/Angle.v
theories/Base/Cplx.v
theories/Base/Expm.v
theories/Base/Fiber.v
theories/Base/Matrix.v
theories/Base/Py.v
theories/Base/PyFacts.v
theories/Base/Radix.v
theories/Base/Regex.v
theories/Base/RegexFacts.v
theories/Base/RegexLang.v
theories/Base/Text.v
theories/Base/TextFacts.v
theories/Circuit/CircuitModel.v
theories/Circuit/CircuitProofs.v
theories/Circuit/CircuitProps.v
theories/Circuit/CircuitSpec.v
theories/Circuit/ClassicProofs.v
theories/Circuit/ClassicProps.v
theories/Circuit/ClassicSpec.v
theories/Circuit/ConstructorProofs.v
theories/Circuit/GateModel.v
theories/Circuit/GateProofs.v
theories/Circuit/GateProps.v
theories/Circuit/GateSpec.v
theories/Circuit/NewModel.v
theories/Circuit/NewProofs.v
theories/Circuit/NewProps.v
theories/Compiler/ChosenCases.v
theories/Compiler/ChosenModel.v
theories/Compiler/ChosenProofs.v
theories/Compiler/ChosenProps.v
theories/Compiler/ChosenSpec.v
theories/Compiler/DeviceNoiseModel.v
theories/Compiler/DeviceNoiseProofs.v
theories/Compiler/DeviceNoiseProps.v
theories/Compiler/DeviceNoiseSpec.v
theories/Compiler/DispatchModel.v
theories/Compiler/DispatchProofs.v
theories/Compiler/DispatchProps.v
theories/Compiler/DispatchSpec.v
theories/Compiler/ElementarySpec.v
theories/Compiler/TreeModel.v
theories/Compiler/TreeProofs.v
theories/Compiler/TreeProps.v
theories/Compiler/TreeSpec.v
theories/Compiler/WholeAda.v
theories/Compiler/WholeCases.v
theories/Compiler/WholeElementary.v
theories/Compiler/WholeLanes.v
theories/Compiler/WholeMerge.v
theories/Compiler/WholeModel.v
theories/Compiler/WholeNorm.v
theories/Compiler/WholeOps.v
theories/Compiler/WholeProofs.v
theories/Compiler/WholeProps.v
theories/Compiler/WholeSpec.v
theories/Compiler/WholeTwice.v
theories/Ent/BlockModel.v
theories/Ent/BlockProps.v
theories/Ent/BlockSpec.v
theories/Ent/CircuitProofs.v
theories/Ent/CircuitSpec.v
theories/Ent/CrotProofs.v
theories/Ent/EmitProofs.v
theories/Ent/ExecProofs.v
theories/Ent/LibProofs.v
theories/Ent/PairMath.v
theories/Ent/PassModel.v
theories/Ent/PassProofs.v
theories/Ent/PassProps.v
theories/Ent/PassSpec.v
theories/Ent/PermProofs.v
theories/Ent/QuadMath.v
theories/Ent/SwapProofs.v
theories/Gates/ActsOn.v
theories/Gates/AnglesModel.v
theories/Gates/AnglesProofs.v
theories/Gates/AnglesProps.v
theories/Gates/AnglesSpec.v
theories/Gates/CostProofs.v
theories/Gates/CostProps.v
theories/Gates/Embed.v
theories/Gates/EntProofs.v
theories/Gates/FactoryMain.v
theories/Gates/FactoryModel.v
theories/Gates/FactoryProofs.v
theories/Gates/FactoryProps.v
theories/Gates/FactorySpec.v
theories/Gates/GellModel.v
theories/Gates/GellProofs.v
theories/Gates/GellProps.v
theories/Gates/GellSpec.v
theories/Gates/SingleModel.v
theories/Gates/SingleProofs.v
theories/Gates/SingleProps.v
theories/Gates/SingleSpec.v
theories/Gates/SourceModel.v
theories/Gates/SourceProofs.v
theories/Gates/SourceProps.v
theories/Gates/SourceSpec.v
theories/Gates/TwoModel.v
theories/Gates/TwoProofs.v
theories/Gates/TwoProps.v
theories/Gates/TwoSpec.v
theories/Lanes/ExtractProofs.v
theories/Lanes/GroupProofs.v
theories/Lanes/LanesModel.v
theories/Lanes/LanesProofs.v
theories/Lanes/LanesProps.v
theories/Lanes/LanesSpec.v
theories/Lanes/ResynthProofs.v
theories/Lanes/UnitaryProofs.v
theories/Levels/BackendProofs.v
theories/Levels/CarrierModel.v
theories/Levels/CarrierProofs.v
theories/Levels/CarrierProps.v
theories/Levels/DistanceProofs.v
theories/Levels/DistanceProps.v
theories/Levels/DistanceSpec.v
theories/Levels/GraphProofs.v
theories/Levels/LevelsModel.v
theories/Levels/LevelsProofs.v
theories/Levels/LevelsProps.v
theories/Levels/LevelsSpec.v
theories/Levels/PhaseProofs.v
theories/Levels/RouteProofs.v
theories/Local/AdaFound.v
theories/Local/AdaModel.v
theories/Local/AdaPasses.v
theories/Local/AdaProofs.v
theories/Local/AdaProps.v
theories/Local/AdaSpec.v
theories/Local/PhyAda.v
theories/Local/PhyCases.v
theories/Local/PhyFound.v
theories/Local/PhyPasses.v
theories/Local/PhyProps.v
theories/Local/PhyPulse.v
theories/Local/PhySpec.v
theories/Local/PhyStep.v
theories/Local/PhyUpdate.v
theories/Local/PulseProofs.v
theories/Local/QrCases.v
theories/Local/QrCore.v
theories/Local/QrCostProofs.v
theories/Local/QrCostProps.v
theories/Local/QrCostSpec.v
theories/Local/QrEmit.v
theories/Local/QrMath.v
theories/Local/QrModel.v
theories/Local/QrMoved.v
theories/Local/QrPasses.v
theories/Local/QrPhysical.v
theories/Local/QrProofs.v
theories/Local/QrProps.v
theories/Local/QrSpec.v
theories/Local/SearchProofs.v
theories/Local/TreeModel.v
theories/Local/TreeProofs.v
theories/Local/TreeProps.v
theories/Local/TreeSpec.v
theories/Misim/CanonProofs.v
theories/Misim/ControlsProofs.v
theories/Misim/DdGateProofs.v
theories/Misim/DdModel.v
theories/Misim/DdProofs.v
theories/Misim/DdSpec.v
theories/Misim/KronModel.v
theories/Misim/KronProofs.v
theories/Misim/KronProps.v
theories/Misim/KronSpec.v
theories/Misim/MisimLimitProofs.v
theories/Misim/MisimMatProofs.v
theories/Misim/MisimModel.v
theories/Misim/MisimNoiseProofs.v
theories/Misim/MisimProofs.v
theories/Misim/MisimProps.v
theories/Misim/MisimSpec.v
theories/Misim/NodeModel.v
theories/Misim/NodeProofs.v
theories/Misim/NodeProps.v
theories/Misim/NodeShapeProofs.v
theories/Misim/NodeSpec.v
theories/Misim/PartModel.v
theories/Misim/PartProofs.v
theories/Misim/PartProps.v
theories/Misim/PartSpec.v
theories/Misim/SessionCountProofs.v
theories/Misim/SessionModel.v
theories/Misim/SessionMoreProofs.v
theories/Misim/SessionProofs.v
theories/Misim/SessionProps.v
theories/Misim/SessionReadProofs.v
theories/Misim/SessionRunProofs.v
theories/Misim/SessionSpec.v
theories/Misim/SpreadModel.v
theories/Misim/SpreadProofs.v
theories/Misim/SpreadProps.v
theories/Misim/SpreadSpec.v
theories/Misim/TableCases.v
theories/Misim/TableCountProofs.v
theories/Misim/TableModel.v
theories/Misim/TableProofs.v
theories/Misim/TableProps.v
theories/Misim/TableSpec.v
theories/Misim/TransModel.v
theories/Misim/TransProofs.v
theories/Misim/TransProps.v
theories/Misim/TransSpec.v
theories/Noise/ChannelProofs.v
theories/Noise/ChannelProps.v
theories/Noise/ChannelSpec.v
theories/Noise/InsertModel.v
theories/Noise/InsertProofs.v
theories/Noise/InsertProps.v
theories/Noise/InsertSpec.v
theories/Noise/NoiseModel.v
theories/Noise/NoiseProofs.v
theories/Noise/NoiseProps.v
theories/Noise/NoiseSpec.v
theories/Passes/IntervalProofs.v
theories/Passes/PhasesModel.v
theories/Passes/PhasesProofs.v
theories/Passes/PhasesProps.v
theories/Passes/PhasesSpec.v
theories/Passes/RemovalProofs.v
theories/Passes/StatsProofs.v
theories/Passes/WitnessProofs.v
theories/Qasm/CtlProofs.v
theories/Qasm/FilesModel.v
theories/Qasm/FilesProofs.v
theories/Qasm/FilesProps.v
theories/Qasm/FilesSpec.v
theories/Qasm/GateLineProofs.v
theories/Qasm/ImportCtl.v
theories/Qasm/ImportProofs.v
theories/Qasm/LineProofs.v
theories/Qasm/MethodModel.v
theories/Qasm/MethodProofs.v
theories/Qasm/MethodProps.v
theories/Qasm/MethodSpec.v
theories/Qasm/ParserProofs.v
theories/Qasm/QasmModel.v
theories/Qasm/QasmProofs.v
theories/Qasm/QasmProps.v
theories/Qasm/QasmSpec.v
theories/Qasm/ReadFileProofs.v
theories/Qasm/RegProofs.v
theories/Qasm/RegisterProofs.v
theories/Qasm/RegisterProps.v
theories/Qasm/RegisterSpec.v
theories/Qasm/RoundTripProofs.v
theories/Sim/BackendModel.v
theories/Sim/BackendProofs.v
theories/Sim/BackendProps.v
theories/Sim/BackendSpec.v
theories/Sim/JobModel.v
theories/Sim/JobProofs.v
theories/Sim/JobProps.v
theories/Sim/JobSpec.v
theories/Sim/SaveModel.v
theories/Sim/SaveProofs.v
theories/Sim/SaveProps.v
theories/Sim/SaveSpec.v
theories/Sim/ShotsModel.v
theories/Sim/ShotsProofs.v
theories/Sim/ShotsProps.v
theories/Sim/ShotsSpec.v
theories/Sim/TnModel.v
theories/Sim/TnProofs.v
theories/Sim/TnProps.v
theories/Sim/TnSpec.v
theories/State/CutProofs.v
theories/State/DdModel.v
theories/State/DdProofs.v
theories/State/DdProps.v
theories/State/DdSpec.v
theories/State/Drop.v
theories/State/LocalSeq.v
theories/State/OpAct.v
theories/State/PrepCases.v
theories/State/PrepModel.v
theories/State/PrepOk.v
theories/State/PrepProps.v
theories/State/PrepSpec.v
theories/State/RetrieveModel.v
theories/State/RetrieveProofs.v
theories/State/RetrieveProps.v
theories/State/RetrieveSpec.v
theories/State/StatCases.v
theories/State/StatModel.v
theories/State/StatProofs.v
theories/State/StatProps.v
theories/State/StatSpec.v
theories/State/Synth.v
theories/Variational/AnsatzModel.v
theories/Variational/AnsatzProofs.v
theories/Variational/AnsatzProps.v
theories/Variational/AnsatzSpec.v
theories/Variational/AnsatzUnitary.v
theories/Variational/EmitCases.v
theories/Variational/EmitProofs.v
theories/Variational/FidelityModel.v
theories/Variational/FidelityProofs.v
theories/Variational/FidelityProps.v
theories/Variational/PrimProofs.v
theories/Variational/PrimProps.v
theories/Variational/PrimSpec.v
theories/Variational/SearchModel.v
theories/Variational/SearchProofs.v
theories/Variational/SearchProps.v
theories/Variational/SearchSpec.v
theories/Variational/SparseModel.v
theories/Variational/SparseObjective.v
theories/Variational/SparseProofs.v
theories/Variational/SparseProps.v
theories/Variational/SparseSpec.v
theories/Variational/SudProofs.v
theories/Verify/VerifyModel.v
theories/Verify/VerifyProofs.v
theories/Verify/VerifyProps.v
theories/Verify/VerifySpec.v
theories/Verify/VerifyUnitary.v
theories/Visual/DensityProofs.v
theories/Visual/DrawModel.v
theories/Visual/DrawProofs.v
theories/Visual/DrawProps.v
theories/Visual/DrawSpec.v
theories/Visual/RemapProofs.v
theories/Visual/TraceProofs.v
theories/Visual/VisModel.v
theories/Visual/VisProps.v
theories/Visual/VisSpec.v
