-Q theories Verif
theories/Base.v
theories/QuantityModel.v
theories/QuantityProofs.v
theories/QuantityProps.v
theories/PMapModel.v
theories/PMapProofs.v
theories/PMapProps.v
theories/ChainModel.v
theories/ChainProofs.v
theories/ChainProps.v
theories/FoldModel.v
theories/FoldProofs.v
theories/FoldProps.v
theories/Mat.v
theories/ExpmModel.v
theories/ExpmProps.v
theories/MExp.v
theories/HilbertModel.v
theories/HilbertProofs.v
theories/HilbertProps.v
theories/Hilbert2Proofs.v
theories/Hilbert2Props.v
theories/GateModel.v
theories/GateProofs.v
theories/GateProps.v
theories/PropModel.v
theories/PropProofs.v
theories/RKProofs.v
theories/MExp2.v
theories/SuperProofs.v
theories/DephProofs.v
theories/SampleProofs.v
theories/PropProps.v
theories/Prop2Props.v
theories/RSum.v
theories/FidModel.v
theories/FidProofs.v
theories/FidProps.v
theories/TaskModel.v
theories/TaskProps.v
theories/LearnModel.v
theories/LearnProps.v
theories/OptModel.v
theories/OptProps.v
theories/Erf.v
theories/EnvModel.v
theories/EnvProofs.v
theories/EnvProps.v
theories/TimingModel.v
theories/TimingProps.v
theories/Dft.v
theories/DevModel.v
theories/DevProofs.v
theories/DevProps.v
theories/Dev2Props.v
theories/MiscModel.v
theories/MiscProps.v
theories/QiskitModel.v
theories/QiskitProps.v
theories/ExpModel.v
theories/ExpProps.v
theories/ChipModel.v
theories/ChipProps.v
theories/Chip2Props.v
theories/FrameModel.v
theories/FrameProps.v
theories/Frame2Props.v
theories/RobustModel.v
theories/RobustProps.v
theories/ChiProps.v
theories/ConfModel.v
theories/ConfProps.v
theories/Conf2Model.v
theories/Conf2Props.v
theories/TrajModel.v
theories/TrajProps.v
theories/Euler.v
theories/PosProofs.v
theories/PosProps.v
theories/Expm2Props.v
theories/Exp3Props.v
theories/RegModel.v
theories/RegProps.v
theories/EstModel.v
theories/EstProps.v
theories/LearnRunModel.v
theories/LearnRunProps.v
theories/RBModel.v
theories/RBProps.v
theories/CalibModel.v
theories/CalibProps.v
theories/Fid2Model.v
theories/Fid2Props.v
theories/TraceModel.v
theories/TraceProps.v
theories/SensModel.v
theories/SensProps.v
theories/BackendModel.v
theories/BackendProps.v
theories/Rk4Model.v
theories/Rk4Props.v
theories/LearnGradModel.v
theories/LearnGradProps.v
theories/GoalModel.v
theories/GoalProps.v
theories/MainModel.v
theories/MainProps.v
theories/QuickModel.v
theories/QuickProps.v
theories/AlgoModel.v
theories/AlgoProps.v
theories/LogModel.v
theories/LogProps.v
theories/LoggerModel.v
theories/LoggerProps.v
theories/NoiseModel.v
theories/NoiseProps.v
theories/HighpassModel.v
theories/HighpassProps.v
theories/MDeriv.v
theories/ConvProps.v
theories/OdeConvProofs.v
theories/OdeGlobalProofs.v
theories/OdeConvProps.v
theories/GoalConvProps.v
theories/QGateModel.v
theories/QGateProps.v
theories/EnvMoreModel.v
theories/EnvMoreProps.v
theories/TomoModel.v
theories/TomoProps.v
theories/BasisModel.v
theories/BasisProps.v
theories/FluxModel.v
theories/FluxProps.v
theories/StoreModel.v
theories/StoreProps.v
theories/PrintModel.v
theories/PrintProps.v
theories/DmModel.v
theories/DmProps.v
theories/Exp4Props.v
theories/ProviderModel.v
theories/ProviderProps.v
theories/CmaOptModel.v
theories/CmaOptProps.v
theories/TrottModel.v
theories/TrottProps.v
theories/Chain2Props.v
theories/SparseModel.v
theories/SparseProps.v
theories/IndepProps.v
theories/Store2Props.v
theories/LimitProps.v
theories/SectorProps.v
theories/SplitProps.v
theories/DecayProps.v
theories/ClosedProps.v
theories/AmpModel.v
theories/AmpProps.v
theories/OpenIndepProps.v
theories/SettingsModel.v
theories/SettingsProps.v
theories/ZeroProps.v
theories/ConstProps.v
