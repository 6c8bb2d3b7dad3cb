-Q theories Verif
theories/LzwModel.v
theories/LzwBits.v
theories/LzwProofs.v
theories/LzwProps.v
theories/ParallelModel.v
theories/ParallelProofs.v
theories/ParallelProps.v
theories/AllocModel.v
theories/AllocSpec.v
theories/AllocProofs.v
theories/AllocProps.v
theories/ListBase.v
theories/TensorModel.v
theories/TensorSpec.v
theories/TensorProofs.v
theories/TensorProofs2.v
theories/AliasModel.v
theories/AliasProofs.v
theories/TensorProps.v
theories/Loops.v
theories/ArrayModel.v
theories/ArrayProofs.v
theories/ArrayProps.v
theories/LayerModel.v
theories/LayerSpec.v
theories/LayerProofs.v
theories/LayerProofs2.v
theories/LayerProofs3.v
theories/LayerProofs4.v
theories/ConvProofs.v
theories/LayerProps.v
theories/ConvProps.v
theories/GraphModel.v
theories/GraphSpec.v
theories/GraphProofs.v
theories/GraphProofs2.v
theories/GraphProofs3.v
theories/GraphProofs4.v
theories/GraphProps.v
theories/GradSpec.v
theories/GradProofs.v
theories/GradProofs2.v
theories/GradProofs3.v
theories/BcastAdjoint.v
theories/CalcSpec.v
theories/CalcProofs.v
theories/CalcProofs2.v
theories/CalcProofs3.v
theories/OpModel.v
theories/OpSpec.v
theories/OpProofs.v
theories/Scalar.v
theories/OpRules.v
theories/OpRules2.v
theories/OpProofs2.v
theories/OpProofs3.v
theories/OpProofs4.v
theories/OpProofs5.v
theories/OpProofs6.v
theories/OpProps.v
theories/GradProps.v
theories/ShareProps.v
theories/OptModel.v
theories/OptSpec.v
theories/OptProofs.v
theories/OptProofs2.v
theories/OptProps.v
theories/TextModel.v
theories/TextSpec.v
theories/TextProofs.v
theories/PrintModel.v
theories/TextProps.v
theories/HolderModel.v
theories/HolderSpec.v
theories/HolderProofs.v
theories/HolderProps.v
theories/FitModel.v
theories/FitSpec.v
theories/FitProofs.v
theories/FitProps.v
theories/MnistModel.v
theories/MnistSpec.v
theories/MnistProps.v
theories/ComplexModel.v
theories/ComplexSpec.v
theories/ComplexProofs.v
theories/ComplexRun.v
theories/ComplexProps.v
theories/ComposeModel.v
theories/ComposeSpec.v
theories/ComposeProofs.v
theories/ComposeProofs2.v
theories/ComposeProps.v
theories/LossRun.v
theories/LossRun2.v
theories/LossModel.v
theories/LossProofs.v
theories/LossProofs2.v
theories/LossSpec.v
theories/LossProofs3.v
theories/LossProofs4.v
theories/LossProps.v
theories/XentSpec.v
theories/XentProofs.v
theories/XentProofs2.v
theories/XentProps.v
theories/LossTree.v
theories/PairSpec.v
theories/PairProofs.v
theories/PairProps.v
theories/ForwardCore.v
theories/BceSpec.v
theories/BceProofs.v
theories/BceProps.v
theories/NormModel.v
theories/NormSpec.v
theories/NormProofs.v
theories/NormProps.v
theories/ConcatModel.v
theories/ConcatProofs.v
theories/ConcatProps.v
theories/VectorModel.v
theories/VectorSpec.v
theories/VectorProofs.v
theories/VectorProps.v
theories/SerialModel.v
theories/SerialSpec.v
theories/SerialProofs.v
theories/SerialProps.v
theories/FunctorModel.v
theories/FunctorSpec.v
theories/FunctorProofs.v
theories/FunctorProps.v
theories/SlideModel.v
theories/SlideSpec.v
theories/SlideProofs.v
theories/SlideProps.v
theories/ArgModel.v
theories/ArgSpec.v
theories/ArgProofs.v
theories/ArgProps.v
theories/BcastOpModel.v
theories/BcastOpProofs.v
theories/BcastOpProps.v
theories/ShareBack.v
theories/ShareBackProps.v
theories/ActModel.v
theories/ActProps.v
theories/StaleSpec.v
theories/StaleProofs.v
theories/StaleProps.v
theories/StatModel.v
theories/StatSpec.v
theories/StatProofs.v
theories/StatProps.v
theories/FmtModel.v
theories/FmtSpec.v
theories/FmtProofs.v
theories/FmtProps.v
theories/DotModel.v
theories/DotSpec.v
theories/DotProofs.v
theories/DotProps.v
theories/DeclModel.v
theories/DeclSpec.v
theories/DeclProofs.v
theories/DeclProofs2.v
theories/DeclProps.v
theories/NetModel.v
theories/NetSpec.v
theories/ValueModel.v
theories/ValueSpec.v
theories/NetProofs.v
theories/NetProofs2.v
theories/NetProofs3.v
theories/NetProps.v
theories/ValueProofs.v
theories/ValueProofs2.v
theories/ValueProofs3.v
theories/ValueProps.v
theories/LearnModel.v
theories/LearnSpec.v
theories/LearnProofs.v
theories/LearnProofs2.v
theories/LearnProofs3.v
theories/LearnProps.v
theories/TrainSpec.v
theories/TrainProofs.v
theories/TrainProofs2.v
theories/TrainProps.v
theories/ViewModel.v
theories/ViewSpec.v
theories/ViewProofs.v
theories/ViewProps.v
theories/FittingSpec.v
theories/FittingProofs.v
theories/FittingProofs2.v
theories/FittingProps.v
theories/ParseModel.v
theories/ParseSpec.v
theories/ParseProofs.v
theories/ParseProps.v
theories/EpochModel.v
theories/EpochProofs.v
theories/EpochProofs2.v
theories/EpochProps.v
theories/RandModel.v
theories/RandSpec.v
theories/RandProofs.v
theories/RandProps.v
theories/RunFrame.v
theories/EvalModel.v
theories/EvalProofs.v
theories/EvalProofs2.v
theories/EvalProofs3.v
theories/EvalProps.v
theories/LifeModel.v
theories/LifeSpec.v
theories/LifeProofs.v
theories/LifeProofs2.v
theories/LifeProps.v
theories/GemmModel.v
theories/GemmSpec.v
theories/GemmProofs.v
theories/GemmProofs2.v
theories/GemmProps.v
theories/DimsModel.v
theories/DimsSpec.v
theories/DimsProofs.v
theories/DimsProofs2.v
theories/DimsProofs3.v
theories/DimsProps.v
theories/ImageModel.v
theories/ImageSpec.v
theories/ImageProofs.v
theories/ImageProps.v
theories/TqdmModel.v
theories/TqdmSpec.v
theories/TqdmProofs.v
theories/TqdmProps.v
theories/AssignModel.v
theories/AssignSpec.v
theories/AssignProofs.v
theories/AssignProps.v
theories/RangeModel.v
theories/RangeSpec.v
theories/RangeProofs.v
theories/RangeProps.v
