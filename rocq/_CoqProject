-Q theories Verif
theories/Prelude.v
theories/OField.v
theories/OFieldR.v
theories/ParallelModel.v
theories/ParallelSpec.v
theories/ParallelProofs.v
theories/ArrayModel.v
theories/ArraySpec.v
theories/ArrayProofs.v
theories/ArrayProps.v
theories/UniqueModel.v
theories/UniqueSpec.v
theories/UniqueProofs.v
theories/UniqueProps.v
theories/SparseModel.v
theories/SparseSpec.v
theories/SparseProofs.v
theories/SparseProps.v
theories/GraphModel.v
theories/GraphSpec.v
theories/GraphProofs.v
theories/GraphProps.v
theories/GaModel.v
theories/GaSpec.v
theories/GaProofs.v
theories/GaDecodeProofs.v
theories/GaRunProofs.v
theories/GaSolveProofs.v
theories/GaProps.v
theories/SolveModel.v
theories/SolveSpec.v
theories/SolveProofs.v
theories/SolveRegProofs.v
theories/SolveCorProofs.v
theories/SolveProps.v
theories/KernModel.v
theories/KernSpec.v
theories/KernProofs.v
theories/KernProps.v
theories/TensorModel.v
theories/TensorSpec.v
theories/TensorProofs.v
theories/TensorOpProofs.v
theories/CrossProofs.v
theories/LinModel.v
theories/LinSpec.v
theories/LinProofs.v
theories/TensorRefute.v
theories/TensorExtra.v
theories/TensorProps.v
theories/FrameHistModel.v
theories/FrameHistSpec.v
theories/FrameArrayModel.v
theories/FrameHistProofs.v
theories/FrameHistProps.v
theories/FuncModel.v
theories/RelModel.v
theories/LpModel.v
theories/FuncSpec.v
theories/FuncProofs.v
theories/RelProofs.v
theories/ParseProofs.v
theories/RelBuildProofs.v
theories/LpProofs.v
theories/FuncCounter.v
theories/FuncProps.v
theories/ParseRead.v
theories/TestFunModel.v
theories/TestFunSpec.v
theories/TestFunProofs.v
theories/TestFunProps.v
theories/QuadModel.v
theories/QuadSpec.v
theories/QuadProofs.v
theories/QuadProps.v
theories/LogicalModel.v
theories/LogicalSpec.v
theories/LogicalProofs.v
theories/LogicalCounter.v
theories/LogicalProps.v
theories/Inverse.v
theories/LagModel.v
theories/LagSpec.v
theories/LagProofs.v
theories/LagDeriv.v
theories/LagProps.v
theories/LsModel.v
theories/LsSpec.v
theories/LsProofs.v
theories/LsBasis.v
theories/LsEq.v
theories/LsFit.v
theories/LsCases.v
theories/LsExamples.v
theories/LsProps.v
theories/LinDeriv.v
theories/LsReal.v
theories/LsDerivSpec.v
theories/LsDeriv.v
theories/Spline.v
theories/LsWeights.v
theories/LsDerivCases.v
theories/LsDerivCounter.v
theories/LsDerivProps.v
theories/MlsModel.v
theories/MlsSpec.v
theories/MlsProofs.v
theories/MlsCounter.v
theories/MlsProps.v
theories/CoeffSpec.v
theories/CoeffProofs.v
theories/CoeffProps.v
theories/FuncCallModel.v
theories/FuncCallSpec.v
theories/FuncCallProofs.v
theories/FuncCallProps.v
theories/CollModel.v
theories/CollSpec.v
theories/CollProofs.v
theories/CollProps.v
theories/DefModel.v
theories/DefSpec.v
theories/DefProofs.v
theories/DefProps.v
theories/NumpyModel.v
theories/NumpyProps.v
theories/MiscModel.v
theories/MiscSpec.v
theories/MiscProofs.v
theories/MiscProps.v
theories/WrapModel.v
theories/WrapProps.v
theories/FloatModel.v
theories/FloatProofs.v
theories/FloatProps.v
theories/FloatDot.v
theories/CompiledModel.v
theories/CompiledProps.v
theories/TransposeModel.v
theories/TransposeProps.v
theories/FloatMls.v
theories/FloatSolve.v
theories/FloatWeight.v
theories/FloatInv.v
theories/JagMemModel.v
theories/JagMemProps.v
theories/FloatSegment.v
theories/FloatRange.v
theories/FloatInvU.v
theories/ArrayMore.v
theories/GaMemModel.v
theories/GaMemProps.v
theories/WrapMore.v
theories/FloatClose.v
theories/FrameTrans.v
theories/FloatNorm.v
theories/LabelModel.v
theories/LabelProps.v
theories/LabelErr.v
theories/DtypeModel.v
theories/DtypeProps.v
theories/TensorMet.v
theories/ClassModel.v
theories/ClassProps.v
theories/EinsumModel.v
theories/EinsumProps.v
theories/EinsumAgree.v
