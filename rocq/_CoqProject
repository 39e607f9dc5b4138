-Q theories Verif
theories/Scalar.v
theories/Sums.v
theories/Tensor.v
theories/TensorLemmas.v
theories/EinsumLemmas.v
theories/Conv.v
theories/Abstract.v
theories/Simple.v
theories/LinearLayer.v
theories/ConvLayer.v
theories/PoolLayer.v
theories/Module.v
theories/LogLik.v
theories/Utils.v
theories/ReshapeLemmas.v
theories/Spec.v
theories/ReshapeZ.v
theories/OpLemmas.v
theories/Domain.v
theories/Jac.v
theories/LeafSpec.v
theories/LeafSimple.v
theories/LeafAct.v
theories/LeafLinear.v
theories/LeafUpsample.v
theories/LayerExact.v
theories/CustomIff.v
theories/ConvModes.v
theories/TreeBase.v
theories/TreeVjp.v
theories/StateCoh.v
theories/StateSim.v
theories/TreeMjp.v
theories/TreePull.v
theories/TreeJvp.v
theories/TreeJmp.v
theories/TreePush.v
theories/LeafPool.v
theories/PoolExact.v
theories/ConvBase.v
theories/ConvRaise.v
theories/LeafConv.v
theories/ConvExact.v
theories/Leaves.v
theories/Calls.v
theories/ValArg.v
theories/Frozen.v
theories/History.v
theories/DiagSpec.v
theories/DiagBack.v
theories/DiagExact.v
theories/NoneArg.v
theories/DiagPath.v
theories/NonParam.v
theories/Trees.v
theories/Nest.v
theories/SpecQ.v
theories/Algebra.v
theories/Splice.v
theories/Params.v
theories/Smooth.v
theories/Calc.v
theories/DerivLeaf.v
theories/Deriv.v
theories/Acts.v
theories/L2Exact.v
theories/ExamplesR.v
theories/PropC10.v
theories/PropC12.v
theories/Witness.v
theories/PropC16.v
theories/Examples.v
theories/PropC01.v
theories/PropC23.v
theories/PropC15.v
theories/PropC20.v
theories/LayerWitness.v
theories/PropC29.v
theories/LikSpec.v
theories/LikFlat.v
theories/LikCalc.v
theories/LikGrad.v
theories/LikHess.v
theories/LikMain.v
theories/LikWitness.v
theories/LikError.v
theories/LikExact.v
theories/PropC36.v
theories/BatchSpec.v
theories/Batch.v
theories/BatchProofs.v
theories/BatchDiag.v
theories/BatchWitness.v
theories/PropC19.v
theories/UtilSpec.v
theories/UtilProofs.v
theories/UtilWitness.v
theories/PropC41.v
theories/HooksSpec.v
theories/Hooks.v
theories/PropC47.v
theories/NegSpec.v
theories/LikNeg.v
theories/PropC48.v
theories/FwdSpec.v
theories/Fwd.v
theories/PropC49.v
theories/Loud.v
theories/LoudSpec.v
theories/PoolJmp.v
theories/PropC50.v
theories/LikBatch.v
theories/LikBatchMain.v
theories/PropC52.v
theories/SoundJvp.v
theories/SoundJmp.v
theories/SoundPush.v
theories/Sound.v
theories/PropC53.v
theories/LinDeriv.v
theories/UpModes.v
theories/UpExact.v
theories/UpFrac.v
theories/PropC54.v
theories/Objects.v
theories/ObjectsSpec.v
theories/ObjBase.v
theories/ObjBack.v
theories/ObjFwd.v
theories/ObjPush.v
theories/ObjMain.v
theories/ObjParams.v
theories/ObjWitness.v
theories/PropC55.v
theories/ObjCopy.v
theories/ObjCopyWitness.v
theories/PropC57.v
theories/Notebook.v
theories/NotebookProofs.v
theories/UNetProofs.v
theories/UNetWitness.v
theories/PropC58.v
theories/Storage.v
theories/StorageSpec.v
theories/StorageBase.v
theories/StorageFwd.v
theories/StorageLoops.v
theories/StorageSum.v
theories/StorageJmj.v
theories/StorageLeaf.v
theories/StorageBack.v
theories/StorageForw.v
theories/StorageTwo.v
theories/StorageMain.v
theories/StorageWitness.v
theories/PropC59.v
theories/Bench.v
theories/BenchProofs.v
theories/PropC62.v
theories/Width.v
theories/WidthProofs.v
theories/WidthWitness.v
theories/PropC64.v
theories/Dtype.v
theories/DtypeSpec.v
theories/DtypeProofs.v
theories/DtypeExact.v
theories/DtypeWitness.v
theories/PropC65.v
theories/PropC66.v
theories/RankSpec.v
theories/RankProofs.v
theories/RankProducts.v
theories/RankWitness.v
theories/PropC67.v
theories/ImgSpec.v
theories/ImgProofs.v
theories/ImgWeight.v
theories/ImgWitness.v
theories/PropC68.v
theories/Edit.v
theories/EditSpec.v
theories/EditProofs.v
theories/EditMain.v
theories/EditWitness.v
theories/PropC69.v
theories/Build.v
theories/BuildSpec.v
theories/BuildProofs.v
theories/BuildMain.v
theories/BuildLayers.v
theories/BuildWitness.v
theories/PropC70.v
theories/Slice.v
theories/SliceProofs.v
theories/SliceMore.v
theories/SliceWitness.v
theories/SliceProg.v
theories/SliceProgProofs.v
theories/SliceProgWitness.v
theories/PropC71.v
