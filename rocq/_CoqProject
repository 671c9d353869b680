-Q theories Verif
theories/Base.v
theories/Factory.v
theories/TensorModel.v
theories/TensorProofs.v
theories/TensorProps.v
theories/CrtModel.v
theories/CrtProofs.v
theories/CrtFloat.v
theories/CrtProps.v
theories/PondModel.v
theories/PondSpec.v
theories/PondProofs.v
theories/PondTrunc.v
theories/PondSecrecy.v
theories/PondProps.v
theories/PondLocalModel.v
theories/PondLocalProps.v
theories/Aby3Model.v
theories/Aby3Spec.v
theories/Aby3Bits.v
theories/Aby3Proofs.v
theories/Aby3Trunc.v
theories/Aby3Props.v
theories/Adder.v
theories/Aby3Circ.v
theories/Aby3Cmp.v
theories/Aby3CircProps.v
theories/Aby3NetModel.v
theories/Aby3NetSpec.v
theories/Bitonic.v
theories/SortLists.v
theories/Aby3Net.v
theories/Aby3NetProps.v
theories/Aby3TraceModel.v
theories/Aby3TraceSpec.v
theories/Aby3Fresh.v
theories/Aby3View.v
theories/Aby3Hide.v
theories/Aby3Draws.v
theories/Aby3Draws2.v
theories/Aby3Draws3.v
theories/Aby3Draws4.v
theories/Aby3Whole.v
theories/Aby3TraceProps.v
theories/SnnModel.v
theories/SnnSpec.v
theories/SnnProofs.v
theories/SnnLift.v
theories/SnnCmp.v
theories/SnnLsb.v
theories/SnnTop.v
theories/SnnProps.v
theories/RandModel.v
theories/RandSpec.v
theories/RandProofs.v
theories/RandSeed.v
theories/RandProps.v
theories/KernModel.v
theories/KernSpec.v
theories/KernProofs.v
theories/KernBits.v
theories/KernProps.v
theories/MemoModel.v
theories/MemoSpec.v
theories/MemoProofs.v
theories/MemoProps.v
theories/StateModel.v
theories/StateSpec.v
theories/StateProofs.v
theories/StateProps.v
theories/QueueModel.v
theories/QueueSpec.v
theories/QueueProofs.v
theories/QueueProps.v
theories/PaillierModel.v
theories/PaillierSpec.v
theories/PaillierEuler.v
theories/PaillierProofs.v
theories/PaillierProps.v
theories/FitModel.v
theories/FitSpec.v
theories/FitProofs.v
theories/FitProps.v
theories/AdamModel.v
theories/AdamProofs.v
theories/AdamProps.v
theories/GradModel.v
theories/GradSpec.v
theories/GradProofs.v
theories/GradChain.v
theories/GradLoss.v
theories/GradProps.v
theories/FpModel.v
theories/FpSpec.v
theories/FpProofs.v
theories/FpReal.v
theories/FpRecip.v
theories/FpProps.v
theories/FpLogModel.v
theories/FpLogSpec.v
theories/FpLogReal.v
theories/FpLogProofs.v
theories/FpLogMain.v
theories/FpLogProps.v
theories/FpSqrtModel.v
theories/FpSqrtSpec.v
theories/FpSqrtReal.v
theories/FpSqrtProofs.v
theories/FpSqrtMain.v
theories/FpSqrtProps.v
theories/FpExpModel.v
theories/FpExpSpec.v
theories/FpExpReal.v
theories/FpExpProofs.v
theories/FpExpMain.v
theories/FpExpProps.v
theories/FpSoftModel.v
theories/FpSoftSpec.v
theories/FpSoftReal.v
theories/FpSoftProofs.v
theories/FpSoftProps.v
theories/ConvModel.v
theories/ConvSpec.v
theories/ConvProofs.v
theories/ConvGrad.v
theories/ConvBack.v
theories/ConvProps.v
theories/PoolModel.v
theories/PoolSpec.v
theories/PoolProofs.v
theories/PoolProps.v
theories/OnnxModel.v
theories/OnnxSpec.v
theories/OnnxProofs.v
theories/OnnxLayers.v
theories/OnnxConv.v
theories/OnnxMain.v
theories/OnnxLift.v
theories/OnnxProps.v
theories/CloneModel.v
theories/CloneSpec.v
theories/CloneProofs.v
theories/CloneMain.v
theories/CloneNet.v
theories/CloneOwn.v
theories/CloneProps.v
theories/AliasModel.v
theories/AliasSpec.v
theories/AliasProofs.v
theories/AliasProps.v
theories/SigModel.v
theories/SigSpec.v
theories/SigReal.v
theories/SigProofs.v
theories/SigProps.v
theories/StoreModel.v
theories/StoreSpec.v
theories/StoreProofs.v
theories/StoreProps.v
theories/ChebModel.v
theories/ChebSpec.v
theories/ChebReal.v
theories/ChebFit.v
theories/ChebProofs.v
theories/ChebProps.v
theories/PdivModel.v
theories/PdivSpec.v
theories/PdivProofs.v
theories/PdivProps.v
theories/PolyModel.v
theories/PolySpec.v
theories/PolyReal.v
theories/PolyProofs.v
theories/PolyProps.v
theories/LoopModel.v
theories/LoopSpec.v
theories/LoopProofs.v
theories/LoopProps.v
theories/BoneModel.v
theories/BoneSpec.v
theories/BoneProps.v
theories/IterModel.v
theories/IterSpec.v
theories/IterProofs.v
theories/IterProps.v
theories/LnModel.v
theories/LnSpec.v
theories/LnProofs.v
theories/LnProps.v
theories/AdivModel.v
theories/AdivSpec.v
theories/AdivProps.v
theories/MoveModel.v
theories/MoveSpec.v
theories/MoveProofs.v
theories/MoveProps.v
theories/SumModel.v
theories/SumProofs.v
theories/SumProps.v
