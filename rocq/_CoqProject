-Q theories Verif
theories/ApplyOptProofs.v
theories/AtanModel.v
theories/AtanProofs.v
theories/AtanSpec.v
theories/B2BModel.v
theories/B2BProofs.v
theories/BandModel.v
theories/BandProofs.v
theories/BandProofs7.v
theories/BandSpec.v
theories/BnModel.v
theories/BnProofs.v
theories/BnSpec.v
theories/BypassProofs.v
theories/CastProofs.v
theories/CastSpec.v
theories/CatModel.v
theories/CatProofs.v
theories/CatSpec.v
theories/CeModel.v
theories/CeProofs.v
theories/CeSpec.v
theories/ColModel.v
theories/ColProofs.v
theories/ColSpec.v
theories/ConModel.v
theories/ConProofs.v
theories/ConSpec.v
theories/ConvSpec.v
theories/CtcModel.v
theories/CtcProofs.v
theories/CtcSpec.v
theories/CumModel.v
theories/CumProofs.v
theories/CumSpec.v
theories/DeadModel.v
theories/DeadProofs.v
theories/DeadSpec.v
theories/DepthModel.v
theories/DepthProofs.v
theories/DepthSpec.v
theories/DetProofs.v
theories/DiagModel.v
theories/DiagProofs.v
theories/DiagSpec.v
theories/DriverModel.v
theories/DriverProofs.v
theories/DriverSpec.v
theories/EinsumProofs.v
theories/ElemFloat.v
theories/ElemLift.v
theories/ElemModel.v
theories/ElemProofs.v
theories/ElemProofs2.v
theories/ElemProofs3.v
theories/ElemProofs4.v
theories/ElemRefute.v
theories/ElemSpec.v
theories/ExecProofs.v
theories/ExecSpec.v
theories/FGraph.v
theories/FGraphProofs.v
theories/FGraphSpec.v
theories/FlexModel.v
theories/FlexProofs.v
theories/FlexSpec.v
theories/FlexWriter.v
theories/FoldFunProofs.v
theories/FoldGraphModel.v
theories/FoldGraphProofs.v
theories/FoldGraphSpec.v
theories/FoldMapModel.v
theories/FoldMapProofs.v
theories/FoldModel.v
theories/FoldOnnxSpec.v
theories/FoldProofs.v
theories/GemmMatch.v
theories/GemmProofs.v
theories/GemmProofs2.v
theories/GemmSpec.v
theories/GemmValues.v
theories/GemmWitness.v
theories/GraphModel.v
theories/GraphProofs.v
theories/GraphSpec.v
theories/HandlerModel.v
theories/HandlerProofs.v
theories/HandlerSpec.v
theories/HotModel.v
theories/HotProofs.v
theories/HotSpec.v
theories/IdentityModel.v
theories/IdentityProofs.v
theories/IdxModel.v
theories/IdxProofs.v
theories/IdxSpec.v
theories/InlineModel.v
theories/InlineProofs.v
theories/InlineProofs2.v
theories/InlineProofs3.v
theories/InlineProofs4.v
theories/InlineSpec.v
theories/LayoutModel.v
theories/LayoutProofs.v
theories/LayoutSpec.v
theories/LrnModel.v
theories/LrnProofs.v
theories/LrnSpec.v
theories/MakeModel.v
theories/MakeProofs.v
theories/MakeProofs2.v
theories/MakeSpec.v
theories/MatModel.v
theories/MatProofs.v
theories/MatSpec.v
theories/MatchModel.v
theories/MatchProofs.v
theories/MatchSpec.v
theories/MdpModel.v
theories/MdpProofs.v
theories/MdpSpec.v
theories/MergeModel.v
theories/MergeProofs.v
theories/MergeSpec.v
theories/MpaModel.v
theories/MpaProofs.v
theories/MpaSpec.v
theories/NNModel.v
theories/NNProofs.v
theories/NNSpec.v
theories/NamesModel.v
theories/NamesProofs.v
theories/NamesSpec.v
theories/NestedModel.v
theories/NestedProofs.v
theories/NestedSpec.v
theories/OnnxSpec.v
theories/PackModel.v
theories/PackProofs.v
theories/PackSpec.v
theories/PadModel.v
theories/PadProofs.v
theories/PadProofs2.v
theories/PadSpec.v
theories/PartModel.v
theories/PartProofs.v
theories/PartSpec.v
theories/PoolModel.v
theories/PoolProofs.v
theories/PoolSpec.v
theories/Prop_Atan.v
theories/Prop_B2B.v
theories/Prop_Band.v
theories/Prop_Bn.v
theories/Prop_Cat.v
theories/Prop_Ce.v
theories/Prop_Col.v
theories/Prop_Con.v
theories/Prop_Ctc.v
theories/Prop_Cum.v
theories/Prop_Dead.v
theories/Prop_Depth.v
theories/Prop_Diag.v
theories/Prop_Driver.v
theories/Prop_Elem.v
theories/Prop_Elem2.v
theories/Prop_Flex.v
theories/Prop_Fold.v
theories/Prop_Gemm.v
theories/Prop_Graph.v
theories/Prop_Handler.v
theories/Prop_Hot.v
theories/Prop_Identity.v
theories/Prop_Idx.v
theories/Prop_Inline.v
theories/Prop_Layout.v
theories/Prop_Lrn.v
theories/Prop_Make.v
theories/Prop_Mat.v
theories/Prop_Match.v
theories/Prop_Mdp.v
theories/Prop_Merge.v
theories/Prop_Mpa.v
theories/Prop_NN.v
theories/Prop_Names.v
theories/Prop_Pack.v
theories/Prop_Pad.v
theories/Prop_Part.v
theories/Prop_Pool.v
theories/Prop_Push.v
theories/Prop_Push2.v
theories/Prop_Qdq.v
theories/Prop_Rag.v
theories/Prop_Range.v
theories/Prop_Reduce.v
theories/Prop_Reshape.v
theories/Prop_Rev2.v
theories/Prop_RevSeq.v
theories/Prop_Rew.v
theories/Prop_Roll.v
theories/Prop_Scat.v
theories/Prop_Seg.v
theories/Prop_Set.v
theories/Prop_Shapes.v
theories/Prop_Sp.v
theories/Prop_Space.v
theories/Prop_Strided.v
theories/Prop_Top.v
theories/Prop_Topo.v
theories/Prop_Weights.v
theories/Prop_While.v
theories/PushConvModel.v
theories/PushConvProofs.v
theories/PushConvSpec.v
theories/PushModel.v
theories/PushProofs.v
theories/PushProofs2.v
theories/PushProofs3.v
theories/PushProofs4.v
theories/PushProofs5.v
theories/PushSpec.v
theories/QdqModel.v
theories/QdqProofs.v
theories/QdqProofs2.v
theories/QdqProofs3.v
theories/QdqSpec.v
theories/QuantProofs.v
theories/QuantSpec.v
theories/RagIdsProofs.v
theories/RagModel.v
theories/RagProofs.v
theories/RagSpec.v
theories/RangeModel.v
theories/RangeProofs.v
theories/RangeSpec.v
theories/ReduceModel.v
theories/ReduceProofs.v
theories/ReduceSpec.v
theories/ReshapeModel.v
theories/ReshapeProofs.v
theories/ReshapeProofs2.v
theories/ReshapeProofs3.v
theories/ReshapeProofs4.v
theories/ReshapeProofs5.v
theories/ReshapeRaw.v
theories/ReshapeSpec.v
theories/Rev2Model.v
theories/Rev2Proofs.v
theories/Rev2Spec.v
theories/RevSeqProofs.v
theories/RewMatch.v
theories/RewModel.v
theories/RewProofs.v
theories/RewProofs2.v
theories/RewProofs3.v
theories/RewProofs4.v
theories/RewSpec.v
theories/RewValues.v
theories/RewWitness.v
theories/RewriteProofs.v
theories/RollModel.v
theories/RollProofs.v
theories/RollSpec.v
theories/ScatModel.v
theories/ScatProofs.v
theories/ScatSpec.v
theories/SegFloat.v
theories/SegModel.v
theories/SegProofs.v
theories/SegSpec.v
theories/SetModel.v
theories/SetProofs.v
theories/SetSpec.v
theories/ShapesModel.v
theories/ShapesProofs.v
theories/ShapesSpec.v
theories/SpModel.v
theories/SpProofs.v
theories/SpSpec.v
theories/SpaceModel.v
theories/SpaceProofs.v
theories/SpaceProofs2.v
theories/SpaceProofs3.v
theories/SpaceProofs4.v
theories/SpaceProofs5.v
theories/SpaceProofs6.v
theories/SpaceSpec.v
theories/SplitProofs.v
theories/StridedModel.v
theories/StridedProofs.v
theories/StridedProofs2.v
theories/StridedProofs3.v
theories/StridedProofs4.v
theories/StridedSpec.v
theories/SwitchModel.v
theories/SwitchProofs.v
theories/SwitchProofs2.v
theories/SwitchProofs3.v
theories/SwitchProofs4.v
theories/SwitchSpec.v
theories/TOps.v
theories/TOpsProofs.v
theories/TOpsProofs2.v
theories/Tensor.v
theories/TensorProofs.v
theories/TopModel.v
theories/TopProofs.v
theories/TopSpec.v
theories/TopoModel.v
theories/TopoProofs.v
theories/TopoSpec.v
theories/Util.v
theories/ValidCheck.v
theories/WeightsModel.v
theories/WeightsProofs.v
theories/WeightsSpec.v
theories/WhileCheck.v
theories/WhileEval.v
theories/WhileModel.v
theories/WhileProofs.v
theories/WhileProofs2.v
theories/WhileProofs3.v
theories/WhileProofs4.v
theories/WhileProofs5.v
theories/WhileProofs6.v
theories/WhileProofs7.v
theories/WhileProofs8.v
theories/WhileProofs9.v
theories/WhileSpec.v
