-Q theories Verif
theories/Lang.v
theories/Lang_facts.v
theories/ModelSizing.v
theories/ModelKernel.v
theories/ModelPack.v
theories/ModelSched.v
theories/ModelTop.v
theories/Spec.v
theories/Kernel_facts.v
theories/Tile_facts.v
theories/Loop_facts.v
theories/Pack_facts.v
theories/Unpack_facts.v
theories/Sizing_facts.v
theories/PackMat_facts.v
theories/PackB_facts.v
theories/Order_facts.v
theories/Cphase_facts.v
theories/SchedK_facts.v
theories/SpecTop.v
theories/Init_facts.v
theories/Frame_facts.v
theories/TopK_facts.v
theories/Call_facts.v
theories/Grid_facts.v
theories/SizingMN_facts.v
theories/PackMN_facts.v
theories/SchedMN_facts.v
theories/Hole_facts.v
theories/TopMN_facts.v
theories/CallAll_facts.v
theories/Exec.v
theories/Exec_facts.v
theories/Touch_facts.v
theories/Det_facts.v
theories/Witness.v
theories/Mult_facts.v
theories/Misc_facts.v
theories/Witness_facts.v
theories/Refute_facts.v
theories/PropMult.v
theories/Packed_facts.v
theories/CpackK_facts.v
theories/SpecPack.v
theories/PackCall_facts.v
theories/Prepack_facts.v
theories/WitnessPack.v
theories/PropPack.v
theories/SpecSizing.v
theories/Cover_facts.v
theories/PackBlis_facts.v
theories/SizeCall_facts.v
theories/PropSizing.v
theories/Reuse_facts.v
theories/SchedOnline_facts.v
theories/SpecOnline.v
theories/SpecTouch.v
theories/TopOnline_facts.v
theories/Race_facts.v
theories/Online_facts.v
theories/Grid2_facts.v
theories/PropOnline.v
theories/Grid_tab_facts.v
theories/SchedG2_facts.v
theories/Top2d_facts.v
theories/Grid_call_facts.v
theories/Small2d_facts.v
theories/PropGrid.v
theories/ModelTrans.v
theories/ModelUtil.v
theories/Trans_facts.v
theories/Util_facts.v
theories/Torch_facts.v
theories/PropUtil.v
theories/ModelDouble.v
theories/Double_facts.v
theories/ModelIEEE.v
theories/IEEE_facts.v
theories/IEEE32_facts.v
theories/Sched_facts.v
theories/Pn_facts.v
theories/SpecTile.v
theories/Machine_facts.v
theories/Tile_wit_facts.v
theories/SpecTol.v
theories/Tol_facts.v
theories/PropDouble.v
theories/SpecInt.v
theories/ModelInt.v
theories/Int_facts.v
theories/IntPack_facts.v
theories/IntTile_facts.v
theories/IntSize_facts.v
theories/IntK_facts.v
theories/IntMN_facts.v
theories/IntTop_facts.v
theories/IntIEEE_facts.v
theories/IntCall_facts.v
theories/PropInt.v
theories/SpecSmall.v
theories/ModelSmall.v
theories/Small_facts.v
theories/Sparse_facts.v
theories/ModelTests.v
theories/SpecTests.v
theories/Tests_facts.v
theories/PropTests.v
theories/SparseAny_facts.v
theories/PropSmall.v
theories/ModelLinear.v
theories/SpecLinear.v
theories/TouchOut_facts.v
theories/BadMap_facts.v
theories/Linear_facts.v
theories/LinearUndef_facts.v
theories/TorchExact_facts.v
theories/LinearExit_facts.v
theories/PropLinear.v
theories/ModelSingle.v
theories/SpecSingle.v
theories/Single_facts.v
theories/SingleTop_facts.v
theories/WitnessSingle.v
theories/PropSingle.v
theories/SingleAll_facts.v
theories/PropSingleAll.v
theories/ModelBlis.v
theories/SpecBlis.v
theories/Blis_facts.v
theories/PropBlis.v
theories/TouchMN_facts.v
theories/TouchOnline_facts.v
theories/Touch2d_facts.v
theories/TouchAt_facts.v
theories/SmallOver_facts.v
theories/NfOver_facts.v
theories/Alpha_facts.v
theories/Test_facts.v
theories/PropTouch.v
theories/ModelQuery.v
theories/SpecQuery.v
theories/Query_facts.v
theories/QueryCall_facts.v
theories/PropQuery.v
theories/Keep_facts.v
theories/Stale_facts.v
theories/Resid_facts.v
theories/Resid2_facts.v
theories/SpecMisfit.v
theories/UserTile_facts.v
theories/Candidate_facts.v
theories/LargeTile_facts.v
theories/LargeTileK_facts.v
theories/LargeCall_facts.v
theories/LargeOut_facts.v
theories/PropTile.v
theories/TorchArm_facts.v
theories/PropArm.v
theories/ModelTune.v
theories/SpecTune.v
theories/Tune_facts.v
theories/PropTune.v
theories/ModelIntGrid.v
theories/SpecIntGrid.v
theories/IntOnline_facts.v
theories/IntOnlineTop_facts.v
theories/IntGrid_facts.v
theories/IntSmall_facts.v
theories/IntGridSize_facts.v
theories/IntGridTop_facts.v
theories/PropIntGrid.v
theories/SpecIntSem.v
theories/IntSem_facts.v
theories/PropIntSem.v
theories/ModelBlock.v
theories/SpecBlock.v
theories/Block_facts.v
theories/BlockOut_facts.v
theories/PropBlock.v
theories/ModelAlloc.v
theories/SpecAlloc.v
theories/Alloc_facts.v
theories/AllocCall_facts.v
theories/AllocOut_facts.v
theories/PropAlloc.v
theories/ModelPlace.v
theories/SpecPlace.v
theories/Place_facts.v
theories/PlaceCall_facts.v
theories/PlaceCut_facts.v
theories/PlaceDis_facts.v
theories/PropPlace.v
theories/ModelGen.v
theories/SpecGen.v
theories/Gen_facts.v
theories/GenTab_facts.v
theories/GenSingle_facts.v
theories/PropGen.v
theories/ModelGridGen.v
theories/GridGen_facts.v
theories/PropGridGen.v
theories/ModelGemv.v
theories/SpecGemv.v
theories/Gemv_facts.v
theories/GemvTop_facts.v
theories/PropGemv.v
theories/ModelConv.v
theories/SpecConv.v
theories/Conv_facts.v
theories/ConvSched_facts.v
theories/ConvPack_facts.v
theories/ConvTop_facts.v
theories/ConvOut_facts.v
theories/ConvCol_facts.v
theories/PropConv.v
theories/ModelGenSparse.v
theories/GenSparse_facts.v
theories/PropGenSparse.v
theories/ModelExample.v
theories/Example_facts.v
theories/PropExample.v
theories/Footprint_facts.v
theories/Every_facts.v
theories/SpecEvery.v
theories/EveryCall_facts.v
theories/PropEvery.v
theories/SingleAcc_facts.v
theories/PropSingleAcc.v
theories/SpecAny.v
theories/AnyCall_facts.v
theories/WitnessAny.v
theories/PropAny.v
theories/AllocMore_facts.v
theories/PropAllocMore.v
theories/EmptyAny_facts.v
theories/NoColumns_facts.v
theories/EmptySmall_facts.v
theories/ModelConvMain.v
theories/Rename_facts.v
theories/SpecConvMain.v
theories/ConvMain_facts.v
theories/PropConvMain.v
theories/ModelGemvMain.v
theories/SpecGemvMain.v
theories/GemvMain_facts.v
theories/ModelGemvInner.v
theories/SpecGemvInner.v
theories/GemvInner_facts.v
theories/PropGemvInner.v
theories/PropGemvMain.v
theories/PropAnyMore.v
theories/ModelUnpacked.v
theories/Unpacked_facts.v
theories/UnpackedWide_facts.v
theories/WitnessUnpacked.v
theories/PropUnpacked.v
theories/ModelPackTest.v
theories/PackTest_facts.v
theories/PropPackTest.v
theories/ModelPrint.v
theories/SpecPrint.v
theories/Print_facts.v
theories/PropPrint.v
theories/ModelNoop.v
theories/Noop_facts.v
theories/PropNoop.v
theories/ModelNormal.v
theories/SpecNormal.v
theories/Normal_facts.v
theories/PropNormal.v
theories/ModelHash.v
theories/SpecHash.v
theories/Hash_facts.v
theories/PropHash.v
theories/ModelTuneInt.v
theories/SpecTuneInt.v
theories/TuneInt_facts.v
theories/PropTuneInt.v
theories/ModelUtilInt.v
theories/DeadCode_facts.v
theories/UtilInt_facts.v
theories/SpecUtilInt.v
theories/ModelTransInt.v
theories/TransInt_facts.v
theories/PropUtilInt.v
theories/ModelPrintInt.v
theories/PrintInt_facts.v
theories/PropPrintInt.v
