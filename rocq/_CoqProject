-Q theories Verif
theories/Base.v
theories/Num.v
theories/StoreModel.v
theories/VecModel.v
theories/SubsetModel.v
theories/AllocModel.v
theories/InterpModel.v
theories/DerivModel.v
theories/DistriModel.v
theories/OutModel.v
theories/RgcModel.v
theories/BubbleModel.v
theories/ProgModel.v
theories/LangModel.v
theories/LifeModel.v
theories/SpecLife.v
theories/ForeignModel.v
theories/FloatBridge.v
theories/CapProofs.v
theories/CapBig.v
theories/Spec.v
theories/StoreProofs.v
theories/StoreOps.v
theories/SpecExpr.v
theories/VecProofs.v
theories/VecAssign.v
theories/SpecHist.v
theories/SpecProg.v
theories/VecEval.v
theories/SpecVec.v
theories/SpecSub.v
theories/BorrowProofs.v
theories/VecThms.v
theories/SubsetProofs.v
theories/StoreThms.v
theories/StoreHist.v
theories/StoreThms2.v
theories/SubsetThms.v
theories/SpecAlloc.v
theories/AllocProofs.v
theories/AllocProofs2.v
theories/AllocProofs3.v
theories/AllocProofs4.v
theories/NumProofs.v
theories/InterpProofs.v
theories/InterpProofs2.v
theories/SpecDeriv.v
theories/DerivProofs.v
theories/DerivProofs2.v
theories/DerivPrime.v
theories/DerivProofs3.v
theories/DerivLoad.v
theories/DerivProofs4.v
theories/DerivProofs5.v
theories/SpecDistri.v
theories/DistriProofs.v
theories/SpecOut.v
theories/OutProofs.v
theories/SpecGc.v
theories/GcProofs.v
theories/SpecForeign.v
theories/ForeignProofs.v
theories/ForeignProofs2.v
theories/ForeignProofs3.v
theories/ForeignProofs4.v
theories/ForeignProofs5.v
theories/ForeignProofs6.v
theories/SpecBubble.v
theories/BubbleProofs.v
theories/BubbleProofs2.v
theories/SpecStmt.v
theories/SpecFib.v
theories/ProgProofs.v
theories/ProgProofs2.v
theories/ProgThms.v
theories/FibProofs.v
theories/SpecCons.v
theories/ConsProofs.v
theories/ConsProofs2.v
theories/FillProofs.v
theories/SpecNum.v
theories/ArithProofs.v
theories/SpecSafe.v
theories/SpecLang.v
theories/LendProofs.v
theories/SafeProofs.v
theories/LangProofs.v
theories/LendThms.v
theories/LifeProofs.v
theories/SpecMat.v
theories/MatProofs.v
theories/MatThms.v
theories/SpecMul.v
theories/MulProofs.v
theories/ConstModel.v
theories/AvModel.v
theories/SpecConst.v
theories/ConstProofs.v
theories/SpecAv.v
theories/AvProofs.v
theories/Examples.v
theories/PropStore.v
theories/PropVec.v
theories/PropSubset.v
theories/PropIndex.v
theories/PropAlloc.v
theories/PropNum.v
theories/PropInterp.v
theories/PropDeriv.v
theories/PropDistri.v
theories/PropOut.v
theories/PropGc.v
theories/PropBubble.v
theories/PropForeign.v
theories/PropProg.v
theories/PropCons.v
theories/PropFill.v
theories/PropArith.v
theories/PropSafe.v
theories/PropLang.v
theories/PropLend.v
theories/PropLife.v
theories/StaticModel.v
theories/SpecStatic.v
theories/StaticProofs.v
theories/SpecReach.v
theories/ReachProofs.v
theories/PropStatic.v
theories/PropMat.v
theories/PropConst.v
theories/PropAv.v
theories/CallModel.v
theories/SpecCall.v
theories/HideProofs.v
theories/CallProofs.v
theories/SpecFn.v
theories/FnProofs.v
theories/SpecSession.v
theories/CallSafe.v
theories/PropCall.v
theories/PropSession.v
theories/WalkModel.v
theories/SpecWalk.v
theories/WalkProofs.v
theories/PropWalk.v
theories/JumpModel.v
theories/SpecJump.v
theories/JumpProofs.v
theories/JumpThms.v
theories/PropJump.v
theories/BlindProofs.v
theories/GcCallModel.v
theories/SpecGcCall.v
theories/GcCallProofs.v
theories/PropGcCall.v
theories/WrapCallModel.v
theories/SpecWrapCall.v
theories/WrapTypes.v
theories/WrapCallProofs.v
theories/PropWrapCall.v
theories/SpecDerivSafe.v
theories/DerivSafe.v
theories/PropDerivSafe.v
theories/GcWrapModel.v
theories/SpecGcWrap.v
theories/GcWrapProofs.v
theories/PropGcWrap.v
theories/TextModel.v
theories/SpecText.v
theories/TextProofs.v
theories/PropText.v
theories/SpecConv.v
theories/PropConv.v
theories/SpecMore.v
theories/MoreProofs.v
theories/MoreDeriv.v
theories/PropMore.v
theories/OrderModel.v
theories/OrderProofs.v
theories/OrderSafe.v
theories/PropOrder.v
theories/TryModel.v
theories/SpecTry.v
theories/DerivCatch.v
theories/PropTry.v
theories/SpecPlace.v
theories/PlaceProofs.v
theories/PlaceDeriv.v
theories/PropPlace.v
theories/SpecCost.v
theories/CostProofs.v
theories/PropCost.v
theories/SpecRewrite.v
theories/RewriteProofs.v
theories/PropRewrite.v
theories/SpecHoare.v
theories/HoareProofs.v
theories/PropHoare.v
