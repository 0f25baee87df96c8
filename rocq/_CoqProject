-Q theories Verif
theories/Spec.v
theories/Machine.v
theories/NodeModel.v
theories/Sep.v
theories/Rep.v
theories/NodeProofs.v
theories/Inv.v
theories/BfsModel.v
theories/ClientSpec.v
theories/SpecProofs.v
theories/ClientModel.v
theories/Abs.v
theories/ClientProofs.v
theories/FromBfs.v
theories/BfsBuild.v
theories/BfsIter.v
theories/BfsMut.v
theories/BfsMap.v
theories/ClientRef.v
theories/ClientStep.v
theories/ClientRead.v
theories/ClientProps.v
theories/BfsProps.v
theories/FromAny.v
theories/FromExact.v
theories/SizeModel.v
theories/SizeProofs.v
theories/Reach.v
theories/Demo.v
theories/PropClient.v
theories/PropBfs.v
theories/PanicSpec.v
theories/PanicModel.v
theories/PanicProofs.v
theories/PanicStep.v
theories/PanicProps.v
theories/PanicDemo.v
theories/PropPanic.v
theories/CmpModel.v
theories/CmpSpec.v
theories/CmpProofs.v
theories/CmpLaws.v
theories/CmpProps.v
theories/PropCmp.v
theories/StackModel.v
theories/StackProofs.v
theories/PropStack.v
theories/WalkModel.v
theories/WalkSpec.v
theories/WalkProofs.v
theories/WalkProps.v
theories/WalkClient.v
theories/PropWalk.v
theories/IterModel.v
theories/IterProofs.v
theories/PropIter.v
theories/TupleModel.v
theories/TupleSpec.v
theories/TupleProofs.v
theories/TupleProps.v
theories/TupleExact.v
theories/PropTuple.v
theories/NotationSpec.v
theories/NotationModel.v
theories/NotationProofs.v
theories/PropNotation.v
theories/CountFrame.v
theories/ThreadModel.v
theories/ThreadSpec.v
theories/ThreadProofs.v
theories/ThreadLink.v
theories/MisuseModel.v
theories/MisuseProofs.v
theories/PropSafety.v
theories/RcSpec.v
theories/RcModel.v
theories/RcAllowed.v
theories/RcClient.v
theories/RcRelease.v
theories/RcLab.v
theories/RcRef.v
theories/RcStep.v
theories/RcStep2.v
theories/RcStep3.v
theories/RcStep4.v
theories/RcBorrow.v
theories/RcProps.v
theories/RcProps2.v
theories/RcDemo.v
theories/PropRc.v
theories/RcProps3.v
theories/RcCmpModel.v
theories/RcCmpProofs.v
theories/RcCmpClient.v
theories/RcCmpProps.v
theories/RcPlainSpec.v
theories/RcPlain.v
theories/PropRc2.v
theories/RcExtModel.v
theories/RcExtProofs.v
theories/PropRc3.v
theories/RcPanicSpec.v
theories/RcPanicModel.v
theories/RcPanicProofs.v
theories/PropRc4.v
theories/RcMisuseSpec.v
theories/RcMisuse.v
theories/PropRc5.v
theories/MoveSpec.v
theories/MoveProofs.v
theories/PropMove.v
theories/DebugModel.v
theories/DebugSpec.v
theories/DebugProofs.v
theories/PropDebug.v
theories/RcDropPanicModel.v
theories/RcDropPanicProofs.v
theories/RcDropPanic.v
theories/PropRc6.v
theories/SplitModel.v
theories/SplitSpec.v
theories/SplitProofs.v
theories/PropSplit.v
theories/CounterSpec.v
theories/CounterProofs.v
theories/PropCounter.v
theories/RcOwnModel.v
theories/RcOwnSpec.v
theories/RcOwnProofs.v
theories/RcOwnStep.v
theories/RcOwnMain.v
theories/RcOwnTop.v
theories/PropRc7.v
theories/StackRcModel.v
theories/StackRcProofs.v
theories/StackCmpModel.v
theories/StackCmpProofs.v
theories/PropStack2.v
theories/OwnModel.v
theories/OwnSpec.v
theories/OwnProofs.v
theories/PropOwn.v
theories/CallSpec.v
theories/CallModel.v
theories/CallBuild.v
theories/CallProofs.v
theories/CallStep.v
theories/CallProps.v
theories/PropCall.v
theories/CursorSpec.v
theories/CursorModel.v
theories/CursorBfs.v
theories/CursorProofs.v
theories/CursorStep.v
theories/CursorProps.v
theories/PropCursor.v
theories/ApiSpec.v
theories/ApiModel.v
theories/ApiProofs.v
theories/PropApi.v
theories/RcExtItModel.v
theories/RcExtItProofs.v
theories/PropRc8.v
theories/WrapModel.v
theories/WrapProofs.v
theories/PropWrap.v
theories/RcDebugModel.v
theories/RcDebugProofs.v
theories/StackRcCmpModel.v
theories/StackRcCmpProofs.v
theories/PropRc9.v
theories/RcNodeModel.v
theories/RcNodeProofs.v
theories/PropRc10.v
theories/DropRunSpec.v
theories/DropRunModel.v
theories/DropRunProofs.v
theories/PropDropRun.v
theories/RcReentSpec.v
theories/RcReentModel.v
theories/RcReentProofs.v
theories/PropRc11.v
theories/RcClonePanicModel.v
theories/RcClonePanic.v
theories/PropRcClone.v
