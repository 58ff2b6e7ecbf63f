-Q theories Verif
theories/Base.v
theories/Types.v
theories/Indexlist.v
theories/IndexlistProofs.v
theories/SubjectTo.v
theories/SubjectToProofs.v
theories/SubjectToProofs2.v
theories/PropIndexlist.v
theories/PropSubjectTo.v
theories/Num.v
theories/Options.v
theories/PropOptions.v
theories/Flipper.v
theories/PropFlipper.v
theories/Messages.v
theories/PropMessages.v
theories/RSum.v
theories/Kkt.v
theories/Loops.v
theories/Utils.v
theories/PropUtils.v
theories/Matrices.v
theories/MatLib.v
theories/PropDense.v
theories/CsLib.v
theories/PropSparse.v
theories/PropSparse2.v
theories/PropDup.v
theories/LinSpec.v
theories/LinAlg.v
theories/SafeLib.v
theories/MatSafe.v
theories/PropLinAlg.v
theories/QProblemB.v
theories/QProblem.v
theories/QProblem2.v
theories/QPBSafe.v
theories/QPBSafe2.v
theories/QPBSafe3.v
theories/QPBSafe4.v
theories/QPBSafe5.v
theories/QPBSafe6.v
theories/QPBEx.v
theories/QPBX1.v
theories/PropRatio.v
theories/QPBX2.v
theories/QPBX3.v
theories/QPBX4.v
theories/PropChol.v
theories/QPBX5.v
theories/QPBX6.v
theories/PropAux.v
theories/PropHess.v
theories/QPBX7.v
theories/PropStep.v
theories/QPBX8.v
theories/QPBX9.v
theories/QPBX10.v
theories/QPBX11.v
theories/PropHomotopy.v
theories/PropQPB.v
theories/PropQPBx.v
theories/PropFar.v
theories/QPBAgain.v
theories/PropData.v
theories/QPX1.v
theories/QPX2.v
theories/QPX3.v
theories/QPX4.v
theories/QPX5.v
theories/QPX6.v
theories/QPX7.v
theories/QPX8.v
theories/QPX9.v
theories/QPX10.v
theories/QPX11.v
theories/QPX12.v
theories/QPX13.v
theories/QPX14.v
theories/QPX15.v
theories/QPX16.v
theories/QPX18.v
theories/QPX19.v
theories/QPX20.v
theories/QPX21.v
theories/QPX22.v
theories/QPX17.v
theories/QProblem3.v
theories/PropTQ.v
theories/PropTQ2.v
theories/PropStepP.v
theories/PropLI.v
theories/QProblem4.v
theories/PropDrop.v
theories/QProblem5.v
theories/QPFrame.v
theories/PropBudget.v
theories/PropNull.v
theories/PropWS.v
theories/QProblem6.v
theories/QPFrame2.v
theories/PropSQ.v
theories/PropSQ2.v
theories/Ownership.v
theories/PropOwner.v
theories/Det.v
theories/Schur.v
theories/SchurF.v
theories/SchurA.v
theories/SchurB.v
theories/SchurS.v
theories/SchurU.v
theories/SchurC.v
theories/SchurD.v
theories/SchurE.v
theories/SchurM.v
theories/SchurI.v
theories/PropSchur.v
theories/PropAuxP.v
theories/QPFrame3.v
theories/PropAuxQ.v
theories/PropStepQ.v
theories/PropHot.v
theories/PropIter.v
theories/QPFrame4.v
theories/QPFrame5.v
theories/PropExch.v
theories/PropEnter.v
theories/PropJump.v
theories/PropLeak.v
theories/PropChain.v
theories/PropLeave.v
theories/PropCurv.v
theories/PropLoop.v
