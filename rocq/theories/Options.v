(** Model of class Options (src/Options.cpp, include/qpOASES/Options.hpp:60-160).

    Double precision build without __SUPPRESSANYOUTPUT__/__DEBUG__.  print() is
    not modelled.  The record has one field per public member. *)
From Verif Require Import Base Types Num.

(** Options.hpp:122-160 *)
Record options (N : Num) := mkOpt {
  o_printLevel : PrintLevel;
  o_enableRamping : bool;
  o_enableFarBounds : bool;
  o_enableFlippingBounds : bool;
  o_enableRegularisation : bool;
  o_enableFullLITests : bool;
  o_enableNZCTests : bool;
  o_enableDriftCorrection : Z;
  o_enableCholeskyRefactorisation : Z;
  o_enableEqualities : bool;
  o_terminationTolerance : car N;
  o_boundTolerance : car N;
  o_boundRelaxation : car N;
  o_epsNum : car N;
  o_epsDen : car N;
  o_maxPrimalJump : car N;
  o_maxDualJump : car N;
  o_initialRamping : car N;
  o_finalRamping : car N;
  o_initialFarBounds : car N;
  o_growFarBounds : car N;
  o_initialStatusBounds : SubjectToStatus;
  o_epsFlipping : car N;
  o_numRegularisationSteps : Z;
  o_epsRegularisation : car N;
  o_numRefinementSteps : Z;
  o_epsIterRef : car N;
  o_epsLITests : car N;
  o_epsNZCTests : car N;
  o_rcondSMin : car N;
  o_enableInertiaCorrection : bool;
  o_enableDropInfeasibles : bool;
  o_dropBoundPriority : Z;
  o_dropEqConPriority : Z;
  o_dropIneqConPriority : Z
}.
Arguments mkOpt {N}.
Arguments o_printLevel {N} _.
Arguments o_enableRamping {N} _.
Arguments o_enableFarBounds {N} _.
Arguments o_enableFlippingBounds {N} _.
Arguments o_enableRegularisation {N} _.
Arguments o_enableFullLITests {N} _.
Arguments o_enableNZCTests {N} _.
Arguments o_enableDriftCorrection {N} _.
Arguments o_enableCholeskyRefactorisation {N} _.
Arguments o_enableEqualities {N} _.
Arguments o_terminationTolerance {N} _.
Arguments o_boundTolerance {N} _.
Arguments o_boundRelaxation {N} _.
Arguments o_epsNum {N} _.
Arguments o_epsDen {N} _.
Arguments o_maxPrimalJump {N} _.
Arguments o_maxDualJump {N} _.
Arguments o_initialRamping {N} _.
Arguments o_finalRamping {N} _.
Arguments o_initialFarBounds {N} _.
Arguments o_growFarBounds {N} _.
Arguments o_initialStatusBounds {N} _.
Arguments o_epsFlipping {N} _.
Arguments o_numRegularisationSteps {N} _.
Arguments o_epsRegularisation {N} _.
Arguments o_numRefinementSteps {N} _.
Arguments o_epsIterRef {N} _.
Arguments o_epsLITests {N} _.
Arguments o_epsNZCTests {N} _.
Arguments o_rcondSMin {N} _.
Arguments o_enableInertiaCorrection {N} _.
Arguments o_enableDropInfeasibles {N} _.
Arguments o_dropBoundPriority {N} _.
Arguments o_dropEqConPriority {N} _.
Arguments o_dropIneqConPriority {N} _.
Definition set_o_printLevel {N : Num} (v : PrintLevel) (s : options N) : options N :=
  mkOpt v (o_enableRamping s) (o_enableFarBounds s) (o_enableFlippingBounds s) (o_enableRegularisation s) (o_enableFullLITests s) (o_enableNZCTests s) (o_enableDriftCorrection s) (o_enableCholeskyRefactorisation s) (o_enableEqualities s) (o_terminationTolerance s) (o_boundTolerance s) (o_boundRelaxation s) (o_epsNum s) (o_epsDen s) (o_maxPrimalJump s) (o_maxDualJump s) (o_initialRamping s) (o_finalRamping s) (o_initialFarBounds s) (o_growFarBounds s) (o_initialStatusBounds s) (o_epsFlipping s) (o_numRegularisationSteps s) (o_epsRegularisation s) (o_numRefinementSteps s) (o_epsIterRef s) (o_epsLITests s) (o_epsNZCTests s) (o_rcondSMin s) (o_enableInertiaCorrection s) (o_enableDropInfeasibles s) (o_dropBoundPriority s) (o_dropEqConPriority s) (o_dropIneqConPriority s).
Definition set_o_enableRamping {N : Num} (v : bool) (s : options N) : options N :=
  mkOpt (o_printLevel s) v (o_enableFarBounds s) (o_enableFlippingBounds s) (o_enableRegularisation s) (o_enableFullLITests s) (o_enableNZCTests s) (o_enableDriftCorrection s) (o_enableCholeskyRefactorisation s) (o_enableEqualities s) (o_terminationTolerance s) (o_boundTolerance s) (o_boundRelaxation s) (o_epsNum s) (o_epsDen s) (o_maxPrimalJump s) (o_maxDualJump s) (o_initialRamping s) (o_finalRamping s) (o_initialFarBounds s) (o_growFarBounds s) (o_initialStatusBounds s) (o_epsFlipping s) (o_numRegularisationSteps s) (o_epsRegularisation s) (o_numRefinementSteps s) (o_epsIterRef s) (o_epsLITests s) (o_epsNZCTests s) (o_rcondSMin s) (o_enableInertiaCorrection s) (o_enableDropInfeasibles s) (o_dropBoundPriority s) (o_dropEqConPriority s) (o_dropIneqConPriority s).
Definition set_o_enableFarBounds {N : Num} (v : bool) (s : options N) : options N :=
  mkOpt (o_printLevel s) (o_enableRamping s) v (o_enableFlippingBounds s) (o_enableRegularisation s) (o_enableFullLITests s) (o_enableNZCTests s) (o_enableDriftCorrection s) (o_enableCholeskyRefactorisation s) (o_enableEqualities s) (o_terminationTolerance s) (o_boundTolerance s) (o_boundRelaxation s) (o_epsNum s) (o_epsDen s) (o_maxPrimalJump s) (o_maxDualJump s) (o_initialRamping s) (o_finalRamping s) (o_initialFarBounds s) (o_growFarBounds s) (o_initialStatusBounds s) (o_epsFlipping s) (o_numRegularisationSteps s) (o_epsRegularisation s) (o_numRefinementSteps s) (o_epsIterRef s) (o_epsLITests s) (o_epsNZCTests s) (o_rcondSMin s) (o_enableInertiaCorrection s) (o_enableDropInfeasibles s) (o_dropBoundPriority s) (o_dropEqConPriority s) (o_dropIneqConPriority s).
Definition set_o_enableFlippingBounds {N : Num} (v : bool) (s : options N) : options N :=
  mkOpt (o_printLevel s) (o_enableRamping s) (o_enableFarBounds s) v (o_enableRegularisation s) (o_enableFullLITests s) (o_enableNZCTests s) (o_enableDriftCorrection s) (o_enableCholeskyRefactorisation s) (o_enableEqualities s) (o_terminationTolerance s) (o_boundTolerance s) (o_boundRelaxation s) (o_epsNum s) (o_epsDen s) (o_maxPrimalJump s) (o_maxDualJump s) (o_initialRamping s) (o_finalRamping s) (o_initialFarBounds s) (o_growFarBounds s) (o_initialStatusBounds s) (o_epsFlipping s) (o_numRegularisationSteps s) (o_epsRegularisation s) (o_numRefinementSteps s) (o_epsIterRef s) (o_epsLITests s) (o_epsNZCTests s) (o_rcondSMin s) (o_enableInertiaCorrection s) (o_enableDropInfeasibles s) (o_dropBoundPriority s) (o_dropEqConPriority s) (o_dropIneqConPriority s).
Definition set_o_enableRegularisation {N : Num} (v : bool) (s : options N) : options N :=
  mkOpt (o_printLevel s) (o_enableRamping s) (o_enableFarBounds s) (o_enableFlippingBounds s) v (o_enableFullLITests s) (o_enableNZCTests s) (o_enableDriftCorrection s) (o_enableCholeskyRefactorisation s) (o_enableEqualities s) (o_terminationTolerance s) (o_boundTolerance s) (o_boundRelaxation s) (o_epsNum s) (o_epsDen s) (o_maxPrimalJump s) (o_maxDualJump s) (o_initialRamping s) (o_finalRamping s) (o_initialFarBounds s) (o_growFarBounds s) (o_initialStatusBounds s) (o_epsFlipping s) (o_numRegularisationSteps s) (o_epsRegularisation s) (o_numRefinementSteps s) (o_epsIterRef s) (o_epsLITests s) (o_epsNZCTests s) (o_rcondSMin s) (o_enableInertiaCorrection s) (o_enableDropInfeasibles s) (o_dropBoundPriority s) (o_dropEqConPriority s) (o_dropIneqConPriority s).
Definition set_o_enableFullLITests {N : Num} (v : bool) (s : options N) : options N :=
  mkOpt (o_printLevel s) (o_enableRamping s) (o_enableFarBounds s) (o_enableFlippingBounds s) (o_enableRegularisation s) v (o_enableNZCTests s) (o_enableDriftCorrection s) (o_enableCholeskyRefactorisation s) (o_enableEqualities s) (o_terminationTolerance s) (o_boundTolerance s) (o_boundRelaxation s) (o_epsNum s) (o_epsDen s) (o_maxPrimalJump s) (o_maxDualJump s) (o_initialRamping s) (o_finalRamping s) (o_initialFarBounds s) (o_growFarBounds s) (o_initialStatusBounds s) (o_epsFlipping s) (o_numRegularisationSteps s) (o_epsRegularisation s) (o_numRefinementSteps s) (o_epsIterRef s) (o_epsLITests s) (o_epsNZCTests s) (o_rcondSMin s) (o_enableInertiaCorrection s) (o_enableDropInfeasibles s) (o_dropBoundPriority s) (o_dropEqConPriority s) (o_dropIneqConPriority s).
Definition set_o_enableNZCTests {N : Num} (v : bool) (s : options N) : options N :=
  mkOpt (o_printLevel s) (o_enableRamping s) (o_enableFarBounds s) (o_enableFlippingBounds s) (o_enableRegularisation s) (o_enableFullLITests s) v (o_enableDriftCorrection s) (o_enableCholeskyRefactorisation s) (o_enableEqualities s) (o_terminationTolerance s) (o_boundTolerance s) (o_boundRelaxation s) (o_epsNum s) (o_epsDen s) (o_maxPrimalJump s) (o_maxDualJump s) (o_initialRamping s) (o_finalRamping s) (o_initialFarBounds s) (o_growFarBounds s) (o_initialStatusBounds s) (o_epsFlipping s) (o_numRegularisationSteps s) (o_epsRegularisation s) (o_numRefinementSteps s) (o_epsIterRef s) (o_epsLITests s) (o_epsNZCTests s) (o_rcondSMin s) (o_enableInertiaCorrection s) (o_enableDropInfeasibles s) (o_dropBoundPriority s) (o_dropEqConPriority s) (o_dropIneqConPriority s).
Definition set_o_enableDriftCorrection {N : Num} (v : Z) (s : options N) : options N :=
  mkOpt (o_printLevel s) (o_enableRamping s) (o_enableFarBounds s) (o_enableFlippingBounds s) (o_enableRegularisation s) (o_enableFullLITests s) (o_enableNZCTests s) v (o_enableCholeskyRefactorisation s) (o_enableEqualities s) (o_terminationTolerance s) (o_boundTolerance s) (o_boundRelaxation s) (o_epsNum s) (o_epsDen s) (o_maxPrimalJump s) (o_maxDualJump s) (o_initialRamping s) (o_finalRamping s) (o_initialFarBounds s) (o_growFarBounds s) (o_initialStatusBounds s) (o_epsFlipping s) (o_numRegularisationSteps s) (o_epsRegularisation s) (o_numRefinementSteps s) (o_epsIterRef s) (o_epsLITests s) (o_epsNZCTests s) (o_rcondSMin s) (o_enableInertiaCorrection s) (o_enableDropInfeasibles s) (o_dropBoundPriority s) (o_dropEqConPriority s) (o_dropIneqConPriority s).
Definition set_o_enableCholeskyRefactorisation {N : Num} (v : Z) (s : options N) : options N :=
  mkOpt (o_printLevel s) (o_enableRamping s) (o_enableFarBounds s) (o_enableFlippingBounds s) (o_enableRegularisation s) (o_enableFullLITests s) (o_enableNZCTests s) (o_enableDriftCorrection s) v (o_enableEqualities s) (o_terminationTolerance s) (o_boundTolerance s) (o_boundRelaxation s) (o_epsNum s) (o_epsDen s) (o_maxPrimalJump s) (o_maxDualJump s) (o_initialRamping s) (o_finalRamping s) (o_initialFarBounds s) (o_growFarBounds s) (o_initialStatusBounds s) (o_epsFlipping s) (o_numRegularisationSteps s) (o_epsRegularisation s) (o_numRefinementSteps s) (o_epsIterRef s) (o_epsLITests s) (o_epsNZCTests s) (o_rcondSMin s) (o_enableInertiaCorrection s) (o_enableDropInfeasibles s) (o_dropBoundPriority s) (o_dropEqConPriority s) (o_dropIneqConPriority s).
Definition set_o_enableEqualities {N : Num} (v : bool) (s : options N) : options N :=
  mkOpt (o_printLevel s) (o_enableRamping s) (o_enableFarBounds s) (o_enableFlippingBounds s) (o_enableRegularisation s) (o_enableFullLITests s) (o_enableNZCTests s) (o_enableDriftCorrection s) (o_enableCholeskyRefactorisation s) v (o_terminationTolerance s) (o_boundTolerance s) (o_boundRelaxation s) (o_epsNum s) (o_epsDen s) (o_maxPrimalJump s) (o_maxDualJump s) (o_initialRamping s) (o_finalRamping s) (o_initialFarBounds s) (o_growFarBounds s) (o_initialStatusBounds s) (o_epsFlipping s) (o_numRegularisationSteps s) (o_epsRegularisation s) (o_numRefinementSteps s) (o_epsIterRef s) (o_epsLITests s) (o_epsNZCTests s) (o_rcondSMin s) (o_enableInertiaCorrection s) (o_enableDropInfeasibles s) (o_dropBoundPriority s) (o_dropEqConPriority s) (o_dropIneqConPriority s).
Definition set_o_terminationTolerance {N : Num} (v : car N) (s : options N) : options N :=
  mkOpt (o_printLevel s) (o_enableRamping s) (o_enableFarBounds s) (o_enableFlippingBounds s) (o_enableRegularisation s) (o_enableFullLITests s) (o_enableNZCTests s) (o_enableDriftCorrection s) (o_enableCholeskyRefactorisation s) (o_enableEqualities s) v (o_boundTolerance s) (o_boundRelaxation s) (o_epsNum s) (o_epsDen s) (o_maxPrimalJump s) (o_maxDualJump s) (o_initialRamping s) (o_finalRamping s) (o_initialFarBounds s) (o_growFarBounds s) (o_initialStatusBounds s) (o_epsFlipping s) (o_numRegularisationSteps s) (o_epsRegularisation s) (o_numRefinementSteps s) (o_epsIterRef s) (o_epsLITests s) (o_epsNZCTests s) (o_rcondSMin s) (o_enableInertiaCorrection s) (o_enableDropInfeasibles s) (o_dropBoundPriority s) (o_dropEqConPriority s) (o_dropIneqConPriority s).
Definition set_o_boundTolerance {N : Num} (v : car N) (s : options N) : options N :=
  mkOpt (o_printLevel s) (o_enableRamping s) (o_enableFarBounds s) (o_enableFlippingBounds s) (o_enableRegularisation s) (o_enableFullLITests s) (o_enableNZCTests s) (o_enableDriftCorrection s) (o_enableCholeskyRefactorisation s) (o_enableEqualities s) (o_terminationTolerance s) v (o_boundRelaxation s) (o_epsNum s) (o_epsDen s) (o_maxPrimalJump s) (o_maxDualJump s) (o_initialRamping s) (o_finalRamping s) (o_initialFarBounds s) (o_growFarBounds s) (o_initialStatusBounds s) (o_epsFlipping s) (o_numRegularisationSteps s) (o_epsRegularisation s) (o_numRefinementSteps s) (o_epsIterRef s) (o_epsLITests s) (o_epsNZCTests s) (o_rcondSMin s) (o_enableInertiaCorrection s) (o_enableDropInfeasibles s) (o_dropBoundPriority s) (o_dropEqConPriority s) (o_dropIneqConPriority s).
Definition set_o_boundRelaxation {N : Num} (v : car N) (s : options N) : options N :=
  mkOpt (o_printLevel s) (o_enableRamping s) (o_enableFarBounds s) (o_enableFlippingBounds s) (o_enableRegularisation s) (o_enableFullLITests s) (o_enableNZCTests s) (o_enableDriftCorrection s) (o_enableCholeskyRefactorisation s) (o_enableEqualities s) (o_terminationTolerance s) (o_boundTolerance s) v (o_epsNum s) (o_epsDen s) (o_maxPrimalJump s) (o_maxDualJump s) (o_initialRamping s) (o_finalRamping s) (o_initialFarBounds s) (o_growFarBounds s) (o_initialStatusBounds s) (o_epsFlipping s) (o_numRegularisationSteps s) (o_epsRegularisation s) (o_numRefinementSteps s) (o_epsIterRef s) (o_epsLITests s) (o_epsNZCTests s) (o_rcondSMin s) (o_enableInertiaCorrection s) (o_enableDropInfeasibles s) (o_dropBoundPriority s) (o_dropEqConPriority s) (o_dropIneqConPriority s).
Definition set_o_epsNum {N : Num} (v : car N) (s : options N) : options N :=
  mkOpt (o_printLevel s) (o_enableRamping s) (o_enableFarBounds s) (o_enableFlippingBounds s) (o_enableRegularisation s) (o_enableFullLITests s) (o_enableNZCTests s) (o_enableDriftCorrection s) (o_enableCholeskyRefactorisation s) (o_enableEqualities s) (o_terminationTolerance s) (o_boundTolerance s) (o_boundRelaxation s) v (o_epsDen s) (o_maxPrimalJump s) (o_maxDualJump s) (o_initialRamping s) (o_finalRamping s) (o_initialFarBounds s) (o_growFarBounds s) (o_initialStatusBounds s) (o_epsFlipping s) (o_numRegularisationSteps s) (o_epsRegularisation s) (o_numRefinementSteps s) (o_epsIterRef s) (o_epsLITests s) (o_epsNZCTests s) (o_rcondSMin s) (o_enableInertiaCorrection s) (o_enableDropInfeasibles s) (o_dropBoundPriority s) (o_dropEqConPriority s) (o_dropIneqConPriority s).
Definition set_o_epsDen {N : Num} (v : car N) (s : options N) : options N :=
  mkOpt (o_printLevel s) (o_enableRamping s) (o_enableFarBounds s) (o_enableFlippingBounds s) (o_enableRegularisation s) (o_enableFullLITests s) (o_enableNZCTests s) (o_enableDriftCorrection s) (o_enableCholeskyRefactorisation s) (o_enableEqualities s) (o_terminationTolerance s) (o_boundTolerance s) (o_boundRelaxation s) (o_epsNum s) v (o_maxPrimalJump s) (o_maxDualJump s) (o_initialRamping s) (o_finalRamping s) (o_initialFarBounds s) (o_growFarBounds s) (o_initialStatusBounds s) (o_epsFlipping s) (o_numRegularisationSteps s) (o_epsRegularisation s) (o_numRefinementSteps s) (o_epsIterRef s) (o_epsLITests s) (o_epsNZCTests s) (o_rcondSMin s) (o_enableInertiaCorrection s) (o_enableDropInfeasibles s) (o_dropBoundPriority s) (o_dropEqConPriority s) (o_dropIneqConPriority s).
Definition set_o_maxPrimalJump {N : Num} (v : car N) (s : options N) : options N :=
  mkOpt (o_printLevel s) (o_enableRamping s) (o_enableFarBounds s) (o_enableFlippingBounds s) (o_enableRegularisation s) (o_enableFullLITests s) (o_enableNZCTests s) (o_enableDriftCorrection s) (o_enableCholeskyRefactorisation s) (o_enableEqualities s) (o_terminationTolerance s) (o_boundTolerance s) (o_boundRelaxation s) (o_epsNum s) (o_epsDen s) v (o_maxDualJump s) (o_initialRamping s) (o_finalRamping s) (o_initialFarBounds s) (o_growFarBounds s) (o_initialStatusBounds s) (o_epsFlipping s) (o_numRegularisationSteps s) (o_epsRegularisation s) (o_numRefinementSteps s) (o_epsIterRef s) (o_epsLITests s) (o_epsNZCTests s) (o_rcondSMin s) (o_enableInertiaCorrection s) (o_enableDropInfeasibles s) (o_dropBoundPriority s) (o_dropEqConPriority s) (o_dropIneqConPriority s).
Definition set_o_maxDualJump {N : Num} (v : car N) (s : options N) : options N :=
  mkOpt (o_printLevel s) (o_enableRamping s) (o_enableFarBounds s) (o_enableFlippingBounds s) (o_enableRegularisation s) (o_enableFullLITests s) (o_enableNZCTests s) (o_enableDriftCorrection s) (o_enableCholeskyRefactorisation s) (o_enableEqualities s) (o_terminationTolerance s) (o_boundTolerance s) (o_boundRelaxation s) (o_epsNum s) (o_epsDen s) (o_maxPrimalJump s) v (o_initialRamping s) (o_finalRamping s) (o_initialFarBounds s) (o_growFarBounds s) (o_initialStatusBounds s) (o_epsFlipping s) (o_numRegularisationSteps s) (o_epsRegularisation s) (o_numRefinementSteps s) (o_epsIterRef s) (o_epsLITests s) (o_epsNZCTests s) (o_rcondSMin s) (o_enableInertiaCorrection s) (o_enableDropInfeasibles s) (o_dropBoundPriority s) (o_dropEqConPriority s) (o_dropIneqConPriority s).
Definition set_o_initialRamping {N : Num} (v : car N) (s : options N) : options N :=
  mkOpt (o_printLevel s) (o_enableRamping s) (o_enableFarBounds s) (o_enableFlippingBounds s) (o_enableRegularisation s) (o_enableFullLITests s) (o_enableNZCTests s) (o_enableDriftCorrection s) (o_enableCholeskyRefactorisation s) (o_enableEqualities s) (o_terminationTolerance s) (o_boundTolerance s) (o_boundRelaxation s) (o_epsNum s) (o_epsDen s) (o_maxPrimalJump s) (o_maxDualJump s) v (o_finalRamping s) (o_initialFarBounds s) (o_growFarBounds s) (o_initialStatusBounds s) (o_epsFlipping s) (o_numRegularisationSteps s) (o_epsRegularisation s) (o_numRefinementSteps s) (o_epsIterRef s) (o_epsLITests s) (o_epsNZCTests s) (o_rcondSMin s) (o_enableInertiaCorrection s) (o_enableDropInfeasibles s) (o_dropBoundPriority s) (o_dropEqConPriority s) (o_dropIneqConPriority s).
Definition set_o_finalRamping {N : Num} (v : car N) (s : options N) : options N :=
  mkOpt (o_printLevel s) (o_enableRamping s) (o_enableFarBounds s) (o_enableFlippingBounds s) (o_enableRegularisation s) (o_enableFullLITests s) (o_enableNZCTests s) (o_enableDriftCorrection s) (o_enableCholeskyRefactorisation s) (o_enableEqualities s) (o_terminationTolerance s) (o_boundTolerance s) (o_boundRelaxation s) (o_epsNum s) (o_epsDen s) (o_maxPrimalJump s) (o_maxDualJump s) (o_initialRamping s) v (o_initialFarBounds s) (o_growFarBounds s) (o_initialStatusBounds s) (o_epsFlipping s) (o_numRegularisationSteps s) (o_epsRegularisation s) (o_numRefinementSteps s) (o_epsIterRef s) (o_epsLITests s) (o_epsNZCTests s) (o_rcondSMin s) (o_enableInertiaCorrection s) (o_enableDropInfeasibles s) (o_dropBoundPriority s) (o_dropEqConPriority s) (o_dropIneqConPriority s).
Definition set_o_initialFarBounds {N : Num} (v : car N) (s : options N) : options N :=
  mkOpt (o_printLevel s) (o_enableRamping s) (o_enableFarBounds s) (o_enableFlippingBounds s) (o_enableRegularisation s) (o_enableFullLITests s) (o_enableNZCTests s) (o_enableDriftCorrection s) (o_enableCholeskyRefactorisation s) (o_enableEqualities s) (o_terminationTolerance s) (o_boundTolerance s) (o_boundRelaxation s) (o_epsNum s) (o_epsDen s) (o_maxPrimalJump s) (o_maxDualJump s) (o_initialRamping s) (o_finalRamping s) v (o_growFarBounds s) (o_initialStatusBounds s) (o_epsFlipping s) (o_numRegularisationSteps s) (o_epsRegularisation s) (o_numRefinementSteps s) (o_epsIterRef s) (o_epsLITests s) (o_epsNZCTests s) (o_rcondSMin s) (o_enableInertiaCorrection s) (o_enableDropInfeasibles s) (o_dropBoundPriority s) (o_dropEqConPriority s) (o_dropIneqConPriority s).
Definition set_o_growFarBounds {N : Num} (v : car N) (s : options N) : options N :=
  mkOpt (o_printLevel s) (o_enableRamping s) (o_enableFarBounds s) (o_enableFlippingBounds s) (o_enableRegularisation s) (o_enableFullLITests s) (o_enableNZCTests s) (o_enableDriftCorrection s) (o_enableCholeskyRefactorisation s) (o_enableEqualities s) (o_terminationTolerance s) (o_boundTolerance s) (o_boundRelaxation s) (o_epsNum s) (o_epsDen s) (o_maxPrimalJump s) (o_maxDualJump s) (o_initialRamping s) (o_finalRamping s) (o_initialFarBounds s) v (o_initialStatusBounds s) (o_epsFlipping s) (o_numRegularisationSteps s) (o_epsRegularisation s) (o_numRefinementSteps s) (o_epsIterRef s) (o_epsLITests s) (o_epsNZCTests s) (o_rcondSMin s) (o_enableInertiaCorrection s) (o_enableDropInfeasibles s) (o_dropBoundPriority s) (o_dropEqConPriority s) (o_dropIneqConPriority s).
Definition set_o_initialStatusBounds {N : Num} (v : SubjectToStatus) (s : options N) : options N :=
  mkOpt (o_printLevel s) (o_enableRamping s) (o_enableFarBounds s) (o_enableFlippingBounds s) (o_enableRegularisation s) (o_enableFullLITests s) (o_enableNZCTests s) (o_enableDriftCorrection s) (o_enableCholeskyRefactorisation s) (o_enableEqualities s) (o_terminationTolerance s) (o_boundTolerance s) (o_boundRelaxation s) (o_epsNum s) (o_epsDen s) (o_maxPrimalJump s) (o_maxDualJump s) (o_initialRamping s) (o_finalRamping s) (o_initialFarBounds s) (o_growFarBounds s) v (o_epsFlipping s) (o_numRegularisationSteps s) (o_epsRegularisation s) (o_numRefinementSteps s) (o_epsIterRef s) (o_epsLITests s) (o_epsNZCTests s) (o_rcondSMin s) (o_enableInertiaCorrection s) (o_enableDropInfeasibles s) (o_dropBoundPriority s) (o_dropEqConPriority s) (o_dropIneqConPriority s).
Definition set_o_epsFlipping {N : Num} (v : car N) (s : options N) : options N :=
  mkOpt (o_printLevel s) (o_enableRamping s) (o_enableFarBounds s) (o_enableFlippingBounds s) (o_enableRegularisation s) (o_enableFullLITests s) (o_enableNZCTests s) (o_enableDriftCorrection s) (o_enableCholeskyRefactorisation s) (o_enableEqualities s) (o_terminationTolerance s) (o_boundTolerance s) (o_boundRelaxation s) (o_epsNum s) (o_epsDen s) (o_maxPrimalJump s) (o_maxDualJump s) (o_initialRamping s) (o_finalRamping s) (o_initialFarBounds s) (o_growFarBounds s) (o_initialStatusBounds s) v (o_numRegularisationSteps s) (o_epsRegularisation s) (o_numRefinementSteps s) (o_epsIterRef s) (o_epsLITests s) (o_epsNZCTests s) (o_rcondSMin s) (o_enableInertiaCorrection s) (o_enableDropInfeasibles s) (o_dropBoundPriority s) (o_dropEqConPriority s) (o_dropIneqConPriority s).
Definition set_o_numRegularisationSteps {N : Num} (v : Z) (s : options N) : options N :=
  mkOpt (o_printLevel s) (o_enableRamping s) (o_enableFarBounds s) (o_enableFlippingBounds s) (o_enableRegularisation s) (o_enableFullLITests s) (o_enableNZCTests s) (o_enableDriftCorrection s) (o_enableCholeskyRefactorisation s) (o_enableEqualities s) (o_terminationTolerance s) (o_boundTolerance s) (o_boundRelaxation s) (o_epsNum s) (o_epsDen s) (o_maxPrimalJump s) (o_maxDualJump s) (o_initialRamping s) (o_finalRamping s) (o_initialFarBounds s) (o_growFarBounds s) (o_initialStatusBounds s) (o_epsFlipping s) v (o_epsRegularisation s) (o_numRefinementSteps s) (o_epsIterRef s) (o_epsLITests s) (o_epsNZCTests s) (o_rcondSMin s) (o_enableInertiaCorrection s) (o_enableDropInfeasibles s) (o_dropBoundPriority s) (o_dropEqConPriority s) (o_dropIneqConPriority s).
Definition set_o_epsRegularisation {N : Num} (v : car N) (s : options N) : options N :=
  mkOpt (o_printLevel s) (o_enableRamping s) (o_enableFarBounds s) (o_enableFlippingBounds s) (o_enableRegularisation s) (o_enableFullLITests s) (o_enableNZCTests s) (o_enableDriftCorrection s) (o_enableCholeskyRefactorisation s) (o_enableEqualities s) (o_terminationTolerance s) (o_boundTolerance s) (o_boundRelaxation s) (o_epsNum s) (o_epsDen s) (o_maxPrimalJump s) (o_maxDualJump s) (o_initialRamping s) (o_finalRamping s) (o_initialFarBounds s) (o_growFarBounds s) (o_initialStatusBounds s) (o_epsFlipping s) (o_numRegularisationSteps s) v (o_numRefinementSteps s) (o_epsIterRef s) (o_epsLITests s) (o_epsNZCTests s) (o_rcondSMin s) (o_enableInertiaCorrection s) (o_enableDropInfeasibles s) (o_dropBoundPriority s) (o_dropEqConPriority s) (o_dropIneqConPriority s).
Definition set_o_numRefinementSteps {N : Num} (v : Z) (s : options N) : options N :=
  mkOpt (o_printLevel s) (o_enableRamping s) (o_enableFarBounds s) (o_enableFlippingBounds s) (o_enableRegularisation s) (o_enableFullLITests s) (o_enableNZCTests s) (o_enableDriftCorrection s) (o_enableCholeskyRefactorisation s) (o_enableEqualities s) (o_terminationTolerance s) (o_boundTolerance s) (o_boundRelaxation s) (o_epsNum s) (o_epsDen s) (o_maxPrimalJump s) (o_maxDualJump s) (o_initialRamping s) (o_finalRamping s) (o_initialFarBounds s) (o_growFarBounds s) (o_initialStatusBounds s) (o_epsFlipping s) (o_numRegularisationSteps s) (o_epsRegularisation s) v (o_epsIterRef s) (o_epsLITests s) (o_epsNZCTests s) (o_rcondSMin s) (o_enableInertiaCorrection s) (o_enableDropInfeasibles s) (o_dropBoundPriority s) (o_dropEqConPriority s) (o_dropIneqConPriority s).
Definition set_o_epsIterRef {N : Num} (v : car N) (s : options N) : options N :=
  mkOpt (o_printLevel s) (o_enableRamping s) (o_enableFarBounds s) (o_enableFlippingBounds s) (o_enableRegularisation s) (o_enableFullLITests s) (o_enableNZCTests s) (o_enableDriftCorrection s) (o_enableCholeskyRefactorisation s) (o_enableEqualities s) (o_terminationTolerance s) (o_boundTolerance s) (o_boundRelaxation s) (o_epsNum s) (o_epsDen s) (o_maxPrimalJump s) (o_maxDualJump s) (o_initialRamping s) (o_finalRamping s) (o_initialFarBounds s) (o_growFarBounds s) (o_initialStatusBounds s) (o_epsFlipping s) (o_numRegularisationSteps s) (o_epsRegularisation s) (o_numRefinementSteps s) v (o_epsLITests s) (o_epsNZCTests s) (o_rcondSMin s) (o_enableInertiaCorrection s) (o_enableDropInfeasibles s) (o_dropBoundPriority s) (o_dropEqConPriority s) (o_dropIneqConPriority s).
Definition set_o_epsLITests {N : Num} (v : car N) (s : options N) : options N :=
  mkOpt (o_printLevel s) (o_enableRamping s) (o_enableFarBounds s) (o_enableFlippingBounds s) (o_enableRegularisation s) (o_enableFullLITests s) (o_enableNZCTests s) (o_enableDriftCorrection s) (o_enableCholeskyRefactorisation s) (o_enableEqualities s) (o_terminationTolerance s) (o_boundTolerance s) (o_boundRelaxation s) (o_epsNum s) (o_epsDen s) (o_maxPrimalJump s) (o_maxDualJump s) (o_initialRamping s) (o_finalRamping s) (o_initialFarBounds s) (o_growFarBounds s) (o_initialStatusBounds s) (o_epsFlipping s) (o_numRegularisationSteps s) (o_epsRegularisation s) (o_numRefinementSteps s) (o_epsIterRef s) v (o_epsNZCTests s) (o_rcondSMin s) (o_enableInertiaCorrection s) (o_enableDropInfeasibles s) (o_dropBoundPriority s) (o_dropEqConPriority s) (o_dropIneqConPriority s).
Definition set_o_epsNZCTests {N : Num} (v : car N) (s : options N) : options N :=
  mkOpt (o_printLevel s) (o_enableRamping s) (o_enableFarBounds s) (o_enableFlippingBounds s) (o_enableRegularisation s) (o_enableFullLITests s) (o_enableNZCTests s) (o_enableDriftCorrection s) (o_enableCholeskyRefactorisation s) (o_enableEqualities s) (o_terminationTolerance s) (o_boundTolerance s) (o_boundRelaxation s) (o_epsNum s) (o_epsDen s) (o_maxPrimalJump s) (o_maxDualJump s) (o_initialRamping s) (o_finalRamping s) (o_initialFarBounds s) (o_growFarBounds s) (o_initialStatusBounds s) (o_epsFlipping s) (o_numRegularisationSteps s) (o_epsRegularisation s) (o_numRefinementSteps s) (o_epsIterRef s) (o_epsLITests s) v (o_rcondSMin s) (o_enableInertiaCorrection s) (o_enableDropInfeasibles s) (o_dropBoundPriority s) (o_dropEqConPriority s) (o_dropIneqConPriority s).
Definition set_o_rcondSMin {N : Num} (v : car N) (s : options N) : options N :=
  mkOpt (o_printLevel s) (o_enableRamping s) (o_enableFarBounds s) (o_enableFlippingBounds s) (o_enableRegularisation s) (o_enableFullLITests s) (o_enableNZCTests s) (o_enableDriftCorrection s) (o_enableCholeskyRefactorisation s) (o_enableEqualities s) (o_terminationTolerance s) (o_boundTolerance s) (o_boundRelaxation s) (o_epsNum s) (o_epsDen s) (o_maxPrimalJump s) (o_maxDualJump s) (o_initialRamping s) (o_finalRamping s) (o_initialFarBounds s) (o_growFarBounds s) (o_initialStatusBounds s) (o_epsFlipping s) (o_numRegularisationSteps s) (o_epsRegularisation s) (o_numRefinementSteps s) (o_epsIterRef s) (o_epsLITests s) (o_epsNZCTests s) v (o_enableInertiaCorrection s) (o_enableDropInfeasibles s) (o_dropBoundPriority s) (o_dropEqConPriority s) (o_dropIneqConPriority s).
Definition set_o_enableInertiaCorrection {N : Num} (v : bool) (s : options N) : options N :=
  mkOpt (o_printLevel s) (o_enableRamping s) (o_enableFarBounds s) (o_enableFlippingBounds s) (o_enableRegularisation s) (o_enableFullLITests s) (o_enableNZCTests s) (o_enableDriftCorrection s) (o_enableCholeskyRefactorisation s) (o_enableEqualities s) (o_terminationTolerance s) (o_boundTolerance s) (o_boundRelaxation s) (o_epsNum s) (o_epsDen s) (o_maxPrimalJump s) (o_maxDualJump s) (o_initialRamping s) (o_finalRamping s) (o_initialFarBounds s) (o_growFarBounds s) (o_initialStatusBounds s) (o_epsFlipping s) (o_numRegularisationSteps s) (o_epsRegularisation s) (o_numRefinementSteps s) (o_epsIterRef s) (o_epsLITests s) (o_epsNZCTests s) (o_rcondSMin s) v (o_enableDropInfeasibles s) (o_dropBoundPriority s) (o_dropEqConPriority s) (o_dropIneqConPriority s).
Definition set_o_enableDropInfeasibles {N : Num} (v : bool) (s : options N) : options N :=
  mkOpt (o_printLevel s) (o_enableRamping s) (o_enableFarBounds s) (o_enableFlippingBounds s) (o_enableRegularisation s) (o_enableFullLITests s) (o_enableNZCTests s) (o_enableDriftCorrection s) (o_enableCholeskyRefactorisation s) (o_enableEqualities s) (o_terminationTolerance s) (o_boundTolerance s) (o_boundRelaxation s) (o_epsNum s) (o_epsDen s) (o_maxPrimalJump s) (o_maxDualJump s) (o_initialRamping s) (o_finalRamping s) (o_initialFarBounds s) (o_growFarBounds s) (o_initialStatusBounds s) (o_epsFlipping s) (o_numRegularisationSteps s) (o_epsRegularisation s) (o_numRefinementSteps s) (o_epsIterRef s) (o_epsLITests s) (o_epsNZCTests s) (o_rcondSMin s) (o_enableInertiaCorrection s) v (o_dropBoundPriority s) (o_dropEqConPriority s) (o_dropIneqConPriority s).
Definition set_o_dropBoundPriority {N : Num} (v : Z) (s : options N) : options N :=
  mkOpt (o_printLevel s) (o_enableRamping s) (o_enableFarBounds s) (o_enableFlippingBounds s) (o_enableRegularisation s) (o_enableFullLITests s) (o_enableNZCTests s) (o_enableDriftCorrection s) (o_enableCholeskyRefactorisation s) (o_enableEqualities s) (o_terminationTolerance s) (o_boundTolerance s) (o_boundRelaxation s) (o_epsNum s) (o_epsDen s) (o_maxPrimalJump s) (o_maxDualJump s) (o_initialRamping s) (o_finalRamping s) (o_initialFarBounds s) (o_growFarBounds s) (o_initialStatusBounds s) (o_epsFlipping s) (o_numRegularisationSteps s) (o_epsRegularisation s) (o_numRefinementSteps s) (o_epsIterRef s) (o_epsLITests s) (o_epsNZCTests s) (o_rcondSMin s) (o_enableInertiaCorrection s) (o_enableDropInfeasibles s) v (o_dropEqConPriority s) (o_dropIneqConPriority s).
Definition set_o_dropEqConPriority {N : Num} (v : Z) (s : options N) : options N :=
  mkOpt (o_printLevel s) (o_enableRamping s) (o_enableFarBounds s) (o_enableFlippingBounds s) (o_enableRegularisation s) (o_enableFullLITests s) (o_enableNZCTests s) (o_enableDriftCorrection s) (o_enableCholeskyRefactorisation s) (o_enableEqualities s) (o_terminationTolerance s) (o_boundTolerance s) (o_boundRelaxation s) (o_epsNum s) (o_epsDen s) (o_maxPrimalJump s) (o_maxDualJump s) (o_initialRamping s) (o_finalRamping s) (o_initialFarBounds s) (o_growFarBounds s) (o_initialStatusBounds s) (o_epsFlipping s) (o_numRegularisationSteps s) (o_epsRegularisation s) (o_numRefinementSteps s) (o_epsIterRef s) (o_epsLITests s) (o_epsNZCTests s) (o_rcondSMin s) (o_enableInertiaCorrection s) (o_enableDropInfeasibles s) (o_dropBoundPriority s) v (o_dropIneqConPriority s).
Definition set_o_dropIneqConPriority {N : Num} (v : Z) (s : options N) : options N :=
  mkOpt (o_printLevel s) (o_enableRamping s) (o_enableFarBounds s) (o_enableFlippingBounds s) (o_enableRegularisation s) (o_enableFullLITests s) (o_enableNZCTests s) (o_enableDriftCorrection s) (o_enableCholeskyRefactorisation s) (o_enableEqualities s) (o_terminationTolerance s) (o_boundTolerance s) (o_boundRelaxation s) (o_epsNum s) (o_epsDen s) (o_maxPrimalJump s) (o_maxDualJump s) (o_initialRamping s) (o_finalRamping s) (o_initialFarBounds s) (o_growFarBounds s) (o_initialStatusBounds s) (o_epsFlipping s) (o_numRegularisationSteps s) (o_epsRegularisation s) (o_numRefinementSteps s) (o_epsIterRef s) (o_epsLITests s) (o_epsNZCTests s) (o_rcondSMin s) (o_enableInertiaCorrection s) (o_enableDropInfeasibles s) (o_dropBoundPriority s) (o_dropEqConPriority s) v.

Section Options.
Context {N : Num}.
Implicit Types (s : options N).

(** Options.cpp:94-168.  Every member is assigned, so the result does not depend
    on the previous state. *)
Definition setToDefault s : options N :=
  mkOpt PL_MEDIUM true true true false false true 1 0 false
    (nlit 5 6 *' nEPS)          (* terminationTolerance *)
    (nlit 1 6 *' nEPS)          (* boundTolerance *)
    (nlit 1 4)                  (* boundRelaxation *)
    (-' nlit 1 3 *' nEPS)       (* epsNum *)
    (nlit 1 3 *' nEPS)          (* epsDen *)
    (nlit 1 8) (nlit 1 8)       (* maxPrimalJump, maxDualJump *)
    (nlit 5 (-1)) n1            (* initialRamping, finalRamping *)
    (nlit 1 6) (nlit 1 3)       (* initialFarBounds, growFarBounds *)
    ST_LOWER
    (nlit 1 3 *' nEPS)          (* epsFlipping *)
    0
    (nlit 1 3 *' nEPS)          (* epsRegularisation *)
    1
    (nlit 1 2 *' nEPS)          (* epsIterRef *)
    (nlit 1 5 *' nEPS)          (* epsLITests *)
    (nlit 3 3 *' nEPS)          (* epsNZCTests *)
    (nlit 1 (-14))              (* rcondSMin *)
    true false 1 1 1.

(** Options.cpp:174-188 *)
Definition setToReliable s : options N :=
  let s := setToDefault s in
  let s := set_o_enableFullLITests true s in
  let s := set_o_enableCholeskyRefactorisation 1 s in
  set_o_numRefinementSteps 2 s.

(** Options.cpp:194-225 *)
Definition setToMPC s : options N :=
  let s := setToDefault s in
  let s := set_o_enableRamping false s in
  let s := set_o_enableFarBounds true s in
  let s := set_o_enableFlippingBounds false s in
  let s := set_o_enableRegularisation true s in
  let s := set_o_enableNZCTests false s in
  let s := set_o_enableDriftCorrection 0 s in
  let s := set_o_enableEqualities true s in
  let s := set_o_terminationTolerance (nlit 1 9 *' nEPS) s in
  let s := set_o_initialStatusBounds ST_INACTIVE s in
  let s := set_o_numRegularisationSteps 1 s in
  set_o_numRefinementSteps 0 s.

(** Options.cpp:231-234 *)
Definition setToFast s : options N := setToMPC s.

(** One "if ( bad ) { fix; needToAdjust = BT_TRUE; }" of ensureConsistency. *)
Definition adj (bad : options N -> bool) (fix_ : options N -> options N) (st : bool * options N) : bool * options N :=
  if bad (snd st) then (true, fix_ (snd st)) else st.

(** Options.cpp:241-378, statement by statement. *)
Definition ensureConsistency_run s : bool * options N :=
  let st := (false, s) in
  let st := adj (fun s => o_enableDriftCorrection s <? 0) (set_o_enableDriftCorrection 0) st in
  let st := adj (fun s => o_enableCholeskyRefactorisation s <? 0) (set_o_enableCholeskyRefactorisation 0) st in
  let st := adj (fun s => o_terminationTolerance s <=' n0) (set_o_terminationTolerance nEPS) st in
  let st := adj (fun s => o_epsIterRef s <=' n0) (set_o_epsIterRef nEPS) st in
  let st := adj (fun s => o_epsRegularisation s <=' n0) (set_o_epsRegularisation nEPS) st in
  let st := adj (fun s => o_boundTolerance s <=' n0) (set_o_boundTolerance nEPS) st in
  let st := adj (fun s => o_boundRelaxation s <=' n0) (set_o_boundRelaxation nEPS) st in
  let st := adj (fun s => o_maxPrimalJump s <=' n0) (set_o_maxPrimalJump nEPS) st in
  let st := adj (fun s => o_maxDualJump s <=' n0) (set_o_maxDualJump nEPS) st in
  let st := adj (fun s => o_initialRamping s <' n0) (set_o_initialRamping n0) st in
  let st := adj (fun s => o_finalRamping s <' n0) (set_o_finalRamping n0) st in
  let st := adj (fun s => o_initialFarBounds s <=' o_boundRelaxation s)
                (fun s => set_o_initialFarBounds (o_boundRelaxation s +' nEPS) s) st in
  let st := adj (fun s => o_growFarBounds s <' nlit 11 (-1)) (set_o_growFarBounds (nlit 11 (-1))) st in
  let st := adj (fun s => o_epsFlipping s <=' n0) (set_o_epsFlipping nEPS) st in
  let st := adj (fun s => o_numRegularisationSteps s <? 0) (set_o_numRegularisationSteps 0) st in
  let st := adj (fun s => o_epsRegularisation s <' n0) (set_o_epsRegularisation nEPS) st in
  let st := adj (fun s => o_numRefinementSteps s <? 0) (set_o_numRefinementSteps 0) st in
  let st := adj (fun s => o_epsIterRef s <' n0) (set_o_epsIterRef nEPS) st in
  let st := adj (fun s => o_epsLITests s <' n0) (set_o_epsLITests nEPS) st in
  let st := adj (fun s => o_epsNZCTests s <' n0) (set_o_epsNZCTests nEPS) st in
  st.
Definition ensureConsistency s : returnValue * options N :=
  let '(needToAdjust, s') := ensureConsistency_run s in
  (if needToAdjust then RET_OPTIONS_ADJUSTED else SUCCESSFUL_RETURN, s').

(** Options.cpp:508-553, member by member. *)
Definition options_copy (rhs : options N) : options N :=
  mkOpt (o_printLevel rhs) (o_enableRamping rhs) (o_enableFarBounds rhs) (o_enableFlippingBounds rhs) (o_enableRegularisation rhs) (o_enableFullLITests rhs) (o_enableNZCTests rhs) (o_enableDriftCorrection rhs) (o_enableCholeskyRefactorisation rhs) (o_enableEqualities rhs) (o_terminationTolerance rhs) (o_boundTolerance rhs) (o_boundRelaxation rhs) (o_epsNum rhs) (o_epsDen rhs) (o_maxPrimalJump rhs) (o_maxDualJump rhs) (o_initialRamping rhs) (o_finalRamping rhs) (o_initialFarBounds rhs) (o_growFarBounds rhs) (o_initialStatusBounds rhs) (o_epsFlipping rhs) (o_numRegularisationSteps rhs) (o_epsRegularisation rhs) (o_numRefinementSteps rhs) (o_epsIterRef rhs) (o_epsLITests rhs) (o_epsNZCTests rhs) (o_rcondSMin rhs) (o_enableInertiaCorrection rhs) (o_enableDropInfeasibles rhs) (o_dropBoundPriority rhs) (o_dropEqConPriority rhs) (o_dropIneqConPriority rhs).
End Options.
