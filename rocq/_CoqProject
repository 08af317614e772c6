-Q theories Verif
theories/Base.v
theories/Loops.v
theories/SliceModel.v
theories/SliceSpec.v
theories/SliceProofs.v
theories/SliceProps.v
theories/MatrixModel.v
theories/MatrixSpec.v
theories/MatrixProofs.v
theories/MatrixProofs2.v
theories/MatrixProofs3.v
theories/MatrixProps.v
theories/SolveModel.v
theories/SolveSpec.v
theories/SolveProofs.v
theories/SolveProps.v
theories/PoolModel.v
theories/PoolSpec.v
theories/PoolProofs.v
theories/PoolProps.v
theories/RefModel.v
theories/RefSpec.v
theories/RefProofs.v
theories/RefProps.v
theories/ExprModel.v
theories/GraphSpec.v
theories/GraphProofs.v
theories/ExprInv.v
theories/ExprReal.v
theories/MathSpec.v
theories/MathProofs.v
theories/VarModel.v
theories/VarReach.v
theories/VarSpec.v
theories/VarProofs.v
theories/Faith.v
theories/FaithX.v
theories/HistProofs.v
theories/ExprXR.v
theories/XRProofs.v
theories/ConstProofs.v
theories/GraphPropsAux.v
theories/GraphProps.v
theories/DiffSpec.v
theories/OpDeriv.v
theories/OpDeriv2.v
theories/JacModel.v
theories/AdjProofs.v
theories/JacProofs.v
theories/SymProofs.v
theories/GradProofs.v
theories/SymReal.v
theories/OpMath.v
theories/SmoothSpec.v
theories/SmoothGraph.v
theories/SmoothGrad.v
theories/SmoothTree.v
theories/SmoothOpen.v
theories/SmoothJac.v
theories/SmoothHess.v
theories/SmoothUser.v
theories/SmoothSym.v
theories/JacUserSpec.v
theories/JacUser.v
theories/DegreeSpec.v
theories/TypeProofs.v
theories/JacReach.v
theories/JacHist.v
theories/JacSame.v
theories/JacReal.v
theories/JacPropsAux.v
theories/JacProps.v
theories/JacUserEx.v
theories/JacUserProps.v
theories/NumModel.v
theories/FilterModel.v
theories/FilterSpec.v
theories/FilterProofs.v
theories/FilterProps.v
theories/UtilModel.v
theories/LinR.v
theories/UtilSpec.v
theories/UtilProofs.v
theories/ScaleProofs.v
theories/LdltProofs.v
theories/TripletProofs.v
theories/KktModel.v
theories/KktSpec.v
theories/KktProofs.v
theories/EstProofs.v
theories/UtilProps.v
theories/BoundsModel.v
theories/BoundsSpec.v
theories/BoundsProofs.v
theories/BoundsWitness.v
theories/BoundsProps.v
theories/ExitModel.v
theories/SpyModel.v
theories/SpySpec.v
theories/SpyProofs.v
theories/MultiModel.v
theories/MultiSpec.v
theories/MultiProofs.v
theories/GuardModel.v
theories/GuardSpec.v
theories/GuardProofs.v
theories/DiagModel.v
theories/DiagSpec.v
theories/DiagProofs.v
theories/MiscProps.v
theories/SolverModel.v
theories/NewtonModel.v
theories/SqpModel.v
theories/IpmModel.v
theories/RestoreModel.v
theories/SolverProofs.v
theories/SolverSpec.v
theories/NewtonSpec.v
theories/NewtonProofs.v
theories/XArith.v
theories/NewtonXR.v
theories/NewtonProps.v
theories/IpmShape.v
theories/IpmSpec.v
theories/IpmProofs.v
theories/RestoreProofs.v
theories/SqpSpec.v
theories/SqpProofs.v
theories/PosX.v
theories/PosProofs.v
theories/UserProofs.v
theories/CallbackSpec.v
theories/CallbackProofs.v
theories/TermProofs.v
theories/TermFine.v
theories/SystemSpec.v
theories/SystemProofs.v
theories/BarrierSpec.v
theories/BarrierProofs.v
theories/XQ.v
theories/RunX.v
theories/ShownProofs.v
theories/RunY.v
theories/FinEval.v
theories/OutcomeProofs.v
theories/ExampleProofs.v
theories/SqpProps.v
theories/IpmProps.v
theories/ProblemModel.v
theories/ProblemSpec.v
theories/ProblemInv.v
theories/ProblemProofs.v
theories/ProblemProofs2.v
theories/ProblemProofs3.v
theories/ProblemProofs4.v
theories/ProblemProps.v
theories/ProbSolveModel.v
theories/CbModel.v
theories/ProbSolveInv.v
theories/ProbSolveEval.v
theories/ProbSolveSpec.v
theories/ProbSolveProofs.v
theories/LagrSpec.v
theories/ProbSolveMade.v
theories/ProbSolveDeriv.v
theories/ProbSolvePrep.v
theories/ProbSolveHist.v
theories/ProbSolveEnd.v
theories/ProbSolveDims.v
theories/ProbSolveLived.v
theories/ProbSolveFinal.v
theories/ProbSolveFacts.v
theories/ProbSolveNone.v
theories/ProbSolveKkt.v
theories/ProbSolveKkt2.v
theories/ProbSolveEx.v
theories/ProbSolveProps.v
theories/ProbSolveKktEx.v
theories/ProbSolveRun.v
theories/ProbKktProps.v
theories/ProbSolveTotal.v
theories/ProbTotalEx.v
theories/ProbTotalProps.v
theories/OcpModel.v
theories/OcpSpec.v
theories/OcpProofs.v
theories/OcpRk4.v
theories/OcpLoop.v
theories/OcpBody.v
theories/OcpMake.v
theories/OcpCtor.v
theories/OcpTrans.v
theories/OcpShoot.v
theories/OcpUse.v
theories/OcpOrder.v
theories/OcpEx.v
theories/OcpProps.v
theories/RestoreSpec.v
theories/FrProofs.v
theories/FrProofs2.v
theories/FrProofs3.v
theories/FrProofs4.v
theories/FrProofs5.v
theories/FrProofs6.v
theories/RestoreProps.v
theories/FloatModel.v
theories/FloatSpec.v
theories/FloatArith.v
theories/FloatStep.v
theories/FloatProofs.v
theories/FloatLdlt.v
theories/FloatBarrier.v
theories/FloatScale.v
theories/FloatProps.v
theories/LinearX.v
theories/ProbSolveBounds.v
theories/ProbBounds.v
theories/ProbBoundsEx.v
theories/ProbBoundsProps.v
theories/EarlySpec.v
theories/ProbEarly.v
theories/ProbEarly2.v
theories/ProbEarlyEx.v
theories/ProbEarlyProps.v
theories/OcpSolveSpec.v
theories/OcpSolve.v
theories/OcpSolveEx.v
theories/OcpSolveProps.v
theories/FiniteSpec.v
theories/FiniteI.v
theories/FiniteR.v
theories/FiniteS.v
theories/FiniteN.v
theories/FiniteUseSpec.v
theories/FiniteUse.v
theories/FiniteEx.v
theories/FiniteProps.v
theories/ConvexSpec.v
theories/ConvexProofs.v
theories/ConvexUse.v
theories/ConvexEx.v
theories/ConvexProps.v
theories/QuadSpec.v
theories/QuadProofs.v
theories/QuadUse.v
theories/LdlModel.v
theories/LdlProofs.v
theories/QuadEx.v
theories/QuadProps.v
theories/DownSpec.v
theories/DownLin.v
theories/DownProofs.v
theories/DownUse.v
theories/DownEx.v
theories/DownProps.v
theories/SaddleSpec.v
theories/LdlSaddle.v
theories/SaddleProofs.v
theories/SaddleUse.v
theories/SaddleEx.v
theories/SaddleProps.v
theories/PyModel.v
theories/PySpec.v
theories/PyProofs.v
theories/PyUse.v
theories/PyEx.v
theories/PyProps.v
theories/InfeasSpec.v
theories/InfeasUse.v
theories/InfeasEx.v
theories/InfeasProps.v
theories/PathDeriv.v
theories/RateSpec.v
theories/RateLin.v
theories/RateProofs.v
theories/RateCost.v
theories/RateUse.v
theories/RateEx.v
theories/RateProps.v
theories/CbSpec.v
theories/CbProofs.v
theories/CbUse.v
theories/CbEx.v
theories/CbProps.v
theories/PySigModel.v
theories/PySigSpec.v
theories/PySigProofs.v
theories/PySigUse.v
theories/PySigEx.v
theories/PySigProps.v
theories/CbEnds.v
theories/CbEndsProps.v
theories/HessSpec.v
theories/HessProofs.v
theories/HessUse.v
theories/HessEx.v
theories/HessProps.v
theories/NpModel.v
theories/NpSpec.v
theories/NpProofs.v
theories/NpEx.v
theories/NpProps.v
theories/ChainModel.v
theories/ChainSpec.v
theories/ChainProofs.v
theories/ChainEx.v
theories/ChainProps.v
theories/PyDuringSpec.v
theories/PyDuringProofs.v
theories/PyDuringProps.v
theories/MakeModel.v
theories/MakeSpec.v
theories/MakeProofs.v
theories/MakeProps.v
