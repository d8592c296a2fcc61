-Q theories Verif
theories/Num.v
theories/Arr.v
theories/ArrFacts.v
theories/M_Ode.v
theories/Spec_Ode.v
theories/P_Ode.v
theories/P_OdeRK.v
theories/P_OdeR.v
theories/P_OdeSel.v
theories/P_Conv.v
theories/Props_Ode.v
theories/M_LinAlg.v
theories/M_Utils.v
theories/Spec_Utils.v
theories/P_Trapz.v
theories/P_LinAlg.v
theories/Spec_Det.v
theories/P_Det.v
theories/P_Utils.v
theories/P_Ut.v
theories/Props_Utils.v
theories/Spec_Gauss.v
theories/P_Gauss.v
theories/M_Moments.v
theories/P_Moments.v
theories/Spec_Format.v
theories/P_Format.v
theories/Props_Moments.v
theories/M_Sde1.v
theories/Spec_Sde1.v
theories/P_Sde1.v
theories/Props_Sde1.v
theories/Spec_GaussN.v
theories/P_GaussN.v
theories/M_L63.v
theories/Spec_L63.v
theories/P_L63.v
theories/Props_L63.v
theories/M_L96.v
theories/Spec_L96.v
theories/P_L96.v
theories/Props_L96.v
theories/P_RMat.v
theories/M_Prior.v
theories/Spec_Prior.v
theories/P_Expect.v
theories/P_Prior.v
theories/Props_Prior.v
theories/M_Like.v
theories/Spec_Like.v
theories/P_Like.v
theories/Props_Like.v
theories/M_VarGP.v
theories/Spec_VarGP.v
theories/P_VarGP.v
theories/P_Stein.v
theories/P_Init.v
theories/P_Adjoint.v
theories/P_Grad1.v
theories/Props_VarGP.v
theories/M_Scg.v
theories/M_Run.v
theories/Spec_Scg.v
theories/P_Scg.v
theories/P_ScgPure.v
theories/P_ScgR.v
theories/P_ScgDiv.v
theories/P_RunWit.v
theories/P_ScgVgp.v
theories/Props_Scg.v
theories/M_Proc.v
theories/Spec_Proc.v
theories/P_Proc.v
theories/P_Traj.v
theories/P_Spectral.v
theories/P_Noise.v
theories/P_ProcWit.v
theories/Props_Proc.v
theories/M_Sim.v
theories/M_Sim1.v
theories/Spec_Sim.v
theories/Spec_Sim1.v
theories/P_Sim.v
theories/P_Save.v
theories/P_ScgTotal.v
theories/P_Sim1.v
theories/P_Sim2.v
theories/P_Main.v
theories/Props_Sim.v
theories/Spec_Dual.v
theories/P_Dual.v
theories/P_Dual2.v
theories/Props_Dual.v
theories/M_Check.v
theories/Spec_Check.v
theories/P_Check.v
theories/Props_Check.v
theories/M_L96E.v
theories/Spec_L96E.v
theories/P_L96E.v
theories/P_L96F.v
theories/P_L96G.v
theories/P_L96H.v
theories/P_L96I.v
theories/Props_L96E.v
theories/M_SimN.v
theories/Spec_SimN.v
theories/P_SimN.v
theories/P_SimN2.v
theories/Props_SimN.v
theories/P_Repro.v
theories/Props_Repro.v
theories/P_Bound.v
theories/P_Bound2.v
theories/Props_Bound.v
theories/Spec_Oper.v
theories/P_Oper.v
theories/P_Oper2.v
theories/P_Oper3.v
theories/P_Oper4.v
theories/Spec_Seed.v
theories/P_Seed.v
theories/P_Index.v
theories/Props_Index.v
theories/Props_Oper.v
theories/Spec_Problem.v
theories/P_Problem.v
theories/P_Problem2.v
theories/Spec_ProblemN.v
theories/Spec_Priors.v
theories/P_ProblemN.v
theories/P_PriorMany.v
theories/P_ProblemN2.v
theories/P_ProblemN3.v
theories/P_Priors.v
theories/Props_Problem.v
theories/Props_Priors.v
theories/Spec_GradN.v
theories/P_GradN.v
theories/P_GradN2.v
theories/P_GradN3.v
theories/P_GradL63.v
theories/P_GradL63T.v
theories/Props_GradN.v
theories/Props_Name.v
theories/Spec_Evid.v
theories/P_Jensen.v
theories/P_Evid.v
theories/P_Evid2.v
theories/P_Evid3.v
theories/P_Evid4.v
theories/Props_Evid.v
theories/Props_Evid2.v
theories/P_Evid5.v
theories/Props_Evid3.v
theories/P_Last96.v
theories/Props_GradL96.v
theories/Spec_Quad.v
theories/P_Quad.v
theories/P_Quad2.v
theories/P_Quad3.v
theories/P_Rosen.v
theories/Props_Quad.v
theories/P_BoundN.v
theories/Props_BoundN.v
theories/Spec_TimeVar.v
theories/P_TimeVar.v
theories/P_TimeVar2.v
theories/P_TimeVar3.v
theories/P_TimeVar4.v
theories/P_TimeVar5.v
theories/P_TimeVar6.v
theories/P_TimeVar7.v
theories/P_TimeVar8.v
theories/P_TimeVar9.v
theories/P_TimeVar10.v
theories/Props_TimeVar.v
theories/Spec_Limit.v
theories/P_Limit1.v
theories/P_Limit2.v
theories/P_Limit3.v
theories/P_Limit4.v
theories/P_Limit5.v
theories/P_Limit6.v
theories/Props_Limit.v
theories/P_LinOde.v
theories/P_LimitN0.v
theories/Spec_LimitN.v
theories/P_LimitN1.v
theories/P_LimitN2.v
theories/P_LimitN3.v
theories/P_SinkHeun.v
theories/P_SinkRK4.v
theories/P_LimitN4.v
theories/P_LimitN5.v
theories/P_LimitN6.v
theories/P_LimitN7.v
theories/P_LimitN8.v
theories/Props_LimitN.v
theories/Spec_Tests.v
theories/P_Tests.v
theories/Props_Tests.v
theories/M_Cli.v
theories/Spec_Cli.v
theories/P_Cli.v
theories/P_Cli2.v
theories/Props_Cli.v
theories/Spec_Setup.v
theories/P_Setup.v
theories/Props_Setup.v
theories/Spec_File.v
theories/P_File.v
theories/Props_File.v
theories/Spec_Text.v
theories/P_Text.v
theories/Props_Text.v
theories/Spec_ScgAlg.v
theories/P_ScgAlg.v
theories/Props_ScgAlg.v
