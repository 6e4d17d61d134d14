-Q theories Verif
theories/Spec.v
theories/PyBase.v
theories/MSet.v
theories/MText.v
theories/MQueue.v
theories/MDb.v
theories/MSolver.v
theories/MMain.v
theories/MStack.v
theories/MProc.v
theories/SpecInput.v
theories/SpecRun.v
theories/SpecProc.v
theories/PLib.v
theories/PClause.v
theories/PRename.v
theories/PLo.v
theories/PNorm.v
theories/PEval.v
theories/PText.v
theories/PQueue.v
theories/PNode.v
theories/PStep.v
theories/PRun.v
theories/PStats.v
theories/PSolver.v
theories/PSolve.v
theories/PSearch.v
theories/PGraph.v
theories/PP1.v
theories/Properties1.v
theories/PP2.v
theories/Properties2.v
theories/PP3.v
theories/Properties3.v
theories/PReader.v
theories/PMain.v
theories/PP4.v
theories/Properties4.v
theories/PArith.v
theories/PP5.v
theories/Properties5.v
theories/PP6.v
theories/Properties6.v
theories/PDb.v
theories/PResume.v
theories/PReplay.v
theories/PResumed.v
theories/PP7.v
theories/Properties7.v
theories/PP8.v
theories/Properties8.v
theories/PProc.v
theories/PProc2.v
theories/PProc3.v
theories/PProc4.v
theories/PProc5.v
theories/PProc6.v
theories/PP9.v
theories/Properties9.v
theories/MShare.v
theories/SpecShare.v
theories/PShare1.v
theories/PShare2.v
theories/PShare3.v
theories/PShare4.v
theories/PShare5.v
theories/PShare6.v
theories/PShare7.v
theories/PP10.v
theories/Properties10.v
theories/SpecThief.v
theories/PThief.v
theories/PP11.v
theories/Properties11.v
theories/MGen.v
theories/SpecGen.v
theories/PGen1.v
theories/PGen2.v
theories/PGen3.v
theories/PGen4.v
theories/PGen5.v
theories/PGen6.v
theories/PGen7.v
theories/PGen8.v
theories/PGen9.v
theories/PGen10.v
theories/PGen11.v
theories/PGen12.v
theories/PGen13.v
theories/PP12.v
theories/Properties12.v
theories/SpecStack.v
theories/PStack.v
theories/PUnits.v
theories/PProg.v
theories/PP13.v
theories/Properties13.v
theories/MCli.v
theories/SpecCli.v
theories/MCnf.v
theories/SpecCnf.v
theories/PCnf1.v
theories/PCnf2.v
theories/PCnf3.v
theories/MFam.v
theories/MFam2.v
theories/PFam1.v
theories/SpecFam.v
theories/PFam2.v
theories/PFam3.v
theories/PFam4.v
theories/PFam5.v
theories/PFam6.v
theories/PFam7.v
theories/PFam8.v
theories/PFam9.v
theories/PFam10.v
theories/PFam11.v
theories/MSession.v
theories/SpecSession.v
theories/PProg2.v
theories/PCli.v
theories/PSplit.v
theories/PSplit2.v
theories/PSession.v
theories/PP14.v
theories/Properties14.v
theories/PP15.v
theories/Properties15.v
theories/PP16.v
theories/Properties16.v
theories/PP17.v
theories/Properties17.v
theories/PP18.v
theories/Properties18.v
theories/SpecFam2.v
theories/PFam12.v
theories/PFam13.v
theories/PFam14.v
theories/PFam15.v
theories/PFam16.v
theories/PP20.v
theories/Properties20.v
theories/PP19.v
theories/Properties19.v
theories/MTrans.v
theories/SpecTrans.v
theories/PTrans1.v
theories/PTrans2.v
theories/PTrans3.v
theories/PTrans4.v
theories/PTrans5.v
theories/PTrans6.v
theories/PTrans7.v
theories/PP21.v
theories/Properties21.v
theories/PNames.v
theories/PP22.v
theories/Properties22.v
theories/MFile.v
theories/SpecFile.v
theories/PFile1.v
theories/PFile2.v
theories/PFile3.v
theories/PFile4.v
theories/PFile5.v
theories/PFile6.v
theories/PP23.v
theories/Properties23.v
theories/PP24.v
theories/Properties24.v
theories/PFile7.v
theories/PP25.v
theories/Properties25.v
theories/MGraph.v
theories/SpecGraph.v
theories/PGraph1.v
theories/PGraph2.v
theories/PGraph3.v
theories/PGraph4.v
theories/PGraph5.v
theories/PP26.v
theories/Properties26.v
theories/MTool.v
theories/SpecTool.v
theories/PTool1.v
theories/PTool2.v
theories/PTool3.v
theories/PTool4.v
theories/PP27.v
theories/Properties27.v
theories/MSat.v
theories/SpecSat.v
theories/PSat1.v
theories/PP28.v
theories/Properties28.v
theories/MGenCmd.v
theories/SpecGenCmd.v
theories/PGenCmd0.v
theories/PGenCmd1.v
theories/PGenCmd2.v
theories/PGenCmd3.v
theories/PGenCmd4.v
theories/PGenCmd5.v
theories/PGenCmd6.v
theories/PGenCmd7.v
theories/PGenCmd8.v
theories/PP29.v
theories/Properties29.v
theories/MFloat.v
theories/SpecFloat.v
theories/PFloat.v
theories/PP30.v
theories/Properties30.v
theories/SpecPipe.v
theories/PPipe1.v
theories/PPipe2.v
theories/PPipe3.v
theories/PPipe4.v
theories/PPipe5.v
theories/PP31.v
theories/Properties31.v
theories/MLatex.v
theories/SpecLatex.v
theories/PLatex.v
theories/PP32.v
theories/Properties32.v
theories/MSabry.v
theories/SpecSabry.v
theories/PSabry.v
theories/PP33.v
theories/Properties33.v
theories/MArgs.v
theories/SpecArgs.v
theories/PArgs.v
theories/PP34.v
theories/Properties34.v
theories/MReport.v
theories/SpecReport.v
theories/PReport.v
theories/PReport2.v
theories/PP35.v
theories/Properties35.v
theories/MDot.v
theories/SpecLabel.v
theories/PLabel.v
theories/PP36.v
theories/Properties36.v
theories/MFormat.v
theories/SpecFormat.v
theories/PFormat.v
theories/PP37.v
theories/Properties37.v
