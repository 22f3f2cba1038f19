-Q theories Verif

theories/Base.v
theories/Num.v
theories/FloatNum.v
theories/TreeModel.v
theories/TreeFun.v
theories/TreeScore.v
theories/TreeRefine.v
theories/TreeSorts.v
theories/TreeInv.v
theories/SpecTree.v
theories/TreeState.v
theories/TreeTotal.v
theories/Nominal.v
theories/NominalFacts.v
theories/TreeRel.v
theories/TreeSim.v
theories/TreeWorld.v
theories/TreeLeaf.v
theories/TreeGen.v
theories/NominalTotal.v
theories/NominalTree.v
theories/NominalHidden.v
theories/Example.v
theories/PropsTree.v
theories/PropsTotal.v
theories/PropsRaise.v
theories/SortFacts.v
theories/ScoreR.v
theories/ScoreHeap.v
theories/ScoreStep.v
theories/RSum.v
theories/NominalR.v
theories/PropsScore.v
theories/Utils.v
theories/Query.v
theories/PropsUtils.v
theories/QueryLinks.v
theories/QueryR.v
theories/QueryFacts.v
theories/QueryPredict.v
theories/PropsQuery.v
theories/CV.v
theories/CVFacts.v
theories/C4Facts.v
theories/PropsCV.v
theories/Cobweb3.v
theories/C3Facts.v
theories/C3Scales.v
theories/C3R.v
theories/C3Tree.v
theories/C3Total.v
theories/Query3.v
theories/PropsC3.v
theories/PropsC3R.v
theories/C3Prob.v
theories/C3Units.v
theories/PropsC3U.v
theories/C3Nominal.v
theories/C3Hidden.v
theories/PropsC3X.v
theories/PropsC3E.v
theories/PyVal.v
theories/Preproc.v
theories/PreFlat.v
theories/PreTuple.v
theories/PreStd.v
theories/PropsPre.v
theories/Preproc2.v
theories/PreSub.v
theories/TreeClimb.v
theories/C3Copies.v
theories/TreeOne.v
theories/PropsClimb.v
theories/PropsClimbX.v
theories/C3Query.v
theories/PropsQ3.v
theories/PropsQ3I.v
theories/PropsLL.v
theories/PropsPre2.v
theories/StructMap.v
theories/StructFacts.v
theories/PropsStruct.v
theories/Trestle.v
theories/SpecTrestle.v
theories/TreeKeep.v
theories/TrestleFacts.v
theories/TrestleFresh.v
theories/TrestleRaise.v
theories/TrestleVals.v
theories/TrestleTotal.v
theories/TrestleSim.v
theories/TrestleRun.v
theories/PropsTrestle.v
theories/PropsTrestleR.v
theories/PropsTrestleI.v
theories/PropsTrestleX.v
theories/PreObj.v
theories/PropsTrestleU.v
theories/Cluster.v
theories/SpecCluster.v
theories/ClusterFacts.v
theories/ClusterLoop.v
theories/ClusterDepth.v
theories/ClusterCU.v
theories/PropsCluster.v
theories/PropsClusterT.v
theories/PropsClusterX.v
theories/Eval.v
theories/PropsEval.v
theories/PropsEvalR.v
theories/PropsEvalX.v
theories/Vis.v
theories/PropsVis.v
theories/PropsVisX.v
theories/Dummy.v
theories/PropsDummy.v
theories/PropsDummyX.v
theories/ListProc.v
theories/ListExt.v
theories/ListRel.v
theories/PropsLists.v
theories/PropsEval3.v
theories/PropsCU.v
theories/Info.v
theories/PropsInfo.v
theories/PropsInfoT.v
theories/ListOrd.v
theories/PropsMatch.v
theories/PropsRand.v
theories/PathLook.v
theories/TKeys.v
theories/TObjKeys.v
theories/TrestleKeep.v
theories/PropsTrestleK.v
theories/PropsTrestleY.v
theories/PropsTrestleS.v
theories/Quadruped.v
theories/PropsQuad.v
theories/TCluster.v
theories/PropsTCluster.v
theories/PropsCU3.v
theories/StructTab.v
theories/PropsStructTab.v
theories/PropsBatch.v
theories/PropsSearch.v
theories/PropsSearchR.v
theories/Print.v
theories/PropsPrint.v
theories/PropsPrintR.v
theories/PropsCounts.v
theories/PropsPrintX.v
theories/PropsDummyI.v
theories/PropsDummyR.v
theories/TEval.v
theories/PropsTEval.v
theories/PropsTEvalR.v
theories/PropsTEvalX.v
theories/PropsDummyM.v
theories/PropsHung.v
theories/PropsHungX.v
theories/PropsPre3.v
theories/PropsQuadS.v
theories/PropsRename.v
theories/PropsRenameX.v
theories/PropsTEvalE.v
theories/PropsLists2.v
theories/PropsOrder.v
theories/PropsOrder3.v
theories/PropsOrderX.v
theories/PropsNames.v
theories/PropsNames3.v
theories/PropsNamesI.v
theories/PropsNamesI3.v
theories/PropsNamesX.v
theories/TreeAff.v
theories/PropsConst.v
theories/PropsConstX.v
theories/PropsConst3.v
theories/PropsTies.v
theories/PropsTiesX.v
theories/PropsSize.v
theories/PropsSizeX.v
theories/PropsNone.v
theories/PropsNoneX.v
theories/TreeLead.v
theories/Recall.v
theories/PropsRecall.v
theories/PropsRecallX.v
theories/PropsRaw.v
theories/PropsRawX.v
theories/PropsTSize.v
theories/Fit.v
theories/PropsFit.v
theories/PropsFitX.v
theories/PropsCVJson.v
theories/PropsPredict.v
theories/PropsHill.v
theories/PropsHillR.v
theories/PropsTLift.v
theories/PropsTTies.v
theories/PropsRecall3.v
theories/PropsClash.v
