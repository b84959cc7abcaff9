-Q theories Verif
theories/Base.v
theories/Notation.v
theories/Valid.v
theories/PrettyDoc.v
theories/Consolidated.v
theories/Printer.v
theories/SpecLayout.v
theories/PFuel.v
theories/PLayout.v
theories/PRefine.v
theories/PPrint.v
theories/PSeek.v
theories/PSeek2.v
theories/PMain.v
theories/SpecFocus.v
theories/PLab.v
theories/PFinal.v
theories/PTop.v
theories/PEval.v
theories/SpecDoc.v
theories/PTree.v
theories/SpecElab.v
theories/PElab.v
theories/PClosed.v
theories/SpecPrint.v
theories/PWhole.v
theories/PFocus.v
theories/PFocus2.v
theories/PText.v
theories/PFinite.v
theories/SpecProps.v
theories/Examples.v
theories/Properties1.v
theories/Properties2.v
theories/Properties2Ex.v
theories/SpecMask.v
theories/PMask.v
theories/Properties3.v
theories/SpecSpine.v
theories/PSpine.v
theories/SpecLine.v
theories/PLine.v
theories/PLine2.v
theories/PFlat.v
theories/Properties4.v
theories/Properties4Ex.v
theories/SpecRewrite.v
theories/PRewrite.v
theories/SpecShown.v
theories/PShown.v
theories/Properties5.v
theories/Properties5Ex.v
theories/Oracle.v
theories/SpecOracle.v
theories/POracle.v
theories/POracle2.v
theories/Properties6.v
theories/Properties6Ex.v
theories/SpecValid.v
theories/PValid.v
theories/PValid2.v
theories/Properties7.v
theories/Properties7Ex.v
theories/Machine.v
theories/Divvy.v
theories/SpecDivvy.v
theories/PDivvy.v
theories/PDivvy2.v
theories/Properties8.v
theories/F32.v
theories/Pane.v
theories/SpecPane.v
theories/PPane.v
theories/PPane2.v
theories/PPane3.v
theories/PPane4.v
theories/PPane5.v
theories/Properties9.v
theories/Properties9Ex.v
theories/PF32.v
theories/PPane6.v
theories/PPane7.v
theories/SpecPane2.v
theories/PPane8.v
theories/PPane9.v
theories/Properties10.v
theories/Properties10Ex.v
theories/PlainText.v
theories/SpecPlain.v
theories/PPlain.v
theories/Properties11.v
theories/Properties11Ex.v
theories/BasicStyle.v
theories/TreeDoc.v
theories/Json.v
theories/SpecTree.v
theories/Properties12.v
theories/Properties12Ex.v
theories/SpecJson.v
theories/PJson.v
theories/PJson2.v
theories/PJson3.v
theories/PJson4.v
theories/PJson5.v
theories/PJson6.v
theories/PJson7.v
theories/Properties13.v
theories/Properties13Ex.v
theories/Properties4Ex2.v
theories/SpecWide.v
theories/PWide.v
theories/Properties14.v
theories/Properties14Ex.v
theories/Iter.v
theories/SpecIter.v
theories/PIter.v
theories/Properties15.v
theories/Properties15Ex.v
theories/SpecLike.v
theories/PRel.v
theories/PStyle.v
theories/Properties16.v
theories/Properties16Ex.v
theories/SpecNest.v
theories/PNest.v
theories/Properties17.v
theories/Properties17Ex.v
theories/SpecOnce.v
theories/POnce.v
theories/Properties18.v
theories/Properties18Ex.v
theories/SpecResize.v
theories/PResize.v
theories/PResize2.v
theories/Properties19.v
theories/Properties20.v
theories/Properties19Ex.v
theories/POverflow.v
theories/POverflow2.v
theories/Properties21.v
theories/Properties21Ex.v
theories/JsonProgram.v
theories/SpecProgram.v
theories/PProgram.v
theories/PProgram2.v
theories/PProgram3.v
theories/Properties22.v
theories/Properties22Ex.v
theories/SpecPeek.v
theories/SpecOpen.v
theories/PPeek1.v
theories/PPeek2.v
theories/PPeek3.v
theories/PPeek4.v
theories/PPeek5.v
theories/PPeek6.v
theories/PPeek7.v
theories/PPeek8.v
theories/PPeek9.v
theories/PPeek10.v
theories/PPeek11.v
theories/PPeek12.v
theories/Properties23.v
theories/Properties23Ex.v
theories/Cost.v
theories/SpecWork.v
theories/PWork.v
theories/PCost1.v
theories/PCost2.v
theories/PCost3.v
theories/PCost4.v
theories/Properties24.v
theories/Properties24J.v
theories/Properties24Ex.v
theories/SpecSim.v
theories/PSim.v
theories/PSimCost.v
theories/Properties25.v
theories/Properties25Ex.v
theories/PMono.v
theories/PShut.v
theories/PTag.v
theories/SpecOpenWork.v
theories/PTag2.v
theories/SpecStack.v
theories/PStack.v
theories/PStack2.v
theories/Properties26.v
theories/PStack3.v
theories/PVertical.v
theories/Properties27.v
theories/Properties27Ex.v
theories/Calls.v
theories/PCalls1.v
theories/SpecCalls.v
theories/PCalls2.v
theories/PCalls3.v
theories/Properties28.v
theories/Properties28Ex.v
theories/SpecVisible.v
theories/PVisible.v
theories/Properties29.v
theories/Properties29Ex.v
theories/Generative.v
theories/SpecGenerative.v
theories/PGenerative.v
theories/Properties30.v
theories/Properties30Ex.v
theories/SpecPick.v
theories/PPick.v
theories/Properties31.v
theories/Properties31b.v
theories/Properties31Ex.v
theories/PSimFull.v
theories/SpecPage.v
theories/Properties32.v
theories/Properties32Ex.v
theories/SpecOrigin.v
theories/POrigin.v
theories/POrigin2.v
theories/SpecOriginPane.v
theories/POriginPane.v
theories/Properties33.v
theories/Properties33Ex.v
theories/SpecOrder.v
theories/POrder.v
theories/Properties34.v
theories/Properties34Ex.v
theories/PFirst.v
theories/PFirst2.v
theories/SpecFirst.v
theories/PFirst3.v
theories/Properties35.v
theories/Properties35Ex.v
theories/Show.v
theories/SpecShow.v
theories/PShow.v
theories/Properties36.v
theories/PShow2.v
theories/Properties37.v
theories/Properties37Ex.v
theories/PFirst4.v
theories/Properties38.v
theories/Properties38Ex.v
theories/Harness.v
theories/PHarness.v
theories/Properties39.v
theories/PHarness2.v
theories/PHarness3.v
theories/Properties40.v
theories/Properties40Ex.v
theories/SpecHarness.v
theories/PHarness4.v
theories/Properties41.v
theories/Properties41Ex.v
theories/Properties42.v
theories/Properties42Ex.v
theories/SpecScroll.v
theories/PScroll.v
theories/Properties43.v
theories/Properties43Ex.v
theories/SpecSimPane.v
theories/PSimPane.v
theories/Properties44.v
theories/Properties44Ex.v
theories/TestSuite.v
theories/TestSuite1.v
theories/TestSuite2.v
theories/TestSuite3.v
theories/Threads.v
theories/SpecThreads.v
theories/Properties45.v
theories/Properties45Ex.v
theories/Properties46.v
theories/Properties46Ex.v
theories/PPeek13.v
theories/PPeek14.v
theories/Properties47.v
theories/Properties47Ex.v
theories/PTag3.v
theories/Properties48.v
theories/Properties48Ex.v
theories/Properties49.v
theories/Properties49Ex.v
theories/Properties50.v
theories/Properties50Ex.v
theories/Properties51.v
theories/Properties51Ex.v
theories/Properties52.v
theories/Properties52Ex.v
theories/Properties53.v
theories/Properties53Ex.v
theories/Properties54.v
theories/Properties54Ex.v
theories/Properties55.v
