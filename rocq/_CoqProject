-Q theories Verif
theories/Num.v
theories/Py.v
theories/Nd.v
theories/MUtil.v
theories/MRotation.v
theories/MCore.v
theories/MObjects.v
theories/MHeap.v
theories/Spec.v
theories/SpecArr.v
theories/LNum.v
theories/LTrig.v
theories/LVec.v
theories/LArr.v
theories/LLatLon.v
theories/PUnit.v
theories/LAngle.v
theories/LDist.v
theories/PDist.v
theories/LVerm.v
theories/LEcef.v
theories/PEcef.v
theories/LCircle.v
theories/PCircle.v
theories/PTrack.v
theories/PArc.v
theories/LMat.v
theories/LRot.v
theories/PRot.v
theories/PFrame.v
theories/PMdot.v
theories/LDirect.v
theories/PDirect.v
theories/PUtil.v
theories/PEllipsoid.v
theories/PHeap.v
theories/SpecObj.v
theories/LEq.v
theories/PEq.v
theories/LObj.v
theories/PEq2.v
theories/LObj2.v
theories/PObj.v
theories/PObj2.v
theories/POps.v
theories/PGeod.v
theories/PGeod2.v
theories/SpecGeo.v
theories/LGreat.v
theories/PGreat.v
theories/PPath.v
theories/PClosest.v
theories/PScale.v
theories/MInterp.v
theories/PInterp.v
theories/FTiny.v
theories/FZero.v
theories/SpecPath.v
theories/PPath2.v
theories/PPath3.v
theories/MHist.v
theories/MAccess.v
theories/PHist.v
theories/PHist2.v
theories/PHist3.v
theories/PAccess.v
theories/MRepr.v
theories/PRepr.v
theories/PEcef2.v
theories/FBase.v
theories/FUnit.v
theories/FDist.v
theories/FGreat.v
theories/FPi.v
theories/FAngle.v
theories/FMod.v
theories/FLatLon.v
theories/FClose.v
theories/FNan.v
theories/FTrack.v
theories/FOnCircle.v
theories/FInv.v
theories/FInv2.v
theories/FInv3.v
theories/FRel.v
theories/FEcef.v
theories/FEcef2.v
theories/FRel2.v
theories/FGeodB.v
theories/FGeod.v
theories/FGeod2.v
theories/FGeod3.v
theories/FGeod4.v
theories/FGeod5.v
theories/FGeod6.v
theories/FGeod7.v
theories/FGeod8.v
theories/FGeod9.v
theories/FGeod10.v
theories/FNed.v
theories/FNed2.v
theories/FNed3.v
theories/FDelta.v
theories/FDelta2.v
theories/FDelta3.v
theories/MDefault.v
theories/PDefault.v
theories/FMove.v
theories/FMove2.v
theories/FMove3.v
theories/FWay.v
theories/FWay2.v
theories/FWay3.v
theories/FWay4.v
theories/FWay5.v
theories/PMany.v
theories/PMany2.v
theories/FInterp.v
theories/FMean.v
theories/FPoint.v
theories/FPoint2.v
theories/FHuge.v
theories/FMirror.v
theories/FMirror2.v
theories/FMirror3.v
theories/PRotate.v
theories/PRotate2.v
theories/PRotate3.v
theories/FEuler.v
theories/FEuler2.v
theories/FEuler3.v
theories/FBody.v
theories/FBody2.v
theories/FBody3.v
theories/FBody4.v
theories/FCourse.v
theories/FHuge2.v
theories/FPoint3.v
theories/PGeod3.v
theories/FGeoPath.v
theories/PEcefOps.v
theories/FGeoPath2.v
theories/FGeoPath3.v
theories/FEqual.v
theories/FEqual2.v
theories/FElev.v
theories/FOnPath.v
theories/FDegOut.v
theories/FNearest.v
theories/FNearest2.v
theories/FLastCol.v
theories/FNearest3.v
theories/FBearing.v
theories/FRoot.v
theories/FChord.v
