-Q theories Verif
theories/Base/Float64.v
theories/Base/FloatFacts.v
theories/Base/Outcome.v
theories/Model/MAStar.v
theories/Model/MCollision.v
theories/Model/MCsv.v
theories/Model/MDistance.v
theories/Model/MFreeSpace.v
theories/Model/MGeom.v
theories/Model/MGraph.v
theories/Model/MHRM2D.v
theories/Model/MHRM3D.v
theories/Model/MInterp.v
theories/Model/MInterval.v
theories/Model/MLine2D.v
theories/Model/MLine3D.v
theories/Model/MMesh.v
theories/Model/MMultiBody.v
theories/Model/MOMPL.v
theories/Model/MParams.v
theories/Model/MPointInPoly.v
theories/Model/MPrepare.v
theories/Model/MScalar.v
theories/Model/MSearch.v
theories/Model/MSeparation.v
theories/Model/MSetting.v
theories/Model/MSettings.v
theories/Model/MStore.v
theories/Model/MTightFit.v
theories/Model/MUrdf.v
theories/Spec/SClear.v
theories/Spec/SCollision.v
theories/Spec/SCover.v
theories/Spec/SCover3.v
theories/Spec/SFreeSpace.v
theories/Spec/SGeom.v
theories/Spec/SGraph.v
theories/Spec/SHline.v
theories/Spec/SInterval.v
theories/Spec/SLine2D.v
theories/Spec/SLine3D.v
theories/Spec/SLine3DX.v
theories/Spec/SMotion.v
theories/Spec/SOMPL.v
theories/Spec/SParams.v
theories/Spec/SPlanner2D.v
theories/Spec/SPlanner3D.v
theories/Spec/SPrepare.v
theories/Spec/SRange.v
theories/Spec/SRigid.v
theories/Spec/SSearch.v
theories/Spec/SSeparation.v
theories/Spec/SSetting.v
theories/Spec/SSettings.v
theories/Spec/SShort.v
theories/Spec/SSolid.v
theories/Spec/SStore.v
theories/Spec/SUrdf.v
theories/Spec/SUtil.v
theories/Proofs/PAStar.v
theories/Proofs/PAStarF.v
theories/Proofs/PAxis.v
theories/Proofs/PAxisX.v
theories/Proofs/PAxisY.v
theories/Proofs/PClear.v
theories/Proofs/PClear3.v
theories/Proofs/PClearX.v
theories/Proofs/PCollision.v
theories/Proofs/PCollisionX.v
theories/Proofs/PCollisionY.v
theories/Proofs/PCollisionZ.v
theories/Proofs/PConvex2.v
theories/Proofs/PCover.v
theories/Proofs/PCover3.v
theories/Proofs/PCoverC.v
theories/Proofs/PCoverD.v
theories/Proofs/PCoverE.v
theories/Proofs/PCoverS.v
theories/Proofs/PCoverX.v
theories/Proofs/PDiscPlan.v
theories/Proofs/PDiscPlanX.v
theories/Proofs/PEnhance.v
theories/Proofs/PFreeAll.v
theories/Proofs/PFreeSpace.v
theories/Proofs/PFreeW.v
theories/Proofs/PGeom.v
theories/Proofs/PGeom2.v
theories/Proofs/PGeom2N.v
theories/Proofs/PGeom3.v
theories/Proofs/PGeomX.v
theories/Proofs/PGlobe.v
theories/Proofs/PGraph.v
theories/Proofs/PGraph3D.v
theories/Proofs/PHRM2D.v
theories/Proofs/PHRM2DW.v
theories/Proofs/PHRM3D.v
theories/Proofs/PHRM3DW.v
theories/Proofs/PHline.v
theories/Proofs/PHlineX.v
theories/Proofs/PInscribed.v
theories/Proofs/PInterp.v
theories/Proofs/PInterpR.v
theories/Proofs/PInterval.v
theories/Proofs/PIntervalW.v
theories/Proofs/PKC.v
theories/Proofs/PLine2D.v
theories/Proofs/PLine2DW.v
theories/Proofs/PLine3D.v
theories/Proofs/PLine3DW.v
theories/Proofs/PLine3DX.v
theories/Proofs/PLinks.v
theories/Proofs/PMin.v
theories/Proofs/PMinU.v
theories/Proofs/PMotion.v
theories/Proofs/PMotionR.v
theories/Proofs/PMotionX.v
theories/Proofs/PMulti.v
theories/Proofs/PMultiX.v
theories/Proofs/PNearest.v
theories/Proofs/POMPL.v
theories/Proofs/POMPLX.v
theories/Proofs/PParams.v
theories/Proofs/PPlan2D.v
theories/Proofs/PPlan2DX.v
theories/Proofs/PPlan2DY.v
theories/Proofs/PPlan2DZ.v
theories/Proofs/PPlan3D.v
theories/Proofs/PPlan3DX.v
theories/Proofs/PPlan3DY.v
theories/Proofs/PPlan3DZ.v
theories/Proofs/PPrepare.v
theories/Proofs/PPrepareQ.v
theories/Proofs/PRange.v
theories/Proofs/PRange3.v
theories/Proofs/PRangeX.v
theories/Proofs/PRot.v
theories/Proofs/PSampling.v
theories/Proofs/PSearch.v
theories/Proofs/PSeparation.v
theories/Proofs/PSeparationC.v
theories/Proofs/PSeparationD.v
theories/Proofs/PSeparationM.v
theories/Proofs/PSetting.v
theories/Proofs/PSettings.v
theories/Proofs/PSettingsP.v
theories/Proofs/PSettingsX.v
theories/Proofs/PShape.v
theories/Proofs/PShort.v
theories/Proofs/PShortP.v
theories/Proofs/PSolid.v
theories/Proofs/PSpectral3.v
theories/Proofs/PStore.v
theories/Proofs/PStoreB.v
theories/Proofs/PStoreS.v
theories/Proofs/PTables.v
theories/Proofs/PTight2.v
theories/Proofs/PTight2X.v
theories/Proofs/PTight3.v
theories/Proofs/PTight3X.v
theories/Proofs/PTightS.v
theories/Proofs/PUrdf.v
theories/Proofs/PUrdfX.v
theories/Proofs/PUtil.v
theories/Props/PropClear.v
theories/Props/PropCollision.v
theories/Props/PropCover.v
theories/Props/PropCover3.v
theories/Props/PropDisc.v
theories/Props/PropFreeSpace.v
theories/Props/PropGeom.v
theories/Props/PropHline.v
theories/Props/PropInterval.v
theories/Props/PropLine2D.v
theories/Props/PropLine3D.v
theories/Props/PropLine3DX.v
theories/Props/PropMin.v
theories/Props/PropMotion.v
theories/Props/PropOMPL.v
theories/Props/PropParams.v
theories/Props/PropPlanner2D.v
theories/Props/PropPlanner3D.v
theories/Props/PropPrepare.v
theories/Props/PropRange.v
theories/Props/PropSearch.v
theories/Props/PropSeparation.v
theories/Props/PropSetting.v
theories/Props/PropSettings.v
theories/Props/PropShape.v
theories/Props/PropShort.v
theories/Props/PropSolid.v
theories/Props/PropStore.v
theories/Props/PropUrdf.v
theories/Props/PropUtil.v
