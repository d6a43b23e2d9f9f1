-Q theories Verif
theories/Base.v
theories/Spec.v
theories/SpecNum.v
theories/MUtil.v
theories/MGeom.v
theories/MHull.v
theories/MPolygon.v
theories/MMaps.v
theories/MTriangle.v
theories/MTrig.v
theories/MGen.v
theories/MPoint.v
theories/PPoint.v
theories/T_Point.v
theories/MRegion.v
theories/MDelaunay.v
theories/MMore.v
theories/MVoronoi.v
theories/MMesh.v
theories/MFormat.v
theories/Bridge.v
theories/PUtil.v
theories/PPointLife.v
theories/PSegment.v
theories/PMaps.v
theories/PPoly.v
theories/PPoly2.v
theories/PTri.v
theories/PTrig.v
theories/PGen.v
theories/PContains.v
theories/PRegion.v
theories/PHull.v
theories/PDelaunay.v
theories/PVoronoi.v
theories/PFan.v
theories/PMesh.v
theories/BridgeNum.v
theories/PFloat.v
theories/PFormat.v
theories/PDecimal.v
theories/PMore.v
theories/PMore2.v
theories/PMore3.v
theories/PGrid.v
theories/PGrid2.v
theories/PGrid3.v
theories/PGrid4.v
theories/PGrid5.v
theories/PGrid6.v
theories/PGrid7.v
theories/Samples.v
theories/Samples2.v
theories/Samples3.v
theories/Samples4.v
theories/T_Util.v
theories/T_Geom.v
theories/T_Maps.v
theories/T_Poly.v
theories/T_Tri.v
theories/T_Gen.v
theories/T_Contains.v
theories/T_Region.v
theories/T_Hull.v
theories/T_Delaunay.v
theories/T_Voronoi.v
theories/T_Mesh.v
theories/T_Format.v
theories/T_More.v
theories/PCluster.v
theories/PCircum.v
theories/MDump.v
theories/MFile.v
theories/MRandom.v
theories/BridgeFile.v
theories/PFile.v
theories/PDump.v
theories/PDump2.v
theories/PBorder.v
theories/PConvex.v
theories/PVorConvex.v
theories/PVorLocate.v
theories/PWedge.v
theories/PBorderCell.v
theories/PVorBorder.v
theories/PVorMap.v
theories/BridgeVor64.v
theories/PVor64.v
theories/PVor64b.v
theories/Samples10.v
theories/T_Vor64.v
theories/MHist.v
theories/BridgeHist.v
theories/PHist.v
theories/PRandom.v
theories/Samples9.v
theories/T_File.v
theories/PDual.v
theories/PDualR.v
theories/PVorGeo.v
theories/PVorCell.v
theories/PPipe64.v
theories/Samples5.v
theories/Samples6.v
theories/Samples7.v
theories/Samples8.v
theories/T_Grid.v
theories/T_Pipe64.v
theories/T_VorCell.v
theories/T_VorConvex.v
theories/T_VorBorder.v
theories/T_VorMap.v
theories/T_Hist.v
theories/T_Dump.v
theories/Bridge64.v
theories/PGrid8.v
theories/PGen64.v
theories/PReg64.v
theories/Samples11.v
theories/T_Grid2.v
theories/PHist64.v
theories/PCenter64.v
theories/Samples12.v
theories/T_Hist64.v
theories/MProgram.v
theories/BridgeProg.v
theories/PProgram.v
theories/Samples13.v
theories/T_Program.v
theories/PTile.v
theories/PTile2.v
theories/BridgeTile.v
theories/PTile3.v
theories/PTile4.v
theories/PTile5.v
theories/PTile6.v
theories/Samples14.v
theories/T_Tile.v
theories/BridgeFill.v
theories/PFill.v
theories/PFill2.v
theories/PFill3.v
theories/Samples15.v
theories/T_Fill.v
theories/BridgeAny.v
theories/PAny.v
theories/PAny2.v
theories/PAny3.v
theories/PAny4.v
theories/PAny5.v
theories/PAny6.v
theories/Samples16.v
theories/T_Any.v
theories/PWind.v
theories/BridgeWind.v
theories/PWind2.v
theories/PWind3.v
theories/PWind4.v
theories/Samples17.v
theories/T_Wind.v
theories/PSimple.v
theories/BridgeSimple.v
theories/PSimple2.v
theories/PSimple3.v
theories/PSimple4.v
theories/BridgeSimple64.v
theories/PSimple64.v
theories/Samples18.v
theories/T_Simple.v
theories/Samples19.v
theories/T_Simple64.v
theories/BridgeJordan.v
theories/PJordan.v
theories/PJordan2.v
theories/PJordan3.v
theories/PJordan4.v
theories/PJordan5.v
theories/PJordan6.v
theories/Samples20.v
theories/T_Jordan.v
theories/PRound.v
theories/PRound2.v
theories/PRound3.v
theories/BridgeRound.v
theories/PRound4.v
theories/PRound5.v
theories/Samples21.v
theories/T_Round.v
theories/MHeap.v
theories/BridgeHeap.v
theories/PHeap.v
theories/Samples22.v
theories/T_Heap.v
theories/MScript.v
theories/BridgeScript.v
theories/PScript.v
theories/T_Script.v
theories/PPi.v
theories/MTrig64.v
theories/BridgeTrig64.v
theories/PTrig64.v
theories/Samples23.v
theories/T_Trig64.v
theories/MShare.v
theories/BridgeShare.v
theories/PShare.v
theories/Samples24.v
theories/T_Share.v
theories/MFunctor.v
theories/BridgeFunctor.v
theories/PFunctor.v
theories/Samples25.v
theories/T_Functor.v
theories/MPolyLife.v
theories/BridgePolyLife.v
theories/PPolyLife.v
theories/Samples26.v
theories/T_PolyLife.v
theories/BridgeErr.v
theories/PErr.v
theories/PErr2.v
theories/PErr3.v
theories/PErr4.v
theories/Samples27.v
theories/T_Err.v
theories/PErr5.v
theories/Samples28.v
theories/T_Err2.v
theories/BridgeTime.v
theories/MTime.v
theories/PTime.v
theories/PTime2.v
theories/Samples29.v
theories/T_Time.v
theories/BridgeSeed.v
theories/MRead.v
theories/PRead.v
theories/Samples30.v
theories/T_Read.v
theories/BridgeLayout.v
theories/PLayout.v
theories/Samples31.v
theories/T_Layout.v
