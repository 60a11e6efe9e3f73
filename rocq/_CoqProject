-Q theories Verif

theories/F64.v
theories/Geo.v
theories/Series.v
theories/Search.v
theories/RingApi.v
theories/Bytes.v
theories/Geom.v
theories/Writer.v
theories/WkbWrite.v
theories/WkbParse.v
theories/Json.v
theories/JsonTok.v
theories/Geobin.v
theories/Hex.v
theories/MultiIx.v
theories/F64Order.v
theories/F64Real.v
theories/F64Mono.v
theories/F32.v
theories/SeriesFacts.v
theories/SearchFacts.v
theories/RectFacts.v
theories/StripeFacts.v
theories/HilbertFacts.v
theories/SpecGeo.v
theories/SpecFacts.v
theories/SpecRing.v
theories/RingFacts.v
theories/IndexFacts.v
theories/RectAlg.v
theories/SpecWkb.v
theories/WriterFacts.v
theories/GeomFacts.v
theories/WkbWriteFacts.v
theories/WkbParseFacts.v
theories/WkbRoundFacts.v
theories/WkbSafe.v
theories/WkbReach.v
theories/WkbMore.v
theories/SpecJson.v
theories/SpecBin.v
theories/SpecPlane.v
theories/SegExact.v
theories/SegMeet.v
theories/SegRay.v
theories/SegRing.v
theories/SpecTurn.v
theories/RingTurn.v
theories/PairSearch.v
theories/MultiFacts.v
theories/MultiReal.v
theories/HexFacts.v
theories/JsonFacts.v
theories/JsonRfc.v
theories/JsonStrFacts.v
theories/GeobinFacts.v
theories/GeobinSafe.v
theories/GeobinRead.v
theories/SpecEnv.v
theories/EnvFacts.v
theories/SeriesExamples.v
theories/Thm_Ring.v
theories/Thm_Rect.v
theories/Thm_Env.v
theories/Thm_Wkb.v
theories/Thm_Geom.v
theories/Thm_Json.v
theories/Thm_JsonStr.v
theories/SpecTree.v
theories/JsonTree.v
theories/Thm_Tree.v
theories/Thm_Hex.v
theories/Thm_Geobin.v
theories/Thm_Seg.v
theories/Thm_Turn.v
theories/Thm_Pairs.v
theories/Thm_Multi.v
theories/Thm_Envelope.v
theories/Heap.v
theories/HeapGeom.v
theories/SpecHeap.v
theories/HeapHist.v
theories/HeapFacts.v
theories/HeapStep.v
theories/HeapFree.v
theories/HeapDen.v
theories/HeapNew.v
theories/HeapMake.v
theories/HeapCopy.v
theories/HeapCopyG.v
theories/HeapClone.v
theories/HeapBuild.v
theories/HeapHistF.v
theories/HeapMore.v
theories/Thm_Heap.v
theories/HeapThr.v
theories/HeapThrF.v
theories/HeapThrL.v
theories/Thm_Threads.v
theories/Nearest.v
theories/SpecNearest.v
theories/NearestHeap.v
theories/NearestFacts.v
theories/Thm_Nearest.v
theories/Preds.v
theories/PredsGeom.v
theories/SpecPreds.v
theories/SpecShape.v
theories/Jordan.v
theories/JordanRing.v
theories/PredsFacts.v
theories/Thm_Preds.v
theories/MeetFacts.v
theories/RingMeet.v
theories/PolyMeet.v
theories/ShapeBox.v
theories/Thm_Shapes.v
theories/Pow5Tab.v
theories/Num.v
theories/SpecText.v
theories/NumFacts.v
theories/NumRound.v
theories/NumPrint.v
theories/TextFacts.v
theories/RyuTab.v
theories/RyuStep.v
theories/RyuGood.v
theories/Thm_Num.v
theories/WktParse.v
theories/WktWrite.v
theories/WktSafe.v
theories/SpecWkt.v
theories/WktText.v
theories/WktRound.v
theories/WktTypes.v
theories/WktTrip.v
theories/Thm_Wkt.v
theories/GeojsonParse.v
theories/GeojsonWrite.v
theories/GeojsonDeep.v
theories/SpecGeojson.v
theories/JsonSafe.v
theories/GeojsonSafe.v
theories/Thm_Geojson.v
theories/SpecNotes.v
theories/GeojsonText.v
theories/GeojsonRead.v
theories/GeojsonTypes.v
theories/GeojsonFeature.v
theories/GeojsonTrip.v
theories/Thm_GeojsonTrip.v
theories/TextSettled.v
theories/Parse.v
theories/Thm_Writers.v
theories/Thm_Guess.v
theories/Thm_Empty.v
theories/Thm_Touch.v
theories/TouchMeet.v
theories/Thm_TouchIn.v
theories/Layout.v
theories/LayoutFacts.v
theories/Thm_Layout.v
theories/Move.v
theories/SpecMove.v
theories/MoveFacts.v
theories/Thm_Move.v
theories/Circle.v
theories/CircleFacts.v
theories/CircleJump.v
theories/Thm_Circle.v
theories/Dist.v
theories/SpecDist.v
theories/DistFacts.v
theories/Thm_Dist.v
theories/Thm_Length.v
theories/RectApi.v
theories/RectRing.v
theories/Thm_RectApi.v
theories/Grow.v
theories/Thm_Grow.v
theories/Dims.v
theories/Thm_Dims.v
theories/Thm_WktForm.v
theories/Thm_WktDims.v
theories/Thm_NumRead.v
theories/Thm_Compact.v
theories/Thm_CompactGrid.v
theories/Thm_CompactBound.v
