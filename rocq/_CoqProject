-Q theories Verif
theories/Base/Prelude.v
theories/Model/Transformation.v
theories/Spec/Geometry.v
theories/Proofs/TransformationP.v
theories/Props/C01_C04.v
theories/Model/PySort.v
theories/Proofs/PySortP.v
theories/Model/Grid.v
theories/Spec/GridSpec.v
theories/Proofs/GridP.v
theories/Props/C06_C08.v
theories/Model/Canvas.v
theories/Spec/CanvasSpec.v
theories/Proofs/CanvasP.v
theories/Props/C05_C47.v
theories/Model/LayoutIO.v
theories/Spec/PolygonSpec.v
theories/Props/C43_C45.v
theories/Model/Lef.v
theories/Spec/LefSpec.v
theories/Proofs/LefP.v
theories/Props/C44.v
theories/Base/PyDict.v
theories/Base/PyStr.v
theories/Model/UnionFind.v
theories/Spec/UnionFindSpec.v
theories/Proofs/UnionFindP.v
theories/Props/C12.v
theories/Model/RemoveDuplicates.v
theories/Spec/RemoveDuplicatesSpec.v
theories/Proofs/RemoveDuplicatesP.v
theories/Proofs/RdLineP.v
theories/Proofs/RdPassP.v
theories/Proofs/RdViaP.v
theories/Proofs/RdRunP.v
theories/Props/C09_C13.v
theories/Proofs/RdIdemP.v
theories/Props/C10.v
theories/Model/Drc.v
theories/Spec/DrcSpec.v
theories/Proofs/DrcP.v
theories/Proofs/DrcRunP.v
theories/Props/C14.v
theories/Props/C15_C16.v
theories/Model/Pex.v
theories/Spec/PexSpec.v
theories/Proofs/PexP.v
theories/Proofs/PexRunP.v
theories/Props/C17.v
theories/Model/Topo.v
theories/Spec/TopoSpec.v
theories/Proofs/TopoP.v
theories/Props/C20.v
theories/Model/Hpwl.v
theories/Spec/HpwlSpec.v
theories/Proofs/SemiP.v
theories/Props/C19.v
theories/Proofs/HpwlP.v
theories/Props/C18.v
theories/Model/PlaceGrid.v
theories/Spec/PlaceGridSpec.v
theories/Proofs/PlaceGridP.v
theories/Props/C21.v
theories/Props/C22.v
theories/Model/SeqPair.v
theories/Spec/SeqPairSpec.v
theories/Proofs/SeqPairP.v
theories/Proofs/SeqPairOrdP.v
theories/Proofs/SeqPairTrP.v
theories/Props/C23.v
theories/Props/C24.v
theories/Props/C25.v
theories/Props/C26.v
theories/Props/C27.v
theories/Props/C49.v
theories/Props/C50.v
theories/Model/PlacerPy.v
theories/Spec/PlacerPySpec.v
theories/Proofs/PlacerPyP.v
theories/Props/C28.v
theories/Props/C29.v
theories/Props/C51.v
theories/Model/ManipHier.v
theories/Spec/ManipHierSpec.v
theories/Proofs/ManipHierP.v
theories/Props/C30.v
theories/Model/RouteNames.v
theories/Spec/RouteNamesSpec.v
theories/Proofs/RouteNamesP.v
theories/Props/C41.v
theories/Props/C52.v
theories/Model/Netlist.v
theories/Spec/NetlistSpec.v
theories/Proofs/NetlistP.v
theories/Proofs/ParallelP.v
theories/Proofs/SeriesP.v
theories/Proofs/SeriesSemP.v
theories/Props/C31.v
theories/Props/C32.v
theories/Model/ConstraintDB.v
theories/Spec/ConstraintDBSpec.v
theories/Proofs/ConstraintDBP.v
theories/Proofs/SyncP.v
theories/Props/C37_C38.v
theories/Props/C54.v
theories/Model/Formulas.v
theories/Spec/FormulaSpec.v
theories/Props/C39.v
theories/Props/C53.v
theories/Model/CanvasEdit.v
theories/Spec/CanvasEditSpec.v
theories/Props/C48.v
theories/Props/C46.v
theories/Model/ScalePlacement.v
theories/Spec/ScaleSpec.v
theories/Props/C40.v
theories/Model/TransistorArray.v
theories/Spec/ArraySpec.v
theories/Props/C42.v
theories/Props/C55.v
theories/Model/Hier.v
theories/Spec/HierSpec.v
theories/Proofs/HierP.v
theories/Proofs/FindDummyP.v
theories/Props/C35.v
theories/Model/AbstractName.v
theories/Spec/AbstractNameSpec.v
theories/Proofs/AbstractNameP.v
theories/Props/C36.v
theories/Model/NewHier.v
theories/Proofs/NewHierP.v
theories/Props/C33.v
theories/Model/ResolveParams.v
theories/Spec/ParamSpec.v
theories/Proofs/ResolveParamsP.v
theories/Props/C34.v
theories/Spec/CircuitSpec.v
theories/Model/GroupBlock.v
theories/Proofs/FoldP.v
theories/Proofs/CircuitP.v
theories/Proofs/GroupBlockP.v
theories/Props/C56.v
theories/Props/C57.v
theories/Model/ReplaceMatch.v
theories/Spec/MatchSpec.v
theories/Proofs/ReplaceMatchP.v
theories/Props/C58.v
theories/Model/UpdateConst.v
theories/Spec/UpdateSpec.v
theories/Proofs/UpdateConstP.v
theories/Props/C59.v
theories/Model/FindSym.v
theories/Spec/SymSpec.v
theories/Proofs/FindSymP.v
theories/Props/C60.v
theories/Model/SymConst.v
theories/Spec/SymConstSpec.v
theories/Proofs/SymConstP.v
theories/Props/C61.v
theories/Model/SymNet.v
theories/Spec/SymNetSpec.v
theories/Proofs/SymNetP.v
theories/Props/C62.v
theories/Model/ArraySearch.v
theories/Proofs/ArraySearchP.v
theories/Props/C63.v
theories/Model/ArrayHier.v
theories/Proofs/ArrayHierP.v
theories/Props/C64.v
theories/Spec/ArrayFindSpec.v
theories/Model/SpiceLex.v
theories/Spec/SpiceSpec.v
theories/Proofs/SpiceLexP.v
theories/Proofs/SpiceLinesP.v
theories/Props/C65.v
theories/Model/SpiceParse.v
theories/Spec/SpiceDocSpec.v
theories/Proofs/SpiceParseP.v
theories/Props/C66.v
theories/Model/UserCon.v
theories/Spec/FloorplanSpec.v
theories/Proofs/UserConP.v
theories/Props/C67.v
theories/Props/C16.v
theories/Model/ChargeFlow.v
theories/Spec/ChargeSpec.v
theories/Proofs/ChargeFlowP.v
theories/Props/C68.v
theories/Model/GdsConv.v
theories/Spec/GdsSpec.v
theories/Proofs/GdsConvP.v
theories/Props/C69.v
theories/Model/DefineSD.v
theories/Spec/ChannelSpec.v
theories/Proofs/BfsP.v
theories/Proofs/DefineSDP.v
theories/Props/C70.v
theories/Model/Preprocess.v
theories/Spec/PhysicsSpec.v
theories/Proofs/PreprocessP.v
theories/Proofs/PhysicsP.v
theories/Proofs/PreproSemP.v
theories/Props/C71.v
theories/Props/C72.v
theories/Model/DefaultCanvas.v
theories/Spec/TrackSpec.v
theories/Proofs/TrackP.v
theories/Props/C73.v
theories/Props/C74.v
theories/Model/MosGen.v
theories/Spec/LvsSpec.v
theories/Proofs/MosGenP.v
theories/Proofs/MosWireP.v
theories/Props/C75.v
theories/Props/C76.v
theories/Spec/BoxNet.v
theories/Model/Passives.v
theories/Proofs/CapP.v
theories/Proofs/ResP.v
theories/Props/C77.v
theories/Props/C78.v
theories/Model/PnrInput.v
theories/Proofs/PnrInputP.v
theories/Props/C79.v
theories/Props/C80.v
theories/Props/C81.v
theories/Model/PnrGeom.v
theories/Spec/Isometry.v
theories/Proofs/PnrGeomP.v
theories/Props/C82.v
theories/Model/RouteHier.v
theories/Spec/Unfold.v
theories/Proofs/RouteHierP.v
theories/Props/C83.v
theories/Model/RouteUp.v
theories/Spec/Sharing.v
theories/Proofs/RouteUpP.v
theories/Props/C84.v
theories/Model/PnrLink.v
theories/Spec/Links.v
theories/Proofs/PnrLinkP.v
theories/Props/C85.v
theories/Model/PnrMerge.v
theories/Spec/FileStem.v
theories/Proofs/PnrMergeP.v
theories/Props/C86.v
theories/Model/Viewer.v
theories/Spec/FlatLayout.v
theories/Proofs/ViewerP.v
theories/Proofs/ViewerHierP.v
theories/Props/C87.v
theories/Model/SeqEnum.v
theories/Spec/SeqEnumSpec.v
theories/Proofs/SeqEnumP.v
theories/Proofs/SeqSearchP.v
theories/Proofs/SeqBestP.v
theories/Props/C88.v
theories/Model/SymmGroup.v
theories/Spec/SymmGroupSpec.v
theories/Proofs/SymmGroupP.v
theories/Proofs/SeqMovesP.v
theories/Proofs/SeqSwapP.v
theories/Proofs/SeqFeasP.v
theories/Props/C89.v
theories/Model/KeepOrder.v
theories/Spec/KeepOrderSpec.v
theories/Proofs/KeepOrderP.v
theories/Proofs/KeepSortP.v
theories/Proofs/KeepMainP.v
theories/Props/C90.v
theories/Model/SeqCheck.v
theories/Spec/SeqCheckSpec.v
theories/Proofs/SeqCheckP.v
theories/Proofs/SeqCheckFeasP.v
theories/Props/C91.v
theories/Model/PlaceRows.v
theories/Spec/PlaceRowsSpec.v
theories/Proofs/PlaceRowsP.v
theories/Proofs/PlaceSymP.v
theories/Proofs/PlaceMainP.v
theories/Props/C92.v
theories/Model/PlaceFlow.v
theories/Spec/PlaceFlowSpec.v
theories/Proofs/PlaceFlowP.v
theories/Props/C93.v
theories/Model/ReadCon.v
theories/Spec/ReadConSpec.v
theories/Proofs/ReadConP.v
theories/Proofs/ReadConMainP.v
theories/Proofs/ReadConCpP.v
theories/Props/C94.v
theories/Spec/SeqExistSpec.v
theories/Proofs/SeqExistP.v
theories/Props/C95.v
theories/Model/Visitor.v
theories/Spec/VisitorSpec.v
theories/Proofs/VisitorP.v
theories/Props/C96.v
theories/Model/GlobalGraph.v
theories/Spec/GlobalGraphSpec.v
theories/Proofs/DijkstraP.v
theories/Proofs/GlobalGraphP.v
theories/Proofs/SteinerP.v
theories/Proofs/FindSTsP.v
theories/Props/C97.v
theories/Model/GlobalGrid.v
theories/Spec/GlobalGridSpec.v
theories/Proofs/GlobalGridP.v
theories/Proofs/GridEdgesP.v
theories/Proofs/GridUseP.v
theories/Props/C98.v
theories/Model/AStar.v
theories/Spec/AStarSpec.v
theories/Proofs/AStarP.v
theories/Proofs/AStarRunP.v
theories/Proofs/AStarPathP.v
theories/Props/C99.v
theories/Spec/AStarLabel.v
theories/Proofs/AStarLabelP.v
theories/Model/DetailGrid.v
theories/Spec/DetailGridSpec.v
theories/Proofs/DetailGridP.v
theories/Proofs/DetailLinkP.v
theories/Proofs/DetailPlaceP.v
theories/Proofs/DetailUseP.v
theories/Proofs/DetailOneP.v
theories/Props/C100.v
theories/Model/WireDraw.v
theories/Spec/WireDrawSpec.v
theories/Proofs/WirePointsP.v
theories/Proofs/WireDrawP.v
theories/Proofs/WireHoldP.v
theories/Proofs/WireClearP.v
theories/Props/C101.v
theories/Model/GuardRing.v
theories/Spec/GuardRingSpec.v
theories/Proofs/GuardRingP.v
theories/Props/C102.v
theories/Model/CapPlace.v
theories/Spec/CapPlaceSpec.v
theories/Proofs/CapGridP.v
theories/Proofs/CapSeqP.v
theories/Proofs/CapNetP.v
theories/Proofs/CapAssignP.v
theories/Props/C103.v
theories/Model/CapRoute.v
theories/Spec/CapRouteSpec.v
theories/Proofs/CapSetP.v
theories/Proofs/CapLineP.v
theories/Props/C104.v
theories/Model/Mna.v
theories/Spec/MnaSpec.v
theories/Proofs/MnaP.v
theories/Proofs/MnaBuildP.v
theories/Proofs/MnaUniqueP.v
theories/Proofs/MnaExactP.v
theories/Props/C105.v
theories/Model/HananGeom.v
theories/Spec/HananGeomSpec.v
theories/Props/C106.v
theories/Model/HananNet.v
theories/Spec/HananNetSpec.v
theories/Proofs/HananNetP.v
theories/Props/C107.v
theories/Model/HananGrid.v
theories/Props/C108.v
theories/Model/HananStep.v
theories/Props/C109.v
theories/Model/PyRoute.v
theories/Props/C110.v
theories/Model/MetalTemplate.v
theories/Props/C111.v
theories/Model/OrderLib.v
theories/Props/C112.v
theories/Model/AdrLayers.v
theories/Props/C113.v
