-Q theories Verif
theories/Base.v
theories/F32.v
theories/Color.v
theories/Geometry.v
theories/Mir.v
theories/Erd.v
theories/Chumsky.v
theories/Parser.v
theories/Heap.v
theories/Route.v
theories/Layout.v
theories/Svg.v
theories/Render.v
theories/Cli.v
theories/Golden.v
theories/Unit.v
theories/ChumskyFacts.v
theories/SpecLex.v
theories/LexFacts.v
theories/SpanFacts.v
theories/SpecGrammar.v
theories/GrammarFacts.v
theories/SepFacts.v
theories/ParseFacts.v
theories/RoundTrip.v
theories/ParseWitness.v
theories/PropLex.v
theories/PropParse.v
theories/SpecMir.v
theories/MirFacts.v
theories/PropMir.v
theories/SpecF32.v
theories/SpecGeom.v
theories/F32Facts.v
theories/GeomFacts.v
theories/PropGeom.v
theories/PlaceFacts.v
theories/SpecLayout.v
theories/GridFacts.v
theories/OverlapFacts.v
theories/LayoutFacts.v
theories/PropLayout.v
theories/SpecRender.v
theories/RenderFacts.v
theories/SpecDecimal.v
theories/DecimalFacts.v
theories/SvgFacts.v
theories/PictureFacts.v
theories/PipelineFacts.v
theories/SpecOverlay.v
theories/OverlayFacts.v
theories/PropRender.v
theories/PropCli.v
theories/SpecHeap.v
theories/HeapFacts.v
theories/SpecRoute.v
theories/SearchFacts.v
theories/SpecGraph.v
theories/GraphFacts.v
theories/PathFacts.v
theories/PropRoute.v
theories/SpecCrash.v
theories/CrashFacts.v
theories/PropCrash.v
theories/LatticeFacts.v
theories/ConnectFacts.v
theories/HubFacts.v
theories/DrawFacts.v
theories/PropGrid.v
theories/ShowFacts.v
theories/ShortFacts.v
theories/PropShow.v
theories/OrderFacts.v
theories/RowFacts.v
theories/LineFacts.v
theories/MidFacts.v
theories/FarFacts.v
theories/TurnFacts.v
theories/ColumnFacts.v
theories/CalmFacts.v
theories/PropCalm.v
theories/SpecPicture.v
theories/TableFacts.v
theories/PropPicture.v
theories/SpecLink.v
theories/LinkFacts.v
theories/PropLink.v
theories/SpecSmooth.v
theories/SmoothFacts.v
theories/PropSmooth.v
theories/SpecXml.v
theories/XmlFacts.v
theories/PropXml.v
theories/SourceFacts.v
theories/SpecRename.v
theories/RenameFacts.v
theories/SpecStable.v
theories/StableFacts.v
theories/PropSource.v
theories/Diag.v
theories/Report.v
theories/SpecDiag.v
theories/DiagFacts.v
theories/SyntaxFacts.v
theories/ViableFacts.v
theories/FeelFacts.v
theories/SynErrFacts.v
theories/LexErrFacts.v
theories/ReportFacts.v
theories/FaultFacts.v
theories/PropDiag.v
theories/Utf8.v
theories/Program.v
theories/SpecUtf8.v
theories/SpecProgram.v
theories/Utf8Facts.v
theories/ProgramFacts.v
theories/PropProgram.v
theories/SpecClip.v
theories/ClipFacts.v
theories/PieceFacts.v
theories/PropClip.v
theories/SpecEnds.v
theories/EndFacts.v
theories/PropEnds.v
theories/SpecRepeat.v
theories/RepeatFacts.v
theories/PropRepeat.v
theories/SpecThrough.v
theories/ThroughFacts.v
theories/MiddleFacts.v
theories/PropThrough.v
theories/SpecGap.v
theories/GapFacts.v
theories/PropGap.v
theories/SpecText.v
theories/TextFacts.v
theories/PropText.v
theories/SpecLook.v
theories/LookFacts.v
theories/PropLook.v
theories/OnceFacts.v
theories/PropOnce.v
theories/OuterFacts.v
theories/PropOuter.v
theories/SpecMore.v
theories/MoreFacts.v
theories/PropMore.v
theories/FieldFacts.v
theories/PropField.v
theories/SizeFacts.v
theories/PropSize.v
theories/SpecBorder.v
theories/BorderFacts.v
theories/PropBorder.v
theories/FaithFacts.v
theories/PropFaith.v
theories/RangeFacts.v
theories/PropRange.v
theories/WholeFacts.v
theories/PropWhole.v
theories/SpecInk.v
theories/InkFacts.v
theories/PropInk.v
theories/SpecShort.v
theories/BriefFacts.v
theories/PropShort.v
theories/SpecStack.v
theories/StackFacts.v
theories/PropStack.v
theories/SpecCircle.v
theories/CircleFacts.v
theories/PropCircle.v
theories/CrownFacts.v
theories/PropCrown.v
theories/DriftFacts.v
theories/WanderFacts.v
theories/PropDrift.v
theories/BendFacts.v
theories/PropBend.v
theories/SpecSide.v
theories/SpecFirst.v
theories/SideFacts.v
theories/FirstFacts.v
theories/RightFacts.v
theories/PropSide.v
theories/PropFirst.v
theories/SpecAgain.v
theories/AgainFacts.v
theories/PropAgain.v
theories/SpecNear.v
theories/NearFacts.v
theories/PropNear.v
theories/SpecFall.v
theories/FallFacts.v
theories/PropFall.v
theories/SpecHalt.v
theories/HaltFacts.v
theories/PropHalt.v
theories/SpecSight.v
theories/SightFacts.v
theories/UpwardFacts.v
theories/PropSight.v
