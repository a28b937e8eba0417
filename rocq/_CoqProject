-Q theories Verif

theories/Base.v
theories/Ser.v
theories/SerSpec.v
theories/SerProofs.v
theories/PropsSer.v
theories/Bit.v
theories/BitSpec.v
theories/BitProofs.v
theories/BitLsb.v
theories/BitLsbSpec.v
theories/BitLsbOps.v
theories/PropsBit.v
theories/Utils.v
theories/UtilsProofs.v
theories/Huf.v
theories/HufSpec.v
theories/HufProofs.v
theories/HufOpt.v
theories/HufTop.v
theories/PropsHuf.v
theories/Dict.v
theories/DictSpec.v
theories/DictProofs.v
theories/DictEnc.v
theories/PropsDict.v
theories/Back.v
theories/BackSpec.v
theories/BackProofs.v
theories/BackRing.v
theories/BackEnc.v
theories/BackDec.v
theories/BackLong.v
theories/WriteMore.v
theories/PropsBack.v
theories/Img.v
theories/Float.v
theories/HilbertC.v
theories/CodecSpec.v
theories/CodecBytes.v
theories/CodecZip.v
theories/CodecHilbert.v
theories/CodecTop.v
theories/FloatProofs.v
theories/CodecApprox.v
theories/CodecSquare.v
theories/CodecFinal.v
theories/CodecCases.v
theories/PropsCodec.v
theories/Kmeans.v
theories/KmeansSpec.v
theories/KmeansProofs.v
theories/KmeansFloat.v
theories/KmeansNear.v
theories/KmeansEnd.v
theories/KmeansTop.v
theories/ClusterC.v
theories/ClusterSpec.v
theories/ClusterProofs.v
theories/KmeansCases.v
theories/PropsKmeans.v
theories/ClusterColors.v
theories/VoronoiProofs.v
theories/VoronoiDebug.v
theories/ClusterTop.v
theories/PropsCluster.v
theories/Prs.v
theories/PrsSpec.v
theories/PrsProofs.v
theories/PrsTop.v
theories/PrsWideSpec.v
theories/PrsWide.v
theories/PrsDeepSpec.v
theories/PrsDeep.v
theories/PropsPrs.v
theories/Regex.v
theories/Select.v
theories/SelectSpec.v
theories/RegexProofs.v
theories/SelectProofs.v
theories/Main.v
theories/SelectTop.v
theories/SelectAllSpec.v
theories/SelectAll.v
theories/PropsSelect.v
theories/Bench.v
theories/BenchSpec.v
theories/BenchPar.v
theories/BenchFloat.v
theories/BenchTop.v
theories/BenchLossless.v
theories/PropsBench.v
theories/Special.v
theories/SpecialSpec.v
theories/SpecialProofs.v
theories/PropsSpecial.v
theories/KmeansLoop.v
theories/KmeansCheck.v
theories/KmeansTotal.v
theories/ClusterExact.v
theories/PropsEnd.v
theories/VoronoiEnd.v
theories/PropsVoronoiEnd.v
theories/ForeignSpec.v
theories/BackForeign.v
theories/ForeignKeeps.v
theories/ForeignTop.v
theories/ForeignZip.v
theories/PropsForeign.v
theories/TrieStats.v
theories/TrieSpec.v
theories/TrieProofs.v
theories/TrieTop.v
theories/PropsTrie.v
theories/Program.v
theories/ProgramSpec.v
theories/ProgramProofs.v
theories/PropsProgram.v
theories/Writers.v
theories/WriterProofs.v
theories/PropsWriter.v
theories/SizeProofs.v
theories/PropsSize.v
theories/Patterns.v
theories/PatternSpec.v
theories/PatternProofs.v
theories/PropsPattern.v
theories/AcceptSpec.v
theories/AcceptProofs.v
theories/AcceptPaint.v
theories/AcceptStreams.v
theories/AcceptVoronoi.v
theories/AcceptZip.v
theories/AcceptCases.v
theories/PropsAccept.v
theories/Diagrams.v
theories/DiagramSpec.v
theories/DiagramProofs.v
theories/DiagramFloat.v
theories/EncodeBytes.v
theories/DiagramTop.v
theories/RepoTests.v
theories/RepoTestsProofs.v
theories/PropsTests.v
theories/HufShapeSpec.v
theories/HufShape.v
theories/HufShapeTop.v
theories/HufReadme.v
theories/PropsShape.v
theories/HeaderTop.v
theories/PropsBytes.v
theories/PropsDiagram.v
theories/BestSpec.v
theories/BestProofs.v
theories/BestTop.v
theories/PropsBest.v
theories/DistProofs.v
theories/DistTop.v
theories/PropsDist.v
theories/ReadmeProofs.v
theories/PropsReadme.v
theories/Images.v
theories/ImagesSpec.v
theories/ImagesProofs.v
theories/ImagesTop.v
theories/PropsImages.v
theories/MakeGraph.v
theories/MakeSpec.v
theories/MakeProofs.v
theories/PropsMake.v
theories/CsvText.v
theories/CsvSpec.v
theories/CsvProofs.v
theories/Dumper.v
theories/DumperSpec.v
theories/DumperProofs.v
theories/CsvTop.v
theories/PropsDumper.v
theories/BenchDisk.v
theories/BenchDiskProofs.v
theories/BenchDiskTop.v
theories/PropsDisk.v
theories/Experiments.v
theories/ExperimentsSpec.v
theories/ExperimentsProofs.v
theories/ExperimentsTop.v
theories/PropsExperiments.v
theories/KmeansSays.v
theories/KmeansSaysSpec.v
theories/KmeansSaysProofs.v
theories/KmeansSaysRun.v
theories/KmeansSaysTop.v
theories/KmeansSaysCases.v
theories/KmeansCutSpec.v
theories/KmeansCut.v
theories/PropsSays.v
theories/BenchSays.v
theories/BenchSaysSpec.v
theories/BenchSaysProofs.v
theories/BenchSaysTop.v
theories/BenchSaysCases.v
theories/PropsLoud.v
theories/Says.v
theories/BackSays.v
theories/BackSaysSpec.v
theories/BackSaysProofs.v
theories/BackSaysTop.v
theories/BackSaysCases.v
theories/PropsBackSays.v
theories/HilbertSays.v
theories/HilbertSaysSpec.v
theories/HilbertSaysProofs.v
theories/HilbertSaysCases.v
theories/PropsHilbertSays.v
theories/DictSays.v
theories/DictImgSays.v
theories/DictSaysSpec.v
theories/DictSaysProofs.v
theories/DictSaysTop.v
theories/DictSaysCases.v
theories/DictImgProofs.v
theories/PropsDictSays.v
theories/HufSays.v
theories/HufSaysProofs.v
theories/HufSaysTop.v
theories/PropsHufSays.v
theories/CodecSays.v
theories/CodecSaysSpec.v
theories/CodecSaysProofs.v
theories/BenchTalk.v
theories/BenchTalkRun.v
theories/BenchTalkSpec.v
theories/BenchTalkProofs.v
theories/BenchTalkCases.v
theories/BenchTalkRunProofs.v
theories/BenchTalkRunCases.v
theories/PropsTalk.v
