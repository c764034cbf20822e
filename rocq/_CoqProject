-Q theories Verif
theories/Base.v
theories/Mat.v
theories/GridMapMath.v
theories/GridIter.v
theories/CostMap.v
theories/Spec.v
theories/History.v
theories/BaseLemmas.v
theories/GeoLemmas.v
theories/CoreProofs.v
theories/CoreProofs2.v
theories/IterProofs.v
theories/MoveProofs.v
theories/Samples.v
theories/CoreFinal.v
theories/AddDataProofs.v
theories/MergeMissing.v
theories/MoveFinal.v
theories/PropCore.v
theories/PropGeo.v
theories/PropMove.v
theories/SubmapProofs.v
theories/ExtendProofs.v
theories/PropSubmap.v
theories/PropMerge.v
theories/PropIter.v
theories/Iterators.v
theories/FilterProofs.v
theories/InterpProofs.v
theories/PropInterp.v
theories/PropWindow.v
theories/FloatLemmas.v
theories/FloatMono.v
theories/LineProofs.v
theories/PropLine.v
theories/RingProofs.v
theories/SpiralProofs.v
theories/PropSpiral.v
theories/Inflation.v
theories/InflationSpec.v
theories/InflateProofs.v
theories/InflateFinal.v
theories/InflateEnv.v
theories/InflateAlias.v
theories/PropInflate.v
theories/PropDeflate.v
theories/PropExp.v
theories/Converter.v
theories/Bundles.v
theories/ConvertSpec.v
theories/MessageProofs.v
theories/PropMessage.v
theories/PropGrid.v
theories/PropImage.v
theories/PropBundle.v
theories/RegProofs.v
theories/PropLoad.v
theories/PropRos.v
theories/PropAll.v
theories/DoubleSpec.v
theories/DoubleGeo.v
theories/DoubleMap.v
theories/DoubleMove.v
theories/DoubleSub.v
theories/DoubleShape.v
theories/DoubleEllipse.v
theories/PropDouble.v
theories/PropDoubleRos.v
theories/DoubleExtend.v
theories/PropDoubleMerge.v
theories/PropDoubleExtend.v
theories/Costmap2D.v
theories/Demo.v
theories/PropDemo.v
theories/PropDemoCurve.v
theories/CostmapProofs.v
theories/PropCostmap.v
theories/PropCostmapDouble.v
theories/CostmapDemo.v
theories/PropStripes.v
theories/PropCostmapDemo.v
theories/Handles.v
theories/PropHandles.v
theories/PropInterpDouble.v
theories/PropSpiralDouble.v
theories/LineDouble.v
theories/PropLineDouble.v
theories/PropSubmapDouble.v
theories/Broadcaster.v
theories/PropBroadcaster.v
theories/IntModel.v
theories/IntProofs.v
theories/PropInt.v
theories/PropTests.v
theories/Ndebug.v
theories/PropStray.v
theories/PropPoint.v
theories/Heap.v
theories/PropHeap.v
theories/Throwing.v
theories/PropThrow.v
theories/YamlTree.v
theories/PropYaml.v
theories/Effects.v
theories/PropEffects.v
theories/PropDegenerate.v
theories/PropLife.v
theories/PropFactor.v
theories/Alias.v
theories/PropAlias.v
theories/PropOutside.v
theories/PropRadius.v
theories/NonFinite.v
theories/PropNonFinite.v
theories/PropPast.v
theories/ImageBytes.v
theories/PropImageBytes.v
theories/FileSys.v
theories/PropFiles.v
theories/NonFiniteBundle.v
theories/PropNonFiniteBundle.v
theories/PropNegative.v
theories/PropSeam.v
theories/PropSeamDouble.v
theories/Loops.v
theories/PropLoops.v
theories/PropLoopsDouble.v
theories/PropLoadNode.v
