-Q theories Verif
theories/Bytes.v
theories/AsciiModel.v
theories/AsciiFacts.v
theories/PropsAscii.v
theories/Utf8Model.v
theories/ParseModel.v
theories/SpecJson.v
theories/ParseFacts.v
theories/IntModel.v
theories/IntFacts.v
theories/PropsParse.v
theories/StringModel.v
theories/SpecString.v
theories/Utf8Facts.v
theories/StringFacts.v
theories/PropsString.v
theories/TokenModel.v
theories/EncModel.v
theories/SpecTokens.v
theories/TokenFacts.v
theories/PropsTokens.v
theories/SpecRender.v
theories/EncFacts.v
theories/RawFacts.v
theories/EncMain.v
theories/SpecColor.v
theories/EncRel.v
theories/LeafRel.v
theories/TextFacts.v
theories/ColorFacts.v
theories/DocFacts.v
theories/PropsColor.v
theories/SpecEnc.v
theories/EncExtra.v
theories/Unambig.v
theories/PropsEnc.v
theories/SpecRaw.v
theories/RawText.v
theories/PropsRaw.v
theories/SpecNum.v
theories/NumFacts.v
theories/PropsLeaf.v
theories/IndentModel.v
theories/PropsIndent.v
theories/WordModel.v
theories/SpecWord.v
theories/PropsWord.v
theories/SpecOmit.v
theories/PropsOmit.v
theories/DecModel.v
theories/DecLoops.v
theories/SpecDec.v
theories/DecFacts.v
theories/SpecTrip.v
theories/TripFacts.v
theories/TypeModel.v
theories/SpecType.v
theories/NodeFacts.v
theories/TypeLoops.v
theories/TypeFacts.v
theories/TypeMain.v
theories/SpecFit.v
theories/TypeSound.v
theories/TypeSafe.v
theories/SpecField.v
theories/PropsType.v
theories/PropsField.v
theories/PropsCont.v
theories/FloatModel.v
theories/ExactFloat.v
theories/SpecFloat.v
theories/FloatFacts.v
theories/PropsDec.v
theories/StreamModel.v
theories/SpecStream.v
theories/StreamFacts.v
theories/PropsStream.v
theories/FlatFacts.v
theories/EncoderModel.v
theories/SpecEncoder.v
theories/PropsEncoder.v
theories/JcModel.v
theories/SpecJc.v
theories/PropsJc.v
theories/SharedModel.v
theories/SpecShared.v
theories/PropsShared.v
theories/ViewModel.v
theories/SpecSame.v
theories/ViewFacts.v
theories/TripClean.v
theories/TripType.v
theories/ViewTotal.v
theories/PropsTrip.v
theories/StructModel.v
theories/SpecStruct.v
theories/StructFacts.v
theories/StructSel.v
theories/StructMain.v
theories/PropsStruct.v
theories/AliasModel.v
theories/SpecAlias.v
theories/AliasFacts.v
theories/AliasKeep.v
theories/BufModel.v
theories/AliasMain.v
theories/BufFacts.v
theories/PropsAlias.v
theories/SpecErr.v
theories/ErrFacts.v
theories/PropsErr.v
theories/SpecSpell.v
theories/SpellFacts.v
theories/PropsSpell.v
theories/CodecModel.v
theories/SpecCodec.v
theories/CodecFacts.v
theories/PropsCodec.v
theories/SpecOrder.v
theories/OrderFacts.v
theories/OrderMain.v
theories/PropsOrder.v
theories/IfaceModel.v
theories/PropsIface.v
theories/WhereModel.v
theories/SpecWhere.v
theories/WhereFacts.v
theories/WhereUnique.v
theories/PropsWhere.v
theories/HeapModel.v
theories/SpecHeap.v
theories/HeapFacts.v
theories/PropsHeap.v
theories/ChainModel.v
theories/SpecChain.v
theories/PropsChain.v
theories/AddrModel.v
theories/SpecAddr.v
theories/AddrFacts.v
theories/AddrLoops.v
theories/AddrMain.v
theories/AddrLayout.v
theories/PropsAddr.v
theories/SpecVars.v
theories/VarsFacts.v
theories/AddrSafe.v
theories/PropsVars.v
theories/ReadModel.v
theories/SpecRead.v
theories/ReadFacts.v
theories/ReadSafe.v
theories/PropsRead.v
theories/SpecLeft.v
theories/LeftFacts.v
theories/PropsLeft.v
theories/MeterModel.v
theories/MeterFacts.v
theories/SpecMeter.v
theories/MeterParse.v
theories/MeterDec.v
theories/MeterLoop.v
theories/MeterRest.v
theories/MeterType.v
theories/MeterDeep.v
theories/MeterDepth.v
theories/MeterLinear.v
theories/MeterLow.v
theories/MeterErr.v
theories/PropsMeter.v
theories/ApiModel.v
theories/SpecParse.v
theories/TailFacts.v
theories/PropsRest.v
theories/SpecPipe.v
theories/PipeFacts.v
theories/PropsPipe.v
theories/SpecCanon.v
theories/CanonFacts.v
theories/PropsCanon.v
theories/SpecNumber.v
theories/PropsNumber.v
theories/SpecZero.v
theories/PropsZero.v
theories/SpecSize.v
theories/SizeFacts.v
theories/PropsSize.v
theories/SpecAlloc.v
theories/AllocFacts.v
theories/PropsAlloc.v
theories/SpecAgain.v
theories/AgainFacts.v
theories/PropsAgain.v
theories/SpecMerge.v
theories/PropsMerge.v
theories/SpecFlags.v
theories/FlagFacts.v
theories/PropsFlags.v
theories/SpecGeneric.v
theories/PropsGeneric.v
theories/SpecOption.v
theories/OptionFacts.v
theories/PropsOption.v
theories/CutFacts.v
theories/PropsCut.v
theories/SpecPart.v
theories/PropsPart.v
theories/SpecSum.v
theories/PropsSum.v
theories/SpecCache.v
theories/PropsCache.v
theories/SpecLayout.v
theories/PropsLayout.v
theories/DeepFacts.v
theories/SpecDeep.v
theories/PropsDeep.v
theories/SpecRelay.v
theories/PropsRelay.v
theories/SpecThrough.v
theories/PropsThrough.v
theories/SpecReader.v
theories/PropsReader.v
theories/PropsTold.v
theories/SpecSorted.v
theories/PropsSorted.v
theories/SpecConserve.v
theories/PropsConserve.v
theories/SpecOut.v
theories/OutFacts.v
theories/PropsOut.v
theories/B64Model.v
theories/SpecLoose.v
theories/LooseFacts.v
theories/PropsLoose.v
theories/SpecB64.v
theories/PropsB64.v
theories/PropsFloat.v
theories/StackModel.v
theories/SpecStack.v
theories/StackFacts.v
theories/StackMain.v
theories/PropsStack.v
theories/TimeModel.v
theories/SpecTime.v
theories/TimeFacts.v
theories/TimeText.v
theories/PropsTime.v
theories/ScanModel.v
theories/SpecScan.v
theories/ScanFacts.v
theories/ScanMain.v
theories/ScanOut.v
theories/PropsScan.v
theories/DurModel.v
theories/SpecDur.v
theories/DurFloat.v
theories/DurFacts.v
theories/PropsDur.v
theories/SpecStd.v
theories/StdFacts.v
theories/PropsStd.v
theories/SpecNormal.v
theories/NormalFacts.v
theories/PropsNormal.v
