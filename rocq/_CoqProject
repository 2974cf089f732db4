-Q theories Verif
theories/Base.v
theories/BitsModel.v
theories/ProberModel.v
theories/GroupModel.v
theories/TableModel.v
theories/BaseFacts.v
theories/ProberFacts.v
theories/BitsFacts.v
theories/GroupFacts.v
theories/TableInv.v
theories/TableFind.v
theories/TableInsert.v
theories/TableLoops.v
theories/TableCap.v
theories/MapSpec.v
theories/MapFacts.v
theories/TableOps.v
theories/RunModel.v
theories/Refine.v
theories/Progress.v
theories/IterModel.v
theories/IterFacts.v
theories/CopyModel.v
theories/CopyFacts.v
theories/ReachModel.v
theories/ReachFacts.v
theories/TraceModel.v
theories/MapProps.v
theories/MapProps2.v
theories/BitSpec.v
theories/FallbackModel.v
theories/FallbackFacts.v
theories/FallbackFacts2.v
theories/Pow2Spec.v
theories/Pow2Facts.v
theories/LayoutModel.v
theories/LayoutFacts.v
theories/SmallProps.v
theories/WitnessModel.v
theories/WitnessFacts.v
theories/LedgerModel.v
theories/LedgerSpec.v
theories/LedgerFacts.v
theories/LedgerFacts2.v
theories/ExampleFacts.v
theories/WitnessFacts2.v
theories/ChurnFacts.v
theories/PropertyFacts.v
theories/PropertiesMap.v
theories/MapProps3.v
theories/PropertyFacts2.v
theories/PropertiesState.v
theories/PropertyFacts3.v
theories/PropertiesBits.v
theories/RobinModel.v
theories/RobinSpec.v
theories/RobinFacts.v
theories/RobinOps.v
theories/RobinRefine.v
theories/RobinWitness.v
theories/PropertiesRobin.v
theories/Crc32Model.v
theories/Flat16Model.v
theories/Flat16Spec.v
theories/Flat16Facts.v
theories/Flat16Ops.v
theories/Flat16Refine.v
theories/Flat16Calls.v
theories/Flat16Runs.v
theories/Flat16Witness.v
theories/PropertiesFlat16.v
theories/HashModel.v
theories/HashSpec.v
theories/HashFacts.v
theories/HashData.v
theories/HashData2.v
theories/HashCrc.v
theories/HashPrimary.v
theories/HashSens.v
theories/HashSens2.v
theories/HashArith.v
theories/HashWitness.v
theories/PropertiesHash.v
theories/FnvModel.v
theories/FnvFacts.v
theories/FnvWitness.v
theories/PropertiesFnv.v
theories/Sha1Spec.v
theories/Sha1Model.v
theories/Sha1Facts.v
theories/Sha1Data.v
theories/Sha1Msg2.v
theories/Sha1Witness.v
theories/PropertiesSha1.v
theories/StrSpec.v
theories/StrModel.v
theories/StrFacts.v
theories/StrWords.v
theories/StrViews.v
theories/StrWitness.v
theories/StrClaims.v
theories/PropertiesStr.v
theories/Robin16Model.v
theories/Robin16Spec.v
theories/Robin16Ring.v
theories/Robin16Scan.v
theories/Robin16Facts.v
theories/Robin16Moves.v
theories/Robin16Ops.v
theories/Robin16Refine.v
theories/Robin16Client.v
theories/Robin16Witness.v
theories/Robin16Example.v
theories/PropertiesRobin16.v
theories/MoveFacts.v
theories/ReserveSpec.v
theories/RobinReserve.v
theories/Flat16Reserve.v
theories/Robin16Reserve.v
theories/ReserveWitness.v
theories/PropertiesMore.v
theories/FormatModel.v
theories/FormatSpec.v
theories/FormatFacts.v
theories/FormatPrint.v
theories/FormatWitness.v
theories/PropertiesFormat.v
theories/RandModel.v
theories/RandSpec.v
theories/RandFacts.v
theories/RandDraw.v
theories/RandWitness.v
theories/RandLoop64.v
theories/PropertiesRand.v
theories/ThrowModel.v
theories/ThrowFacts.v
theories/ThrowModel2.v
theories/ThrowFacts2.v
theories/ThrowFacts3.v
theories/ThrowFacts4.v
theories/ThrowWitness.v
theories/PropertiesThrow.v
theories/IndirectModel.v
theories/IndirectSpec.v
theories/IndirectFacts.v
theories/IndirectOps.v
theories/IndirectRefine.v
theories/IndirectWitness.v
theories/PropertiesIndirect.v
theories/BitVecModel.v
theories/BitVecFacts.v
theories/HelperModel.v
theories/ViewArrayModel.v
theories/AnalyzerModel.v
theories/MiscFacts.v
theories/MiscMore.v
theories/PropertiesMisc.v
theories/Pow2Model.v
theories/Pow2CtFacts.v
theories/PropertiesPow2.v
theories/GrowthSpec.v
theories/GrowthFacts.v
theories/GrowthWitness.v
theories/PropertiesGrowth.v
theories/HashMul.v
theories/HashKeyModel.v
theories/HashKeyFacts.v
theories/PropertiesHashKey.v
theories/ArgModel.v
theories/ArgSpec.v
theories/ArgFacts.v
theories/ArgWitness.v
theories/PropertiesArg.v
theories/LoadSpec.v
theories/LoadFacts.v
theories/LoadWitness.v
theories/PropertiesLoad.v
theories/HasherModel.v
theories/HasherSpec.v
theories/HasherFacts.v
theories/HasherWitness.v
theories/PropertiesHasher.v
theories/LifeModel.v
theories/LifeSpec.v
theories/LifeFacts.v
theories/LifeRefine.v
theories/LifeWitness.v
theories/LifeTmpModel.v
theories/LifeTmpFacts.v
theories/PropertiesLife.v
theories/Ledger2Model.v
theories/Ledger2Spec.v
theories/Ledger2Facts.v
theories/Ledger2Witness.v
theories/PropertiesLedger.v
theories/Hasher2Model.v
theories/Hasher2Spec.v
theories/Hasher2Robin.v
theories/Hasher2Flat16.v
theories/Hasher2Robin16.v
theories/Hasher2Witness.v
theories/PropertiesHasher2.v
theories/CompareModel.v
theories/CompareSpec.v
theories/CompareFacts.v
theories/CompareWitness.v
theories/PropertiesCompare.v
theories/Compare2Model.v
theories/Compare2Spec.v
theories/Compare2Facts.v
theories/Compare2Once.v
theories/Compare2Witness.v
theories/PropertiesCompare2.v
theories/Compare3Model.v
theories/Compare3Spec.v
theories/Compare3Facts.v
theories/Compare3Witness.v
theories/PropertiesCompare3.v
theories/Compare4Model.v
theories/Compare4Spec.v
theories/Compare4Facts.v
theories/Compare4Calls.v
theories/Compare4Witness.v
theories/PropertiesCompare4.v
theories/FunctorModel.v
theories/FunctorFlat16.v
theories/FunctorRobin16.v
theories/FunctorFacts.v
theories/FunctorWitness.v
theories/PropertiesFunctor.v
theories/QueryModel.v
theories/QueryFacts.v
theories/QueryFlat16.v
theories/QueryRobin16.v
theories/QueryRobin.v
theories/QueryWitness.v
theories/PropertiesQuery.v
theories/FromModel.v
theories/FromFacts.v
theories/FromFlat16.v
theories/FromRobin16.v
theories/FromRobin.v
theories/FromWitness.v
theories/PropertiesFrom.v
theories/Growth2Spec.v
theories/Growth2Facts.v
theories/Growth2Flat16.v
theories/Growth2Robin16.v
theories/Growth2Robin.v
theories/Growth2Witness.v
theories/PropertiesGrowth2.v
theories/ClearFacts.v
theories/PropertiesClear.v
theories/TakeModel.v
theories/TakeSpec.v
theories/TakeFacts.v
theories/TakeWitness.v
theories/PropertiesTake.v
theories/BackModel.v
theories/BackFacts.v
theories/BackWitness.v
theories/PropertiesBack.v
theories/UtilModel.v
theories/UtilFacts.v
theories/PropertiesUtil.v
theories/Hash32Model.v
theories/Hash32Facts.v
theories/PropertiesHash32.v
theories/StrIterModel.v
theories/StrIterSpec.v
theories/StrIterFacts.v
theories/PropertiesStrIter.v
theories/AdvanceModel.v
theories/AdvanceFacts.v
theories/PropertiesAdvance.v
theories/CompareAgree.v
theories/CompareTwice.v
theories/PropertiesAgree.v
theories/Pow2LowFacts.v
theories/Flat16Erase.v
theories/StrMore.v
theories/FormatSigned.v
theories/Hasher2Shrink.v
theories/FallbackGeneric.v
