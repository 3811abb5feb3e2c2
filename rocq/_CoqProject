-Q theories Verif
theories/Base.v
theories/NodeType.v
theories/ProofDef.v
theories/TreeCache.v
theories/Tree.v
theories/Mock.v
theories/Spec.v
theories/KeyFacts.v
theories/SmtFacts.v
theories/ProofFacts.v
theories/ThmProof.v
theories/NodeFacts.v
theories/Canon.v
theories/CanonSib.v
theories/ReadFacts.v
theories/PutFacts.v
theories/InsertFacts.v
theories/InsertInt.v
theories/InsertInt2.v
theories/PutTop.v
theories/VersionFacts.v
theories/KeyOrder.v
theories/ValueFacts.v
theories/StoreFacts.v
theories/Driver.v
theories/DriverFacts.v
theories/ThmStore.v
theories/DriverFacts2.v
theories/ThmStore2.v
theories/ThmRefute.v
theories/Demo.v
theories/SpecOrder.v
theories/OrderFacts.v
theories/Iterator.v
theories/IterFacts.v
theories/LeafVersion.v
theories/ThmIter.v
theories/ThmNode.v
theories/Exclusion.v
theories/ExclFacts.v
theories/ThmExcl.v
theories/SpecRange.v
theories/RangeFacts.v
theories/ThmRange.v
theories/MockSteps.v
theories/MockStepFacts.v
theories/Restore.v
theories/RestoreFacts.v
theories/RestoreFacts2.v
theories/RestoreVerify.v
theories/RestoreTop.v
theories/RestoreRec.v
theories/RestoreDriver.v
theories/RestoreRun.v
theories/ThmRestore.v
theories/Toy.v
theories/ToyRestore.v
theories/NibblePath.v
theories/NibbleFacts.v
theories/ThmNibble.v
theories/NibbleRange.v
theories/ThmNibbleRange.v
theories/BatchTree.v
theories/BatchFacts.v
theories/BatchLeaf.v
theories/BatchInsert.v
theories/BatchTop.v
theories/ThmBatch.v
theories/ChildrenArr.v
theories/ThmChildren.v
theories/Codec.v
theories/Borsh.v
theories/ThmBorsh.v
theories/ThmBorshStore.v
theories/Ics23.v
theories/Ics23Verify.v
theories/IcsFacts.v
theories/IcsSound.v
theories/ThmIcs.v
theories/ThmFormat.v
theories/ThmCrash.v
theories/ThmAppend.v
theories/ThmConc.v
theories/ThmPurged.v
theories/IterStep.v
theories/ThmFlaky.v
theories/ThmContinue.v
theories/FirstFacts.v
theories/ThmFirst.v
theories/AppendFacts.v
theories/ThmAppendOk.v
theories/ThmOver.v
theories/CommitMono.v
theories/ThmDamaged.v
theories/Requests.v
theories/RequestFacts.v
theories/RequestSafe.v
theories/ThmRequests.v
theories/ThmUnknown.v
theories/ThmVersions.v
theories/NodeBatch.v
theories/ThmDefer.v
theories/ThmWriteFail.v
theories/ThmFollow.v
theories/ThmCost.v
theories/Version64.v
theories/ThmU64.v
theories/ThmSame.v
theories/ThmOrigin.v
theories/MockExtra.v
theories/ThmSpace.v
theories/ThmLeaf.v
theories/ThmPack.v
theories/BatchAbove.v
theories/ThmMockSteps.v
theories/Beside.v
theories/ThmGap.v
theories/ThmLive.v
theories/ThmKeys.v
theories/ThmBackend.v
theories/ThmValues.v
theories/ThmBRestore.v
theories/ThmBOrigin.v
theories/ThmBConc.v
theories/Hasher.v
theories/ThmHasher.v
theories/LogFormat.v
theories/ThmLog.v
theories/ThmBReq.v
theories/Json.v
theories/ThmJson.v
theories/ThmJsonStore.v
theories/Sha256.v
theories/Vectors.v
theories/ThmSha256.v
theories/ThmBPurged.v
theories/IcsRequests.v
theories/ThmIcsReq.v
theories/SpecLayout.v
theories/ThmLayout.v
theories/ThmPoint.v
theories/ThmTorn.v
theories/ThmPeers.v
theories/ThmBCalls.v
theories/ThmRedo.v
