-Q theories Verif
theories/Model/Base.v
theories/Model/Sha256.v
theories/Model/CS.v
theories/Model/Bellpepper.v
theories/Model/Util.v
theories/Model/Poly.v
theories/Model/Bignat.v
theories/Model/Gadget.v
theories/Model/BignatMisc.v
theories/Model/TestCS.v
theories/Model/Ints.v
theories/Model/Median.v
theories/Model/Difficulty.v
theories/Model/HeaderStep.v
theories/Model/Fields.v
theories/Model/F64.v
theories/Proofs/Field.v
theories/Proofs/Wp.v
theories/Spec/Spec.v
theories/Spec/SpecBits.v
theories/Spec/SpecLazy.v
theories/Proofs/Arith.v
theories/Proofs/Convert.v
theories/Proofs/Limbs.v
theories/Proofs/Lc.v
theories/Proofs/BitNum.v
theories/Proofs/Prime.v
theories/Proofs/PolyP.v
theories/Proofs/BoolP.v
theories/Proofs/BignatEq.v
theories/Proofs/BignatAlloc.v
theories/Proofs/Group.v
theories/Proofs/Carry.v
theories/Proofs/Regroup.v
theories/Proofs/TopConvert.v
theories/Proofs/TopBits.v
theories/Proofs/TopPoly.v
theories/Proofs/Mult.v
theories/Proofs/MultC.v
theories/Proofs/TopBignat1.v
theories/Proofs/PureOps.v
theories/Proofs/TopPure.v
theories/Proofs/Owp.v
theories/Proofs/MinBits.v
theories/Proofs/MuxP.v
theories/Proofs/SubP.v
theories/Proofs/TopBignat2.v
theories/Proofs/Room.v
theories/Proofs/Pocklington.v
theories/Proofs/PrimeFields.v
theories/Proofs/TopBignat3.v
theories/Proofs/TopBignat4.v
theories/Proofs/TopGadget.v
theories/Proofs/ShapeP.v
theories/Proofs/ShapeG.v
theories/Proofs/TopShape.v
theories/Properties/PConvert.v
theories/Properties/PBits.v
theories/Properties/PPoly.v
theories/Properties/PBignat1.v
theories/Properties/PBignat2.v
theories/Properties/PBignat3.v
theories/Properties/PGadget.v
theories/Proofs/Shp.v
theories/Proofs/MedianP.v
theories/Proofs/MedianV.v
theories/Proofs/TopMedian.v
theories/Proofs/MedianEx.v
theories/Properties/PMedian.v
theories/Proofs/Pwp.v
theories/Proofs/DifficultyP.v
theories/Proofs/DifficultyV.v
theories/Proofs/TopDifficulty.v
theories/Spec/SpecHeader.v
theories/Proofs/HashP.v
theories/Proofs/Panics.v
theories/Proofs/DifficultyEx.v
theories/Properties/PDifficulty.v
theories/Spec/SpecChain.v
theories/Spec/SpecShape.v
theories/Proofs/HeaderInts.v
theories/Proofs/HeaderBytes.v
theories/Proofs/HeaderPanics.v
theories/Proofs/HeaderP.v
theories/Proofs/HeaderW.v
theories/Proofs/HeaderOut.v
theories/Proofs/HeaderEx.v
theories/Properties/PHeader.v
theories/Properties/PShape.v
theories/Proofs/NumP.v
theories/Proofs/MiscP.v
theories/Properties/PNum.v
theories/Properties/PMisc.v
theories/Spec/SpecNames.v
theories/Spec/SpecF64.v
theories/Proofs/NamesP.v
theories/Proofs/NamesG.v
theories/Proofs/TopNames.v
theories/Properties/PNames.v
theories/Proofs/F64P.v
theories/Proofs/TopF64.v
theories/Proofs/F64Ex.v
theories/Properties/PF64.v
theories/Spec/SpecSize.v
theories/Proofs/SizeP.v
theories/Proofs/SizeF64.v
theories/Model/RepoTests.v
theories/Proofs/Total.v
theories/Proofs/TopTotal.v
theories/Proofs/DecP.v
theories/Proofs/TestsP.v
theories/Proofs/ProductAll.v
theories/Proofs/TestsFr.v
theories/Properties/PTests.v
theories/Model/UnitTests.v
theories/Proofs/UnitP.v
theories/Properties/PUnit.v
theories/Properties/PSize.v
theories/Properties/PTotal.v
theories/Spec/SpecExact.v
theories/Proofs/ExactP.v
theories/Proofs/TopExact.v
theories/Proofs/DiffExact.v
theories/Proofs/HeaderExact.v
theories/Properties/PExact.v
theories/Properties/PDiffExact.v
theories/Model/Driver.v
theories/Proofs/DriverP.v
theories/Spec/SpecSha.v
theories/Spec/SpecWires.v
theories/Proofs/ShaP.v
theories/Properties/PDriver.v
theories/Properties/PSha.v
theories/Model/ShaGadget.v
theories/Model/RealHash.v
theories/Proofs/Ewp.v
theories/Proofs/ShaBits.v
theories/Proofs/ShaWords.v
theories/Proofs/ShaAdd.v
theories/Proofs/ShaLogic.v
theories/Proofs/ShaInst.v
theories/Proofs/ShaTop.v
theories/Proofs/RealHashP.v
theories/Proofs/RealHashEx.v
theories/Properties/PShaGadget.v
theories/Properties/PRealHash.v
theories/Proofs/ShaNames.v
theories/Proofs/ShaShape.v
theories/Proofs/ShaSetup.v
theories/Proofs/ShaSize.v
theories/Proofs/ShaSizeStep.v
theories/Proofs/ShaSizeEx.v
theories/Properties/PRealShape.v
theories/Properties/PRealSize.v
theories/Spec/SpecErr.v
theories/Proofs/ErrP.v
theories/Proofs/AsLimbs.v
theories/Properties/PErr.v
theories/Properties/PLimbs.v
theories/Spec/SpecTarget.v
theories/Proofs/TargetP.v
theories/Proofs/TargetTop.v
theories/Properties/PTarget.v
theories/Proofs/HashFree.v
theories/Proofs/CmpP.v
theories/Properties/PCmp.v
theories/Proofs/OutOfRange.v
theories/Properties/POutOfRange.v
theories/Proofs/DividesP.v
theories/Proofs/SubFree.v
theories/Proofs/TargetRelease.v
theories/Proofs/PowHigh.v
theories/Proofs/Relation.v
theories/Properties/PRelation.v
theories/Proofs/PrimeMid.v
theories/Spec/SpecExpr.v
theories/Proofs/Expr.v
theories/Properties/PExpr.v
theories/Spec/SpecModular.v
theories/Proofs/Modular.v
theories/Properties/PModular.v
theories/Spec/SpecUnique.v
theories/Proofs/Unique.v
theories/Proofs/UniqueG.v
theories/Proofs/UniqueC.v
theories/Proofs/UniqueD.v
theories/Proofs/TopUnique.v
theories/Properties/PUnique.v
theories/Spec/SpecScope.v
theories/Proofs/Scope.v
theories/Proofs/ScopeH.v
theories/Proofs/TopScope.v
theories/Properties/PScope.v
theories/Proofs/UniqueSha.v
theories/Proofs/TopUniqueSha.v
theories/Properties/PUniqueSha.v
theories/Spec/SpecWide.v
theories/Proofs/Wide.v
theories/Properties/PWide.v
theories/Proofs/WidePower.v
theories/Properties/PWidePower.v
theories/Spec/SpecSub.v
theories/Proofs/CheckedSub.v
theories/Properties/PCheckedSub.v
theories/Spec/SpecResidue.v
theories/Proofs/Residue.v
theories/Proofs/WideEx.v
theories/Properties/PResidue.v
theories/Spec/SpecCongruence.v
theories/Proofs/Congruence.v
theories/Properties/PCongruence.v
theories/Spec/SpecComposite.v
theories/Proofs/Composite.v
theories/Properties/PComposite.v
theories/Spec/SpecOrder.v
theories/Proofs/Order.v
theories/Properties/POrder.v
theories/Spec/SpecTable.v
theories/Proofs/Table.v
theories/Properties/PTable.v
theories/Spec/SpecSort.v
theories/Proofs/Sort.v
theories/Properties/PSort.v
theories/Spec/SpecNext.v
theories/Proofs/NextP.v
theories/Properties/PNext.v
theories/Spec/SpecTimes.v
theories/Proofs/TimesP.v
theories/Properties/PTimes.v
