-Q theories Verif
theories/Result.v
theories/Limbs.v
theories/LimbsProofs.v
theories/StreamModel.v
theories/StreamProofs.v
theories/BigintModel.v
theories/BigintProofs.v
theories/Algebra.v
theories/NumTheory.v
theories/Mod63.v
theories/Certs.v
theories/FpModel.v
theories/FpSpec.v
theories/FpProofs.v
theories/FpField.v
theories/FpIoProofs.v
theories/FpAsmModel.v
theories/FpAsmProofs.v
theories/FpAsm3Proofs.v
theories/FpAsmTop.v
theories/FpReach.v
theories/Examples.v
theories/FpExtra.v
theories/FpWidth.v
theories/PropertiesFp.v
theories/UtilsModel.v
theories/UtilsProofs.v
theories/UtilsExtra.v
theories/PropertiesUtils.v
theories/AlgorithmsModel.v
theories/FieldOps.v
theories/AlgorithmsProofs.v
theories/FpInst.v
theories/AlgorithmsField.v
theories/PropertiesAlgorithms.v
theories/SerializationModel.v
theories/SerializationProofs.v
theories/SerializationExtra.v
theories/PropertiesSerialization.v
theories/PackingModel.v
theories/PackingProofs.v
theories/PropertiesPacking.v
theories/ParamsModel.v
theories/ParamsProofs.v
theories/ParamsA.v
theories/ParamsB.v
theories/ParamsC.v
theories/ParamsD.v
theories/ParamsAll.v
theories/ParamsExtra.v
theories/PropertiesParams.v
theories/GroupOps.v
theories/GroupProofs.v
theories/WnafModel.v
theories/WnafProofs.v
theories/MultiexpModel.v
theories/MultiexpProofs.v
theories/BosCosterProofs.v
theories/MultiexpExtra.v
theories/PropertiesScalarMul.v
theories/ExtModel.v
theories/ExtSpec.v
theories/ExtProofs.v
theories/ExtFrob.v
theories/ExtCyc.v
theories/ExtInst.v
theories/ZmInst.v
theories/ExtExtra.v
theories/PropertiesExt.v
theories/CurveSpec.v
theories/CurveGroup.v
theories/CurveModel.v
theories/CurveProofs.v
theories/CurveEdwards.v
theories/CurveEdwOps.v
theories/CurveEdwGroup.v
theories/CurveIoModel.v
theories/CurveIoProofs.v
theories/CurveExtra.v
theories/PropertiesCurve.v
theories/Gf2Poly.v
theories/BinaryModel.v
theories/BinaryProofs.v
theories/BinaryField.v
theories/BinaryCerts.v
theories/BinaryInst.v
theories/BinaryOrder.v
theories/BinaryIo.v
theories/BinaryExtra.v
theories/PropertiesBinary.v
theories/ProfilingModel.v
theories/ProfilingProofs.v
theories/ProfilingExtra.v
theories/PropertiesProfiling.v
theories/Mul63.v
theories/Hom.v
theories/FinalExpModel.v
theories/FinalExpSpec.v
theories/FinalExpProofs.v
theories/TowerModel.v
theories/TowerSpec.v
theories/TowerProofs.v
theories/TowerShipped.v
theories/LoopShipped.v
theories/TowerSqrt.v
theories/PropertiesTower.v
theories/PairingModel.v
theories/PairingSpec.v
theories/PairingProofs.v
theories/PairingExtra.v
theories/NeutralProofs.v
theories/PairingShipped.v
theories/NeutralShipped.v
theories/PropertiesPairing.v
theories/PropertiesAsm.v
theories/ToyPairing.v
theories/PropertiesToy.v
theories/MillerSpec.v
theories/MillerProofs.v
theories/MillerTwelve.v
theories/MillerRegular.v
theories/MillerOrder.v
theories/MillerShipped.v
theories/HomCurve.v
theories/MontRing.v
theories/HomMont.v
theories/HomPairing.v
theories/GenProofs.v
theories/GenShipped.v
theories/PropertiesMiller.v
theories/MillerCocycle.v
theories/Cochain.v
theories/MillerBilinear.v
theories/BilinearTwelve.v
theories/BilinearShipped.v
theories/NonDegenerate.v
theories/MillerQuad.v
theories/BilinearQuad.v
theories/MntShipped.v
theories/MntGen.v
theories/MntNonDeg.v
theories/MntAffine.v
theories/EdwSpec.v
theories/EdwSw.v
theories/EdwPairing.v
theories/EdwGroup.v
theories/EdwBilinear.v
theories/EdwShipped.v
theories/EdwGen.v
theories/TateBilinear.v
theories/EdwTate.v
theories/EdwTateValue.v
theories/EdwTateShipped.v
theories/NeutralExact.v
theories/PropertiesBilinear.v
theories/PrecompIoModel.v
theories/PrecompIoProofs.v
theories/PropertiesStreams.v
theories/Bn128Model.v
theories/Bn128Proofs.v
theories/Bn128Shipped.v
theories/PropertiesBn128.v
theories/WordsModel.v
theories/WordsProofs.v
theories/WordsShipped.v
theories/WordsMnt.v
theories/PropertiesWords.v
theories/DoubleModel.v
theories/DoubleProofs.v
theories/PropertiesDouble.v
theories/QuotientModel.v
theories/QuotientProofs.v
theories/PropertiesQuotient.v
theories/WindowsModel.v
theories/WindowsProofs.v
theories/PropertiesWindows.v
theories/OpcountModel.v
theories/OpcountProofs.v
theories/PropertiesOpcount.v
theories/OpcountTowerModel.v
theories/OpcountTowerProofs.v
theories/PropertiesOpcountTower.v
theories/NdebugModel.v
theories/NdebugProofs.v
theories/NdebugTower.v
theories/PropertiesNdebug.v
theories/NdebugMultiModel.v
theories/NdebugMultiProofs.v
theories/PropertiesNdebugMulti.v
theories/NdebugParseModel.v
theories/NdebugParseProofs.v
theories/PropertiesNdebugParse.v
theories/MultiexpProfileModel.v
theories/MultiexpProfileProofs.v
theories/PropertiesMultiexpProfile.v
theories/PrintModel.v
theories/PrintProofs.v
theories/PropertiesPrint.v
theories/ReportModel.v
theories/ReportProofs.v
theories/PropertiesReport.v
theories/GroupSizeModel.v
theories/GroupSizeProofs.v
theories/PropertiesGroupSize.v
theories/CofactorModel.v
theories/CofactorProofs.v
theories/PropertiesCofactor.v
theories/FpConvProofs.v
theories/PropertiesFpConv.v
