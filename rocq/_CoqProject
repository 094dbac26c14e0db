-Q theories Verif
theories/Base.v
theories/RuleModel.v
theories/RuleSpec.v
theories/RuleProofs.v
theories/RewriteProofs.v
theories/IdemProofs.v
theories/RuleThms.v
theories/CleanCheck.v
theories/NfcTables.v
theories/UnicodeTables.v
theories/CanonModel.v
theories/CanonProofs.v
theories/NfcProofs.v
theories/NfcThms.v
theories/VisualModel.v
theories/VisualSpec.v
theories/VisualProofs.v
theories/ScriptData.v
theories/ScriptTables.v
theories/ScriptModel.v
theories/ScriptChecks.v
theories/VisualThms.v
theories/RegexModel.v
theories/RegexProofs.v
theories/WellformedModel.v
theories/WellformedSpec.v
theories/WellformedProofs.v
theories/WellformedThms.v
theories/Utf8Model.v
theories/Utf8Spec.v
theories/Utf8Arith.v
theories/Utf8Proofs.v
theories/Utf8Thms.v
theories/ByteModel.v
theories/ByteSpec.v
theories/ByteProofs.v
theories/ByteGrammar.v
theories/ByteThms.v
theories/TextModel.v
theories/TextSpec.v
theories/TextProofs.v
theories/TextThms.v
theories/RomanSpec.v
theories/RomanModel.v
theories/RomanTables.v
theories/CodeCheck.v
theories/RomanProofs.v
theories/RomanThms.v
theories/DataModel.v
theories/DataSpec.v
theories/DataProofs.v
theories/TsvProofs.v
theories/TsvMore.v
theories/DataThms.v
theories/PoolModel.v
theories/PoolSpec.v
theories/PoolProofs.v
theories/PoolThms.v
theories/DelimModel.v
theories/DelimSpec.v
theories/DelimProofs.v
theories/DelimThms.v
theories/WordpieceModel.v
theories/WordpieceSpec.v
theories/WordpieceProofs.v
theories/TransducerSpec.v
theories/TransducerProofs.v
theories/WordpieceThms.v
theories/KbestModel.v
theories/KbestSpec.v
theories/KbestProofs.v
theories/RejoinProofs.v
theories/SearchProofs.v
theories/ExtractProofs.v
theories/KbestThms.v
theories/ErrorRateModel.v
theories/ErrorRateSpec.v
theories/EditProofs.v
theories/ErrorRateProofs.v
theories/MultiRefProofs.v
theories/ErrorRateThms.v
theories/PairlmModel.v
theories/PairlmSpec.v
theories/PairlmProofs.v
theories/LatticeModel.v
theories/LatticeSpec.v
theories/CacheModel.v
theories/DecoderSpec.v
theories/BackoffProofs.v
theories/LatticeProofs.v
theories/RunnerProofs.v
theories/PrintProofs.v
theories/CacheProofs.v
theories/PairProofs.v
theories/DecoderExamples.v
theories/PairlmThms.v
theories/LatticeThms.v
theories/CacheSpec.v
theories/CacheMore.v
theories/CacheThms.v
theories/FeatureModel.v
theories/FeatureSpec.v
theories/FeatureProofs.v
theories/ProfileModel.v
theories/ProfileSpec.v
theories/ProfileProofs.v
theories/HistoryProofs.v
theories/CompareProofs.v
theories/ContainModel.v
theories/ContainSpec.v
theories/ContainProofs.v
theories/FeatureExamples.v
theories/FeatureThms.v
theories/ContainerModel.v
theories/ContainerSpec.v
theories/ContainerProofs.v
theories/InventoryModel.v
theories/InventorySpec.v
theories/InventoryProofs.v
theories/OperationModel.v
theories/OperationSpec.v
theories/OperationProofs.v
theories/ContainerThms.v
theories/InventoryThms.v
theories/OperationThms.v
theories/SymbolModel.v
theories/SymbolSpec.v
theories/SymbolProofs.v
theories/GraphemeProofs.v
theories/PhonemeProofs.v
theories/NumeralSpec.v
theories/SymbolNumbers.v
theories/SymbolThms.v
theories/ExpressionModel.v
theories/ExpressionSpec.v
theories/ExpressionProofs.v
theories/ExpressionBuild.v
theories/ExpressionOr.v
theories/ExpressionLaws.v
theories/ExpressionContain.v
theories/ExpressionRule.v
theories/ExpressionFindings.v
theories/ExpressionThms.v
theories/ExpressionAnySpec.v
theories/ExpressionAny.v
theories/ExpressionContainThms.v
theories/ExpressionRuleThms.v
theories/GridModel.v
theories/GridSpec.v
theories/GridProofs.v
theories/GridThms.v
theories/IsoModel.v
theories/IsoSpec.v
theories/IsoProofs.v
theories/IsoPieceSpec.v
theories/IsoPieces.v
theories/IsoThms.v
theories/MachineModel.v
theories/SymModel.v
theories/MachineProofs.v
theories/SymProofs.v
theories/IsoDists.v
theories/IsoFullModel.v
theories/IsoRoundSpec.v
theories/IsoRound.v
theories/IsoFull.v
theories/IsoRoundThms.v
theories/FuncModel.v
theories/FuncSpec.v
theories/FuncProofs.v
theories/FuncThms.v
theories/GrammarModel.v
theories/SharedModel.v
theories/GrammarSpec.v
theories/GrammarProofs.v
theories/SharedProofs.v
theories/GrammarThms.v
theories/AlignModel.v
theories/AlignSpec.v
theories/AlignProofs.v
theories/AlignMore.v
theories/AlignThms.v
theories/PathModel.v
theories/PathSpec.v
theories/PathProofs.v
theories/PathThms.v
theories/ReadoutModel.v
theories/ReadoutSpec.v
theories/ReadoutProofs.v
theories/ReadoutMoreSpec.v
theories/ReadoutMore.v
theories/ReadoutThms.v
theories/ManagerModel.v
theories/ManagerSpec.v
theories/ManagerProofs.v
theories/ManagerThms.v
theories/NatModel.v
theories/NatSpec.v
theories/NatProofs.v
theories/NatBytes.v
theories/NatBlocks.v
theories/NatBlocksProofs.v
theories/NatTyp.v
theories/NatTypMain.v
theories/NatRepeats.v
theories/NatMain.v
theories/NatRoman.v
theories/NatRomanMain.v
theories/NatPhon.v
theories/NatFacts.v
theories/NatThms.v
theories/NatSoundSpec.v
theories/NatWords.v
theories/NatSound.v
theories/NatSouth.v
theories/NatSouthMain.v
theories/NatSouthRoman.v
theories/NatSouthFacts.v
theories/NatSoundThms.v
theories/DeromModel.v
theories/DeromBytes.v
theories/DeromPieces.v
theories/DeromSpec.v
theories/DeromReading.v
theories/DeromText.v
theories/DeromIso.v
theories/DeromRun.v
theories/DeromTamil.v
theories/DeromJoin.v
theories/DeromHindi.v
theories/DeromFacts.v
theories/DeromVowels.v
theories/DeromThms.v
theories/DeromCost.v
theories/DeromAgree.v
theories/DeromTexts.v
theories/DeromChain.v
theories/DeromAgreeThms.v
theories/IsoTextSpec.v
theories/IsoText.v
theories/FixedJoin.v
theories/IsoLongest.v
theories/IsoReader.v
theories/IsoTextThms.v
theories/FixedTables.v
theories/FixedModel.v
theories/FixedSpec.v
theories/FixedCheck.v
theories/FixedProofs.v
theories/FixedThms.v
theories/SoundTables.v
theories/SoundDocs.v
theories/SoundModel.v
theories/SoundSpec.v
theories/SoundProofs.v
theories/SoundChecks.v
theories/SoundThms.v
theories/UniqueDecode.v
theories/SpelloutTables.v
theories/SpelloutModel.v
theories/SpelloutSpec.v
theories/SpelloutProofs.v
theories/SpelloutDecode.v
theories/SpelloutScript.v
theories/SpelloutThms.v
theories/AcronymModel.v
theories/AcronymSpec.v
theories/AcronymProofs.v
theories/AcronymMain.v
theories/AcronymNat.v
theories/AcronymSpelled.v
theories/AcronymRound.v
theories/AcronymThms.v
theories/SymtabModel.v
theories/SymtabSpec.v
theories/SymtabProofs.v
theories/SymtabThms.v
theories/TesterModel.v
theories/TesterSpec.v
theories/TesterProofs.v
theories/TesterResults.v
theories/TesterThms.v
theories/SoundAddProofs.v
theories/SoundAddThms.v
theories/EmdModel.v
theories/EmdSpec.v
theories/EmdProofs.v
theories/EmdResults.v
theories/EmdThms.v
theories/LanguageModel.v
theories/LanguageSpec.v
theories/LanguageProofs.v
theories/LanguageThms.v
theories/FileModel.v
theories/FileSpec.v
theories/FileStreamSpec.v
theories/FileProofs.v
theories/FileStreamProofs.v
theories/FileThms.v
theories/FstListModel.v
theories/FstListSpec.v
theories/FstListProofs.v
theories/FstListThms.v
theories/LogModel.v
theories/LogProofs.v
theories/LogThms.v
theories/AssertModel.v
theories/AssertSpec.v
theories/AssertProofs.v
theories/AssertThms.v
theories/TextprotoModel.v
theories/TextprotoSpec.v
theories/TextprotoProofs.v
theories/TextprotoThms.v
theories/MarkTables.v
theories/StableSpec.v
theories/StableProofs.v
theories/StableThms.v
theories/TesterModeSpec.v
theories/TesterModes.v
theories/TesterModeThms.v
theories/KeepSpec.v
theories/ResidualCheck.v
theories/ResidualProofs.v
theories/KeepProofs.v
theories/KeepThms.v
theories/CommandModel.v
theories/CommandSpec.v
theories/CommandProofs.v
theories/CommandThms.v
theories/LetterModel.v
theories/LetterTables.v
theories/LetterSpec.v
theories/LetterProofs.v
theories/LetterShipped.v
theories/LetterThms.v
theories/FarModel.v
theories/FarSpec.v
theories/FarProofs.v
theories/FarThms.v
theories/TestdataModel.v
theories/TestdataSpec.v
theories/TestdataProofs.v
theories/TestdataThms.v
theories/BuildModel.v
theories/BuildSpec.v
theories/BuildProofs.v
theories/BuildUseProofs.v
theories/BuildNamesProofs.v
theories/BuildThms.v
theories/ArabTables.v
theories/ArabModel.v
theories/ArabSpec.v
theories/ArabProofs.v
theories/ArabLangProofs.v
theories/ArabCaseProofs.v
theories/ArabThms.v
theories/PhonTables.v
theories/PhonModel.v
theories/PhonSpec.v
theories/PhonProofs.v
theories/PhonTableProofs.v
theories/PhonCaseProofs.v
theories/PhonThms.v
theories/PhonTextModel.v
theories/PhonTextSpec.v
theories/PhonTextProofs.v
theories/PhonTextCaseProofs.v
theories/PhonTextMainProofs.v
theories/PhonTextThms.v
