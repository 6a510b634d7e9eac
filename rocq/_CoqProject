-Q theories Verif
theories/PyStr.v
theories/PyStrProofs.v
theories/RecipModel.v
theories/RecipProofs.v
theories/Pow2Proofs.v
theories/KernRecipProofs.v
theories/PropsRhythm.v
theories/PitchModel.v
theories/PitchProofs.v
theories/ClefModel.v
theories/ClefProofs.v
theories/PropsPitch.v
theories/HashModel.v
theories/HashProofs.v
theories/LayoutModel.v
theories/LayoutProofs.v
theories/TextModel.v
theories/TextProofs.v
theories/PropsText.v
theories/SpineModel.v
theories/SpineProofs.v
theories/SpineProofs2.v
theories/LinkProofs.v
theories/PropsSpine.v
theories/RhythmModel.v
theories/RhythmProofs.v
theories/RhythmProofs2.v
theories/RhythmProofs3.v
theories/RhythmProofs4.v
theories/RhythmProofs5.v
theories/PropsTime.v
theories/DurationModel.v
theories/DurationProofs.v
theories/PropsDuration.v
theories/NamesModel.v
theories/NamesProofs.v
theories/StaffGroupModel.v
theories/StaffGroupProofs.v
theories/PropsNames.v
theories/DateModel.v
theories/DateProofs.v
theories/PropsDate.v
theories/BarModel.v
theories/BarProofs.v
theories/PropsBar.v
theories/BeamModel.v
theories/BeamProofs.v
theories/PropsBeam.v
theories/AccidModel.v
theories/AccidProofs.v
theories/PropsAccid.v
theories/ContentModel.v
theories/ContentProofs.v
theories/ContentProofs2.v
theories/PropsContent.v
theories/SlurModel.v
theories/SlurProofs.v
theories/SlurProofs2.v
theories/TieProofs.v
theories/PropsSlur.v
theories/TokenModel.v
theories/TokenProofs.v
theories/TokenProofs2.v
theories/PropsToken.v
theories/MeasureModel.v
theories/MeasureProofs.v
theories/MeasureProofs2.v
theories/MeasureProofs3.v
theories/PropsMeasure.v
theories/SignifierModel.v
theories/SignifierProofs.v
theories/PropsSignifier.v
theories/TremoloModel.v
theories/TremoloProofs.v
theories/PropsTremolo.v
theories/GridModel.v
theories/GridProofs.v
theories/PropsGrid.v
theories/ManipModel.v
theories/ManipProofs.v
theories/PropsManip.v
theories/StrandModel.v
theories/StrandProofs.v
theories/StrandFileProofs.v
theories/PropsStrand.v
theories/ArticModel.v
theories/PropsArtic.v
theories/TstampModel.v
theories/TstampProofs.v
theories/TstampProofs2.v
theories/PropsTstamp.v
theories/MeiBarModel.v
theories/PropsMeiBar.v
theories/LayerModel.v
theories/LayerProofs.v
theories/PropsLayer.v
theories/AnnotModel.v
theories/PropsAnnot.v
theories/TieModel.v
theories/PropsTie.v
theories/ImportModel.v
theories/ImportProofs.v
theories/PropsImport.v
theories/VoiceModel.v
theories/VoiceProofs.v
theories/PropsVoice.v
theories/EndingModel.v
theories/EndingProofs.v
theories/PropsEnding.v
theories/SigModel.v
theories/PropsSig.v
theories/NumberModel.v
theories/PropsNumber.v
theories/LayerFillModel.v
theories/LayerFillProofs.v
theories/PropsLayerFill.v
theories/MeiDurModel.v
theories/PropsMeiDur.v
theories/MeiPitchModel.v
theories/PropsMeiPitch.v
theories/MeiSigModel.v
theories/PropsMeiSig.v
theories/ChordTieModel.v
theories/PropsChordTie.v
theories/BeamLevelModel.v
theories/PropsBeamLevels.v
theories/MeiBeamModel.v
theories/PropsMeiBeam.v
theories/MeiIdsModel.v
theories/PropsMeiIds.v
theories/LayerNumModel.v
theories/PropsLayerNum.v
theories/TupletModel.v
theories/PropsTupletGroups.v
theories/TupletProofs.v
theories/TupletProofs2.v
theories/TupletProofs3.v
theories/TupletProofs4.v
theories/PropsTuplets.v
theories/LyricModel.v
theories/LyricProofs.v
theories/LyricProofs2.v
theories/PropsLyrics.v
theories/MeiTextModel.v
theories/PropsMeiText.v
theories/MeiStyleModel.v
theories/PropsMeiStyle.v
theories/MeiLyricModel.v
theories/PropsMeiLyrics.v
theories/HarteModel.v
theories/HarteProofs.v
theories/HarteSpec.v
theories/PropsHarte.v
theories/OrnModel.v
theories/OrnProofs.v
theories/PropsOrn.v
theories/BeamFixModel.v
theories/BeamFixProofs.v
theories/PropsBeamFix.v
theories/LifeModel.v
theories/LifeProofs.v
theories/PropsLife.v
theories/MeiOrnModel.v
theories/MeiOrnProofs.v
theories/MeiOrnProofs2.v
theories/PropsMeiOrn.v
theories/OttavaModel.v
theories/PropsOttava.v
theories/MeiLookModel.v
theories/PropsMeiLook.v
theories/MeiTupletModel.v
theories/PropsMeiTuplet.v
theories/PropsMeiTupletSpan.v
theories/PropsMeiTupletLook.v
theories/DynamModel.v
theories/DynamProofs.v
theories/DynamProofs2.v
theories/PropsDynam.v
theories/PropsDynamHairpin.v
theories/PropsDynamLine.v
theories/PropsDynamPlace.v
theories/TempoModel.v
theories/TempoProofs.v
theories/PropsTempo.v
theories/ArpModel.v
theories/PropsArp.v
theories/PropsMeiArp.v
theories/MeiSectionModel.v
theories/PropsMeiSection.v
theories/PropsMeiDefs.v
theories/PropsMeiBreaks.v
theories/MeiSpanEndModel.v
theories/PropsMeiSpanEnd.v
theories/MeiFillModel.v
theories/PropsMeiFill.v
theories/MeiTempoModel.v
theories/PropsMeiTempo.v
theories/MeiWorkModel.v
theories/MeiWorkProofs.v
theories/PropsMeiWork.v
theories/MeiPersonModel.v
theories/PropsMeiPerson.v
theories/FixDurModel.v
theories/FixDurProofs.v
theories/PropsFixDur.v
theories/HarmModel.v
theories/HarmProofs.v
theories/PropsHarm.v
theories/PropsHarmFigure.v
theories/BeamTremModel.v
theories/BeamTremProofs.v
theories/PropsBeamTrem.v
theories/NullTokModel.v
theories/PropsNullTok.v
theories/RefMetaModel.v
theories/PropsRefMeta.v
theories/PropsRefMeta2.v
theories/DecoModel.v
theories/DecoProofs.v
theories/DecoProofs2.v
theories/PropsDeco.v
theories/PropsDeco2.v
theories/DecoGroupModel.v
theories/PropsDecoGroup.v
theories/DecoExpandModel.v
theories/PropsDecoExpand.v
theories/VersionModel.v
theories/PropsVersion.v
