-Q theories Verif
theories/Base.v
theories/Num.v
theories/NumProofs.v
theories/Colours.v
theories/SpecColours.v
theories/ColoursProofs.v
theories/PropColours.v
theories/Float.v
theories/Airways.v
theories/SpecAirways.v
theories/AirwaysProofs.v
theories/AirwaysExpand.v
theories/PropAirways.v
theories/Sectors.v
theories/SpecSectors.v
theories/SectorsProofs.v
theories/SectorsFromEse.v
theories/PropSectors.v
theories/FloatOrder.v
theories/FloatReal.v
theories/SectorIndex.v
theories/SpecSectorIndex.v
theories/SectorIndexProofs.v
theories/PropSectorIndex.v
theories/Unicode.v
theories/Locations.v
theories/SpecLocations.v
theories/LocationsProofs.v
theories/LocationsResolve.v
theories/PropLocations.v
theories/FloatParse.v
theories/Constraints.v
theories/SpecConstraints.v
theories/ConstraintsProofs.v
theories/PropConstraints.v
theories/Settings.v
theories/SpecSettings.v
theories/SettingsProofs.v
theories/PropSettings.v
theories/Maps.v
theories/SpecMaps.v
theories/MapsProofs.v
theories/MapsFiling.v
theories/PropMaps.v
theories/SctData.v
theories/SctItems.v
theories/SpecSctItems.v
theories/SctItemsProofs.v
theories/PropSctItems.v
theories/Lines.v
theories/SpecLines.v
theories/LinesProofs.v
theories/PropLines.v
theories/Decode.v
theories/SpecDecode.v
theories/DecodeProofs.v
theories/PropDecode.v
theories/Dms.v
theories/DmsReal.v
theories/SpecDms.v
theories/DmsProofs.v
theories/DmsWide.v
theories/PropDms.v
theories/Peg.v
theories/Grammars.v
theories/SpecPeg.v
theories/PegProofs.v
theories/PegLang.v
theories/PegForward.v
theories/PegSkip.v
theories/PropPeg.v
theories/Trees.v
theories/Isec.v
theories/SpecText.v
theories/SpecIsec.v
theories/TextProofs.v
theories/IsecProofs.v
theories/Fixed.v
theories/SpecIsecWrite.v
theories/IsecWrite.v
theories/PropIsecWrite.v
theories/PropIsec.v
theories/PegTree.v
theories/Paths.v
theories/Prf.v
theories/SpecPrf.v
theories/PrfProofs.v
theories/PathProofs.v
theories/PropPrf.v
theories/SpecPairs.v
theories/PairsProofs.v
theories/Icao.v
theories/Numerals.v
theories/SpecIcao.v
theories/IcaoProofs.v
theories/PropIcao.v
theories/Asr.v
theories/SpecAsr.v
theories/AsrProofs.v
theories/PropAsr.v
theories/AirwayTxt.v
theories/SpecAirwayTxt.v
theories/AirwayTxtProofs.v
theories/PropAirwayTxt.v
theories/Verdict.v
theories/SctParse.v
theories/SpecSct.v
theories/SctProofs.v
theories/PropSct.v
theories/SpecKeyed.v
theories/KeyedProofs.v
theories/EseParse.v
theories/SpecEse.v
theories/EseProofs.v
theories/PropEse.v
theories/SymbolParse.v
theories/SpecSymbol.v
theories/SymbologyParse.v
theories/SpecSymbology.v
theories/SymbolProofs.v
theories/SymbologyProofs.v
theories/PropSymbology.v
theories/TopskyParse.v
theories/SpecTopsky.v
theories/TopskyProofs.v
theories/TopskyMapProofs.v
theories/TopskyRuleProofs.v
theories/TopskyFileProofs.v
theories/PropTopsky.v
theories/SctWrite.v
theories/SpecSctWrite.v
theories/SctForward.v
theories/SctNames.v
theories/SctLines.v
theories/SctItemsRead.v
theories/SctRoundTrip.v
theories/PropSctWrite.v
theories/Adaptation.v
theories/SpecAdaptation.v
theories/AdaptationProofs.v
theories/AdaptationLoads.v
theories/AdaptationContents.v
theories/AdaptationExample.v
theories/AdaptationMore.v
theories/PropAdaptation.v
theories/Json.v
theories/SpecJson.v
theories/JsonAdaptation.v
theories/JsonProofs.v
theories/JsonRoundTrip.v
theories/JsonAccepts.v
theories/JsonWritten.v
theories/JsonParts.v
theories/JsonSound.v
theories/JsonMore.v
theories/JsonExample.v
theories/PropJson.v
theories/Places.v
theories/SpecPlaces.v
theories/PlacesProofs.v
theories/PropPlaces.v
theories/SpecAirwayWrite.v
theories/AirwayWriteProofs.v
theories/PropAirwayWrite.v
theories/TwoKey.v
theories/SpecTwoKey.v
theories/TwoKeyProofs.v
theories/PropTwoKey.v
theories/Squawks.v
theories/SpecSquawks.v
theories/SquawksProofs.v
theories/PropSquawks.v
theories/ConstraintShow.v
theories/SpecConstraintShow.v
theories/ConstraintShowProofs.v
theories/PropConstraintShow.v
theories/SpecLoaded.v
theories/LoadedGraph.v
theories/LoadedSct.v
theories/LoadedColours.v
theories/LoadedMaps.v
theories/LoadedDrawn.v
theories/LoadedEse.v
theories/LoadedProofs.v
theories/PropLoaded.v
theories/Defaults.v
theories/SpecDefaults.v
theories/DefaultsProofs.v
theories/PropDefaults.v
theories/SpecFields.v
theories/FileForward.v
theories/SpecEseText.v
theories/EseText.v
theories/EseEntries.v
theories/EseFiles.v
theories/PropEseText.v
theories/SpecTableText.v
theories/TableText.v
theories/TableFiles.v
theories/PropTableText.v
theories/SpecDrawn.v
theories/ColonText.v
theories/DrawnText.v
theories/SpecSymbologyText.v
theories/SymbologyText.v
theories/PropSymbologyText.v
theories/SpecAsrText.v
theories/AsrText.v
theories/AsrTextLoads.v
theories/PropAsrText.v
theories/SpecTopskyText.v
theories/TopskyText.v
theories/TopskyDrawn.v
theories/TopskyTextLoads.v
theories/PropTopskyText.v
theories/SpecSettingsText.v
theories/SettingsText.v
theories/PropSettingsText.v
theories/SpecAirwayText.v
theories/AirwayText.v
theories/PropAirwayText.v
theories/PropAirwayLoaded.v
theories/PropWrittenLoaded.v
theories/PropWrittenLoads.v
theories/PropWrittenSettings.v
theories/PropWrittenSectors.v
