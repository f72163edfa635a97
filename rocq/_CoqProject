-Q theories Verif
theories/Base.v
theories/BaseFacts.v
theories/Spec.v
theories/SpecFacts.v
theories/Basis.v
theories/LwaSpec.v
theories/LwaProofs.v
theories/PropertiesLwa.v
theories/EqvlatSpec.v
theories/EqvlatProofs.v
theories/Barotropic.v
theories/EqvlatProofs2.v
theories/BarotropicProofs.v
theories/PropertiesEqvlat.v
theories/PropertiesBarotropic.v
theories/Utilities.v
theories/UtilSpec.v
theories/UtilitiesProofs.v
theories/PropertiesUtilities.v
theories/Grid.v
theories/GridSpec.v
theories/GridProofs.v
theories/PropertiesGrid.v
theories/Storage.v
theories/StorageSpec.v
theories/StorageProofs.v
theories/PropertiesStorage.v
theories/QGState.v
theories/QGStateSpec.v
theories/QGStateProofs.v
theories/PropertiesState.v
theories/Fortran.v
theories/Flux.v
theories/FluxSpec.v
theories/FluxProofs.v
theories/PropertiesFlux.v
theories/Qgpv.v
theories/QgpvSpec.v
theories/QgpvProofs.v
theories/PropertiesQgpv.v
theories/Pipeline.v
theories/PipelineSpec.v
theories/PipelineProofs.v
theories/PropertiesPipeline.v
theories/RefStates.v
theories/RefStatesSpec.v
theories/RefStatesProofs.v
theories/RefStatesProofs2.v
theories/RefStatesProofs3.v
theories/RefStatesProofs4.v
theories/RefStatesProofs5.v
theories/RefStatesProofs6.v
theories/PropertiesRefStates.v
theories/DirInv.v
theories/DirInvSpec.v
theories/DirInvProofs.v
theories/DirInvProofs2.v
theories/DirInvProofs3.v
theories/DirInvProofs4.v
theories/DirInvProofs5.v
theories/PropertiesDirInv.v
theories/MirrorSpec.v
theories/MirrorProofs.v
theories/PropertiesMirror.v
theories/Xarray.v
theories/XarraySpec.v
theories/XarrayProofs.v
theories/XarrayProofs2.v
theories/XarrayProofs3.v
theories/PropertiesXarray.v
theories/PropertiesXarray2.v
theories/PropertiesXarray3.v
theories/Wrapper.v
theories/WrapperSpec.v
theories/WrapperProofs.v
theories/PropertiesWrapper.v
theories/Misc.v
theories/MiscSpec.v
theories/PropertiesMisc.v
theories/LinAlg.v
theories/Legacy.v
theories/LegacySpec.v
theories/LegacyProofs.v
theories/LegacyProofs2.v
theories/LegacyProofs3.v
theories/LegacyProofs4.v
theories/PropertiesLegacy.v
theories/RotateSpec.v
theories/RotateProofs.v
theories/RotateProofs2.v
theories/RotateProofs3.v
theories/PropertiesRotate.v
theories/Object.v
theories/ObjectSpec.v
theories/ObjectProofs.v
theories/ObjectProofs2.v
theories/ObjectProofs3.v
theories/ObjectProofs4.v
theories/PropertiesObject.v
theories/Alias.v
theories/AliasSpec.v
theories/AliasProofs.v
theories/AliasProofs2.v
theories/PropertiesAlias.v
theories/AliasProofs3.v
theories/PropertiesAlias2.v
theories/GlobeSpec.v
theories/GlobeProofs.v
theories/GlobeProofs2.v
theories/PropertiesGlobe.v
theories/FormulaSpec.v
theories/FormulaProofs.v
theories/FormulaProofs2.v
theories/FormulaProofs3.v
theories/FormulaProofs4.v
theories/FormulaProofs5.v
theories/FormulaProofs6.v
theories/PropertiesFormula.v
theories/EvenSpec.v
theories/EvenProofs.v
theories/PropertiesEven.v
theories/Session.v
theories/SessionSpec.v
theories/SessionProofs.v
theories/StateSpec.v
theories/StateProofs.v
theories/StateProofs2.v
theories/StateProofs3.v
theories/StateProofs4.v
theories/StateProofs5.v
theories/StateCase.v
theories/PropertiesSession.v
theories/RoundSpec.v
theories/RoundProofs.v
theories/PropertiesRound.v
theories/Masked.v
theories/MissingSpec.v
theories/PropertiesMissing.v
theories/Ieee.v
theories/PropertiesMissing2.v
theories/AccuracyProofs.v
theories/PropertiesAccuracy.v
theories/FluxAccuracyProofs.v
theories/PropertiesAccuracy2.v
theories/Hybrid.v
theories/HybridSpec.v
theories/HybridProofs.v
theories/PropertiesHybrid.v
theories/Drivers.v
theories/DriversSpec.v
theories/DriversProofs.v
theories/PropertiesDrivers.v
theories/PlotFiles.v
theories/PropertiesPlotFiles.v
theories/FawaSpec.v
theories/FawaProofs.v
theories/PropertiesFawa.v
theories/InfluenceSpec.v
theories/InfluenceProofs.v
theories/PropertiesInfluence.v
theories/PropertiesSymmetry.v
theories/ReachSpec.v
theories/PropertiesReach.v
theories/LevelProofs.v
theories/PropertiesLevels.v
theories/UnitSpec.v
theories/UnitProofs.v
theories/UnitProofs2.v
theories/UnitProofs3.v
theories/UnitProofs4.v
theories/PropertiesUnits.v
theories/MissingRefProofs.v
theories/PropertiesMissing3.v
theories/EnergyProofs.v
theories/ConvergeProofs.v
theories/ConvergeSpec.v
theories/ConvergeProofs2.v
theories/PropertiesConverge.v
theories/BudgetSpec.v
theories/BudgetProofs.v
theories/PropertiesBudget.v
theories/BoundProofs.v
theories/PropertiesBounds.v
theories/LipschitzProofs.v
theories/PropertiesLipschitz.v
theories/DatasetSession.v
theories/DatasetSpec.v
theories/DatasetProofs.v
theories/PropertiesDataset.v
theories/Memory.v
theories/MemoryProofs.v
theories/PropertiesMemory.v
theories/Heights.v
theories/HeightsProofs.v
theories/PropertiesHeights.v
theories/Warnings.v
theories/PropertiesWarnings.v
theories/OffsetSpec.v
theories/OffsetProofs.v
theories/OffsetProofs2.v
theories/OffsetProofs3.v
theories/PropertiesOffset.v
