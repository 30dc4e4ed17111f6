-Q theories Verif
theories/NanBox.v
theories/PointerSet.v
theories/PointerSetProofs.v
theories/PointerSetLevels.v
theories/PropertiesNanBox.v
theories/PointerSetNode.v
theories/PointerSetTop.v
theories/PropertiesPointerSet.v
theories/Allocator.v
theories/PropertiesAllocator.v
theories/Collector.v
theories/CollectorProofs.v
theories/CollectorHistory.v
theories/CollectorCheck.v
theories/PropertiesCollector.v
theories/Number.v
theories/NumberProofs.v
theories/NumberRounding.v
theories/NumberGcd.v
theories/NumberMore.v
theories/PropertiesNumber.v
theories/Bitwise.v
theories/BitwiseProofs.v
theories/Srfi151Proofs.v
theories/Srfi141.v
theories/NumberText.v
theories/PropertiesBitwise.v
theories/TextPort.v
theories/TextPortProofs.v
theories/PropertiesText.v
theories/Sequence.v
theories/SequenceProofs.v
theories/PropertiesSequence.v
theories/Lists.v
theories/ListPredicates.v
theories/ListsProofs.v
theories/PropertiesLists.v
theories/Equal.v
theories/EqualProofs.v
theories/PropertiesEqual.v
theories/Machine.v
theories/Generator.v
theories/CoreSemantics.v
theories/CompilerProofs.v
theories/Simulation.v
theories/CompilerCorrect.v
theories/Evaluate.v
theories/CompilerProgram.v
theories/Discipline.v
theories/MachineProofs.v
theories/PropertiesCompiler.v
theories/Symbols.v
theories/PropertiesSymbols.v
theories/Writer.v
theories/Reader.v
theories/ReaderProofs.v
theories/ReaderCorrect.v
theories/RoundTrip.v
theories/PropertiesReader.v
theories/CondExpand.v
theories/Environment.v
theories/EnvironmentProofs.v
theories/PropertiesEnvironment.v
theories/LibraryCode.v
theories/Reach.v
theories/ContinuationProofs.v
theories/WindSpec.v
theories/TraceProgram.v
theories/PropertiesControl.v
theories/Symbolic.v
theories/ProgramText.v
theories/MapProofs.v
theories/PropertiesMap.v
theories/TransferProofs.v
theories/ParameterProofs.v
theories/PropertiesParameter.v
theories/Catch.v
theories/HandlerProofs.v
theories/PropertiesHandler.v
theories/SharedMemory.v
theories/PromiseProofs.v
theories/PropertiesPromise.v
theories/Records.v
theories/PropertiesRecord.v
theories/Expander.v
theories/ExpanderSpec.v
theories/ExpanderProofs.v
theories/PropertiesExpander.v
theories/SyntaxRules.v
theories/SyntaxRulesSpec.v
theories/SyntaxRulesProofs.v
theories/PropertiesSyntaxRules.v
theories/DerivedForms.v
theories/DerivedSpec.v
theories/DerivedProofs.v
theories/PropertiesDerived.v
theories/Rationalize.v
theories/RationalizeProofs.v
theories/PropertiesRationalize.v
theories/Srfi1.v
theories/Srfi1Spec.v
theories/Srfi1Proofs.v
theories/Srfi1Walks.v
theories/Srfi1Writes.v
theories/Srfi1Sets.v
theories/Srfi1Rest.v
theories/PropertiesSrfi1.v
theories/Ports.v
theories/PortsSpec.v
theories/PortsProofs.v
theories/PropertiesPorts.v
theories/ValuesProofs.v
theories/PropertiesValues.v
theories/Configuration.v
theories/CommandLineSpec.v
theories/CommandLineProofs.v
theories/PropertiesCommandLine.v
theories/Flonum.v
theories/FlonumSpec.v
theories/FlonumProofs.v
theories/FlonumProofs2.v
theories/FlonumProofs3.v
theories/PropertiesFlonum.v
theories/Complex.v
theories/ComplexSpec.v
theories/PropertiesComplex.v
theories/Include.v
theories/IncludeSpec.v
theories/IncludeProofs.v
theories/PropertiesInclude.v
theories/UnicodeTables.v
theories/Unicode.v
theories/UnicodeProofs.v
theories/PropertiesUnicode.v
theories/Labels.v
theories/LabelsSpec.v
theories/LabelsProofs.v
theories/LabelsShared.v
theories/LabelsEvery.v
theories/LabelsRead.v
theories/PropertiesLabels.v
theories/Macros.v
theories/MacrosSpec.v
theories/MacrosProofs.v
theories/MacrosEval.v
theories/PropertiesMacros.v
theories/RecordMacros.v
theories/RecordMacrosProofs.v
theories/PropertiesRecordMacros.v
theories/DefineValues.v
theories/DefineValuesProofs.v
theories/PropertiesDefineValues.v
theories/Guard.v
theories/GuardProofs.v
theories/GuardMeaning.v
theories/PropertiesGuard.v
theories/CaseLambda.v
theories/CaseLambdaProofs.v
theories/CaseLambdaRuns.v
theories/PropertiesCaseLambda.v
theories/ErMacros.v
theories/PropertiesErMacros.v
theories/RoundingSpec.v
theories/FlonumRound.v
theories/FlonumArith.v
theories/PropertiesFlonumArith.v
theories/Srfi144.v
theories/PropertiesSrfi144.v
theories/RootSpec.v
theories/FlonumSqrt.v
theories/PropertiesSqrt.v
theories/DecimalSpec.v
theories/Decimal.v
theories/DecimalProofs.v
theories/DecimalWrite.v
theories/PropertiesDecimal.v
theories/Srfi143.v
theories/Srfi143Proofs.v
theories/PropertiesFixnum.v
theories/Types.v
theories/PropertiesTypes.v
theories/PropertiesBitwiseMore.v
theories/ReadShared.v
theories/ReadSharedSpec.v
theories/Tells.v
theories/ReadSharedProofs.v
theories/ReadSharedAlike.v
theories/LabelsOnce.v
theories/ReadSharedOnly.v
theories/PropertiesReadShared.v
theories/Display.v
theories/DisplaySpec.v
theories/PropertiesDisplay.v
theories/Mapping.v
theories/MappingSpec.v
theories/MappingProofs.v
theories/PropertiesMapping.v
theories/ErrorObject.v
theories/PropertiesErrorObject.v
theories/Srfi78.v
theories/Srfi78Spec.v
theories/Srfi78Proofs.v
theories/PropertiesSrfi78.v
theories/Redirect.v
theories/RedirectSpec.v
theories/RedirectProofs.v
theories/PropertiesRedirect.v
theories/ComplexText.v
theories/ComplexTextProofs.v
theories/PropertiesComplexText.v
theories/StandardLibraries.v
theories/StandardLibrariesSpec.v
theories/StandardLibrariesProofs.v
theories/PropertiesStandardLibraries.v
theories/ExitLibrary.v
theories/FreeVariables.v
theories/PropertiesFreeVariables.v
theories/PairAccess.v
theories/PropertiesPairAccess.v
theories/EnvVars.v
theories/PropertiesEnvVars.v
theories/MoreLibraries.v
theories/PropertiesMoreLibraries.v
