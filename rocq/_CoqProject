-Q theories Verif
theories/Base.v
theories/BaseFacts.v
theories/Peg.v
theories/PegFacts.v
theories/Names.v
theories/SpecNames.v
theories/NamesFacts.v
theories/Props_Names.v
theories/OMap.v
theories/SimpleExt.v
theories/Out.v
theories/Anchors.v
theories/SimpleExtFacts.v
theories/SpecExt.v
theories/AnchorsFacts.v
theories/FromExtFacts.v
theories/Props_Ext.v
theories/Types.v
theories/SpecTypes.v
theories/TypesFacts.v
theories/Props_Types.v
theories/Lines.v
theories/Tree.v
theories/ExtLines.v
theories/Structural.v
theories/SpecTree.v
theories/TreeFacts.v
theories/LinesFacts.v
theories/SpecLines.v
theories/StructuralFacts.v
theories/LineView.v
theories/ReadFacts.v
theories/SpecChunks.v
theories/Props_Structural.v
theories/SpecExtLines.v
theories/ExtLinesFacts.v
theories/Version.v
theories/PreambleFacts.v
theories/ExtReadFacts.v
theories/Props_Preamble.v
theories/Calendar.v
theories/CalendarFacts.v
theories/Literals.v
theories/SpecLiterals.v
theories/LiteralsFacts.v
theories/Props_Literals.v
theories/Exprs.v
theories/SpecExprs.v
theories/ExprsFacts.v
theories/Props_Exprs.v
theories/ExtArgs.v
theories/Registry.v
theories/ExprEq.v
theories/Rels.v
theories/RelGrammar.v
theories/RelRead.v
theories/Plan.v
theories/SpecRegistry.v
theories/Props_Registry.v
theories/PegYields.v
theories/SpecRels.v
theories/RelReadFacts.v
theories/RelTreeFacts.v
theories/RelGrammarFacts.v
theories/Props_Relations.v
theories/SpecLits.v
theories/OutClosed.v
theories/SpecFormat.v
theories/Props_Format.v
theories/SpecPlan.v
theories/NoNewline.v
theories/ExtArgsFacts.v
theories/RelTextFacts.v
theories/SpecVirtual.v
theories/VirtualFacts.v
theories/BuildFacts.v
theories/PlanFacts.v
theories/PlanQuiet.v
theories/ParsedFacts.v
theories/Props_Plan.v
theories/SpecAddenda.v
theories/RelayFacts.v
theories/Props_Parse.v
theories/SpecCrash.v
theories/CrashFacts.v
theories/Props_Crash.v
theories/ConsumedFacts.v
theories/Props_Consumed.v
theories/Utf8.v
theories/Wire.v
theories/WireFacts.v
theories/Bundled.v
theories/SpecBundled.v
theories/Props_Bundled.v
theories/Descriptors.v
theories/Cli.v
theories/SpecCli.v
theories/Props_Cli.v
theories/SpecVisible.v
theories/Props_Visible.v
theories/SpecAggregate.v
theories/Props_Aggregate.v
theories/Props_NamedArgs.v
theories/SpecWire.v
theories/WireSpecFacts.v
theories/Props_Wire.v
theories/RegistryNames.v
theories/Props_Queries.v
theories/SpecStable.v
theories/StableFacts.v
theories/Props_Stable.v
theories/Tests_Base.v
theories/Tests_Roundtrip.v
theories/Tests_Read.v
theories/Tests_Ext.v
theories/Tests_Write.v
theories/Tests_Handlers.v
theories/Tests_Units.v
theories/PestText.v
theories/Pest.v
theories/PestFacts.v
theories/SpecGrammar.v
theories/GrammarFacts.v
theories/GrammarRules.v
theories/GrammarLines.v
theories/GrammarUnique.v
theories/Props_Grammar.v
theories/Props_Conversions.v
theories/SpecOptions.v
theories/OptionsFacts.v
theories/Props_Options.v
theories/SpecMeaning.v
theories/MeaningFacts.v
theories/MeaningTimes.v
theories/MeaningExprs.v
theories/MeaningRels.v
theories/Props_Meaning.v
theories/SpecText.v
theories/TextFacts.v
theories/TextDecls.v
theories/TextRun.v
theories/TextPlan.v
theories/Props_Text.v
theories/SpecNotation.v
theories/NotationBase.v
theories/NotationTypes.v
theories/NotationLits.v
theories/NotationExprs.v
theories/Props_Notation.v
theories/SpecLayout.v
theories/LayoutRels.v
theories/LayoutHeads.v
theories/LayoutTree.v
theories/LayoutPlan.v
theories/Props_Layout.v
theories/SpecMore.v
theories/MoreRead.v
theories/MoreWritten.v
theories/Props_More.v
theories/SpecLocal.v
theories/LocalFacts.v
theories/Props_Local.v
theories/SpecSteps.v
theories/StepsFacts.v
theories/StepsLines.v
theories/Props_Steps.v
theories/StepsWell.v
theories/StepsDeep.v
theories/Props_Ends.v
theories/SpecComplete.v
theories/CompleteOut.v
theories/CompleteRead.v
theories/Props_Complete.v
theories/SpecBlocks.v
theories/BlocksFacts.v
theories/BlocksTree.v
theories/Props_Blocks.v
theories/SpecCrashes.v
theories/CrashesFacts.v
theories/CrashesRels.v
theories/CrashesTrees.v
theories/CrashesText.v
theories/Props_Crashes.v
theories/SpecBlame.v
theories/BlameFacts.v
theories/BlameText.v
theories/Props_Blame.v
theories/SpecWriteCrash.v
theories/WriteCrash.v
theories/WriteCrashRels.v
theories/Props_WriteCrash.v
theories/SpecWriteErrors.v
theories/WriteErrors.v
theories/WriteErrorsRels.v
theories/Props_WriteErrors.v
theories/Props_Handlers.v
