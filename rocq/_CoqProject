-Q theories Verif
theories/Bytes.v
theories/Utf8.v
theories/Attrs.v
theories/Refl.v
theories/Error.v
theories/Values.v
theories/Places.v
theories/Help.v
theories/Runtime.v
theories/Heck.v
theories/Decl.v
theories/Spec.v
theories/Derive.v
theories/Generated.v
theories/Observe.v
theories/BytesFacts.v
theories/HeckFacts.v
theories/SortFacts.v
theories/Utf8Facts.v
theories/AttrFacts.v
theories/CompileFacts.v
theories/VariantFacts.v
theories/InfoFacts.v
theories/TableFacts.v
theories/PlaceFacts.v
theories/UnwindFacts.v
theories/ScopeFacts.v
theories/NamedFacts.v
theories/WordFacts.v
theories/FinishFacts.v
theories/ReadFacts.v
theories/SimFacts.v
theories/HelpFacts.v
theories/Refine.v
theories/ContextFacts.v
theories/SafeFacts.v
theories/FieldFacts.v
theories/ResultFacts.v
theories/ValueFacts.v
theories/OptionFacts.v
theories/SameFacts.v
theories/WriteFacts.v
theories/LossyFacts.v
theories/Grammar.v
theories/GrammarFacts.v
theories/PositionalFacts.v
theories/WordValueFacts.v
theories/Kit.v
theories/Samples.v
theories/PropsParse.v
theories/PropsOptions.v
theories/PropsValues.v
theories/SepFacts.v
theories/PropsWords.v
theories/EnumDerive.v
theories/Parts.v
theories/PartsFacts.v
theories/NameFacts.v
theories/TextFacts.v
theories/EnumFacts.v
theories/PackFacts.v
theories/TwinFacts.v
theories/DisplayFacts.v
theories/WellFormed.v
theories/WellFormedFacts.v
theories/Blame.v
theories/BlameFacts.v
theories/CaseNames.v
theories/CaseFacts.v
theories/PropsParts.v
theories/PropsCase.v
theories/Select.v
theories/SelectFacts.v
theories/PropsErrors.v
theories/PropsDecl.v
theories/PropsScope.v
theories/Tests.v
theories/TestsPrograms.v
theories/Page.v
theories/PageFacts.v
theories/PropsHelp.v
theories/Plain.v
theories/PlainFacts.v
theories/MoveFacts.v
theories/PropsPlain.v
theories/Source.v
theories/Written.v
theories/SourceFacts.v
theories/SourceArg.v
theories/SourceField.v
theories/SourceItems.v
theories/SourceWhole.v
theories/SourceSame.v
theories/SourceValue.v
theories/SourceNames.v
theories/Main.v
theories/MainFacts.v
theories/SourceSamples.v
theories/SourceTests.v
theories/UiTests.v
theories/PropsSource.v
theories/PropsMain.v
theories/Wording.v
theories/WordingFacts.v
theories/PropsWording.v
theories/Order.v
theories/OrderFacts.v
theories/Compose.v
theories/ComposeFacts.v
theories/Outcome.v
theories/ShowFacts.v
theories/Extend.v
theories/ExtendFacts.v
theories/Relax.v
theories/RelaxFacts.v
theories/KeepFacts.v
theories/Spread.v
theories/SpreadFacts.v
theories/NoHelp.v
theories/NoHelpFacts.v
theories/PropsNoHelp.v
theories/PropsOrder.v
theories/PropsCompose.v
theories/PropsExtend.v
theories/PropsRelax.v
theories/PropsSpread.v
theories/Unsaid.v
theories/UnsaidFacts.v
theories/Preset.v
theories/PresetFacts.v
theories/PropsPreset.v
theories/Rename.v
theories/RenameFacts.v
theories/PropsRename.v
theories/Usage.v
theories/UsageFacts.v
theories/PropsUsage.v
theories/PropsUnsaid.v
theories/Meaning.v
theories/MeaningFacts.v
theories/PropsMeaning.v
theories/CleanFacts.v
theories/PropsClean.v
theories/DropFacts.v
theories/PropsDrop.v
theories/PropsChange.v
theories/Described.v
theories/DescribedFacts.v
theories/Entry.v
theories/EntryFacts.v
theories/RulesFacts.v
theories/PropsRules.v
theories/GatherFacts.v
theories/PropsGather.v
