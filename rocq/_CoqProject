-Q theories Verif
theories/Base.v
theories/Prim.v
theories/ArrayRepr.v
theories/Repr.v
theories/Syntax.v
theories/Derive.v
theories/EnumSet.v
theories/IterMethods.v
theories/Macros.v
theories/MacroRules.v
theories/Fmt.v
theories/Serde.v
theories/Impls.v
theories/BaseFacts.v
theories/LimbFacts.v
theories/ReprLaws.v
theories/PrimFacts.v
theories/ArrayFacts.v
theories/Spec.v
theories/ApiSpec.v
theories/MacroRulesSpec.v
theories/ExtraSpec.v
theories/StorageSpec.v
theories/DeriveFacts.v
theories/TyFacts.v
theories/SetFacts.v
theories/IterFacts.v
theories/ConvFacts.v
theories/MacroFacts.v
theories/MacroRulesFacts.v
theories/FmtFacts.v
theories/SerdeFacts.v
theories/ReachFacts.v
theories/SetClaims.v
theories/AlgebraClaims.v
theories/IterClaims.v
theories/ConvClaims.v
theories/DeriveClaims.v
theories/MiscClaims.v
theories/SerdeClaims.v
theories/RulesClaims.v
theories/ExtraClaims.v
theories/EvolveClaims.v
theories/MoreClaims.v
theories/ImplClaims.v
theories/StorageClaims.v
theories/LawfulClaims.v
theories/ListStorage.v
theories/LawClaims.v
theories/IterMethodClaims.v
theories/ElementClaims.v
theories/TransferClaims.v
theories/HistorySpec.v
theories/History.v
theories/HistoryFacts.v
theories/HistoryClaims.v
theories/Examples.v
theories/HistoryExamples.v
theories/ExtraExamples.v
theories/Messages.v
theories/Tests.v
theories/DocTests.v
theories/BuildTests.v
theories/LimitClaims.v
theories/Refutations.v
theories/Bincode.v
theories/Json.v
theories/JsonSpec.v
theories/JsonFacts.v
theories/JsonReadFacts.v
theories/JsonClaims.v
theories/BincodeClaims.v
theories/Attrs.v
theories/AttrsSpec.v
theories/AttrsFacts.v
theories/AttrsClaims.v
theories/AttrsExamples.v
theories/WireSpec.v
theories/BincodeFacts.v
theories/BincodeReadFacts.v
theories/WireClaims.v
theories/CmpMethods.v
theories/OrderClaims.v
theories/PropWire.v
theories/PropSet.v
theories/PropIter.v
theories/PropConv.v
theories/PropMisc.v
theories/PropDerive.v
theories/PropSerde.v
theories/PropHistory.v
theories/PropExtra.v
theories/PropStorage.v
theories/PropLaws.v
theories/PropAttrs.v
theories/EndClaims.v
theories/EndExamples.v
theories/PropEnd.v
theories/MultiSpec.v
theories/Multi.v
theories/MultiClaims.v
theories/CrateName.v
theories/CrateNameClaims.v
theories/Literal.v
theories/LiteralSpec.v
theories/LiteralClaims.v
theories/LiteralExamples.v
theories/PropLiteral.v
theories/Names.v
theories/NamesSpec.v
theories/NamesFacts.v
theories/NamesClaims.v
theories/NamesExamples.v
theories/PropNames.v
theories/OptionSpec.v
theories/OptionClaims.v
theories/OptionExamples.v
theories/PropOption.v
theories/Whole.v
theories/WholeSpec.v
theories/WholeClaims.v
theories/WholeExamples.v
theories/PropWhole.v
theories/Expansion.v
theories/ExpansionSpec.v
theories/ExpansionClaims.v
theories/ExpansionExamples.v
theories/PropExpansion.v
theories/Shape.v
theories/ShapeSpec.v
theories/ShapeClaims.v
theories/PropShape.v
theories/MessageSpec.v
theories/MessageClaims.v
theories/PropMessage.v
theories/CostSpec.v
theories/CostClaims.v
theories/PropCost.v
theories/Features.v
theories/FeatureClaims.v
theories/PropFeature.v
