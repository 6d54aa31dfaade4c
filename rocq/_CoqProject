-Q theories Verif
theories/Base.v
theories/Ext.v
theories/Types.v
theories/ParseModel.v
theories/OptimizeModel.v
theories/ConvertModel.v
theories/JsonModel.v
theories/HandlerModel.v
theories/SearchModel.v
theories/BootstrapRules.v
theories/LibModel.v
theories/Assets.v
theories/Tests.v
theories/PegSpec.v
theories/DataSpec.v
theories/ApiSpec.v
theories/PrimProofs.v
theories/ExtProofs.v
theories/FuelProofs.v
theories/PegProofs.v
theories/PegComplete.v
theories/PegFacts.v
theories/ParseProofs.v
theories/ParsePublic.v
theories/Examples.v
theories/Properties_parse.v
theories/RuleSpec.v
theories/IdSpec.v
theories/OptSpec.v
theories/RuleProofs.v
theories/LinesProofs.v
theories/IndentProofs.v
theories/SimProofs.v
theories/OptProofs.v
theories/OptProofs2.v
theories/OccursProofs.v
theories/OptSim.v
theories/OptSim2.v
theories/OptPublic.v
theories/Properties_rules.v
theories/Properties_optimize.v
theories/TotalSpec.v
theories/SafeProofs.v
theories/TotalProofs.v
theories/TotalCheck.v
theories/OptTotal.v
theories/DivergeProofs.v
theories/Properties_total.v
theories/SearchSpec.v
theories/SearchProofs.v
theories/Properties_search.v
theories/JsonSpec.v
theories/JsonProofs.v
theories/JsonProofs2.v
theories/JsonProofs3.v
theories/Properties_json.v
theories/ReportSpec.v
theories/ReportProofs.v
theories/Properties_report.v
theories/ConvertSpec.v
theories/ConvertSound.v
theories/ConvertValid.v
theories/ConvertFuel.v
theories/ConvertTotal.v
theories/ConvertNodes.v
theories/WriteSpec.v
theories/WriteProofs.v
theories/WriteProofs2.v
theories/WriteProofs3.v
theories/CursorSpec.v
theories/CursorProofs.v
theories/DataCheck.v
theories/SyntaxSpec.v
theories/SyntaxProofs.v
theories/SyntaxProofs2.v
theories/Properties_convert.v
theories/OriginSpec.v
theories/OriginProofs.v
theories/OriginProofs2.v
theories/Properties_syntax.v
theories/TextSpec.v
theories/TextProofs.v
theories/TextProofs2.v
theories/OnceProofs.v
theories/TextProofs3.v
theories/TextProofs4.v
theories/TextProofs5.v
theories/TextProofs6.v
theories/TextProofs7.v
theories/TextProofs8.v
theories/TextExamples.v
theories/Properties_text.v
theories/RenameSpec.v
theories/RenameProofs.v
theories/RenameProofs2.v
theories/Properties_rename.v
theories/EqModel.v
theories/EqSpec.v
theories/EqProofs.v
theories/LoadModel.v
theories/LoadSpec.v
theories/LoadProofs.v
theories/Properties_load.v
theories/ShiftSpec.v
theories/ShiftProofs.v
theories/Properties_shift.v
theories/LawSpec.v
theories/LawProofs.v
theories/Properties_laws.v
theories/ConvertBare.v
theories/SurfaceSpec.v
theories/TextSame.v
theories/TextInv.v
theories/TextInv2.v
theories/TextInv3.v
theories/SurfaceProofs.v
theories/SurfaceExamples.v
theories/Properties_surface.v
theories/MeaningSpec.v
theories/LostProofs.v
theories/MeaningProofs.v
theories/MeaningExamples.v
theories/Properties_meaning.v
theories/DepthModel.v
theories/DepthProofs.v
theories/CostModel.v
theories/CostProofs.v
theories/CostSpec.v
theories/CostBound.v
theories/CostPublic.v
theories/CommentProofs.v
theories/NestProofs.v
theories/CallSpec.v
theories/CallProofs.v
theories/Properties_cost.v
theories/IoModel.v
theories/IoSpec.v
theories/IoProofs.v
theories/IoUtf8.v
theories/IoPublic.v
theories/WrapProofs.v
theories/Properties_io.v
theories/OldAssets.v
theories/AtEnd.v
theories/BootSpec.v
theories/BootProofs.v
theories/Properties_bootstrap.v
theories/TabPublic.v
theories/Properties_tabs.v
theories/TabSpec.v
theories/TabProofs.v
theories/BlockPublic.v
theories/DeeperProofs.v
theories/ModelFacts.v
theories/StuckSpec.v
theories/StuckProofs.v
theories/StuckPublic.v
theories/Properties_stuck.v
theories/HangSpec.v
theories/HangProofs.v
theories/HangPublic.v
theories/Properties_hang.v
theories/OptCostModel.v
theories/OptCostSpec.v
theories/OptCostProofs.v
theories/OptCostText.v
theories/Properties_optcost.v
theories/TruthSpec.v
theories/TruthProofs.v
theories/Properties_truth.v
theories/UndefSpec.v
theories/UndefProofs.v
theories/UndefPublic.v
theories/Properties_undef.v
theories/Assets10.v
theories/CompatSpec.v
theories/CompatProofs.v
theories/CompatProofs2.v
theories/CompatProofs3.v
theories/CompatProofs4.v
theories/Properties_compat.v
theories/TreeSpec.v
theories/TreeProofs.v
theories/TreeProofs2.v
theories/TreeProofs3.v
theories/TreePublic.v
theories/Properties_tree.v
theories/ShapeSpec.v
theories/ShapeProofs.v
theories/Properties_shape.v
theories/SizeSpec.v
theories/SizeProofs.v
theories/IgnoreSpec.v
theories/IgnoreProofs.v
theories/IgnoreProofs2.v
theories/IgnorePublic.v
theories/Properties_ignore.v
theories/GuardSpec.v
theories/GuardProofs.v
theories/Properties_guard.v
theories/ValidSpec.v
theories/ValidProofs.v
theories/Properties_valid.v
theories/OutlineSpec.v
theories/OutlineProofs.v
theories/OutlinePublic.v
theories/Properties_outline.v
theories/FindSpec.v
theories/FindProofs.v
theories/Properties_find.v
theories/GrammarSpec.v
theories/GrammarProofs.v
theories/GrammarCheck.v
theories/GrammarPublic.v
theories/Properties_grammar.v
theories/LinearSpec.v
theories/LinearProofs.v
theories/LinearPublic.v
theories/Properties_linear.v
theories/FasterProofs.v
theories/FasterPublic.v
theories/Properties_faster.v
theories/ExtendSpec.v
theories/ExtendProofs.v
theories/ExtendPublic.v
theories/Properties_extend.v
theories/ViableSpec.v
theories/ViableProofs.v
theories/ViablePublic.v
theories/Properties_viable.v
theories/ExpectSpec.v
theories/ExpectProofs.v
theories/ExpectPublic.v
theories/Properties_expect.v
theories/PipeProofs.v
theories/PipePublic.v
theories/Properties_pipe.v
theories/ReleaseConvert.v
theories/ReleaseModel.v
theories/ReleaseSpec.v
theories/ReleaseProofs.v
theories/ReleaseFuel.v
theories/ReleaseIds.v
theories/ReleaseSafe.v
theories/ReleasePublic.v
theories/Properties_release.v
theories/BuildSpec.v
theories/BuildProofs.v
theories/Properties_build.v
theories/WhereSpec.v
theories/WhereProofs.v
theories/Properties_where.v
theories/LeftSpec.v
theories/LeftProofs.v
theories/LeftProofs2.v
theories/SizeLeft.v
theories/SizePeak.v
theories/Properties_size.v
theories/Properties_left.v
theories/BreakSpec.v
theories/BreakProofs.v
theories/BreakProofs2.v
theories/BreakProofs3.v
theories/BreakProofs4.v
theories/Properties_break.v
theories/RecodeSpec.v
theories/RecodeProofs.v
theories/RecodeProofs2.v
theories/RecodeExamples.v
theories/Properties_recode.v
theories/KeySpec.v
theories/KeyProofs.v
theories/KeyProofs2.v
theories/KeyProofs3.v
theories/KeyPublic.v
theories/KeyExamples.v
theories/Properties_keys.v
theories/LayoutSpec.v
theories/LayoutProofs.v
theories/LayoutPublic.v
theories/Properties_layout.v
theories/HelloSpec.v
theories/HelloProofs.v
theories/Properties_hello.v
theories/MessageSpec.v
theories/MessageProofs.v
theories/Properties_message.v
theories/DeadSpec.v
theories/DeadProofs.v
theories/Properties_dead.v
theories/OrderSpec.v
theories/OrderProofs.v
theories/Properties_order.v
theories/AheadSpec.v
theories/AheadProofs.v
theories/Properties_ahead.v
theories/PlaceSpec.v
theories/PlaceProofs.v
theories/PlacePublic.v
theories/ExtendPlace.v
theories/Properties_place.v
theories/EditSpec.v
theories/EditProofs.v
theories/Properties_edit.v
theories/ReformatSpec.v
theories/ReformatProofs.v
theories/ReformatPublic.v
theories/Properties_reformat.v
theories/PartSpec.v
theories/PartProofs.v
theories/PartPublic.v
theories/Properties_part.v
theories/ItemsSpec.v
theories/ItemsProofs.v
theories/ItemsPublic.v
theories/Properties_items.v
theories/ExchangeSpec.v
theories/ExchangeProofs.v
theories/Properties_exchange.v
theories/SortSpec.v
theories/SortProofs.v
theories/Properties_sort.v
theories/ChangeSpec.v
theories/ChangeProofs.v
theories/AlterProofs.v
theories/Properties_change.v
