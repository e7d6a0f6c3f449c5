-Q theories Verif
theories/Num.v
theories/Maq.v
theories/Maq_spec.v
theories/Maq_search_proofs.v
theories/Maq_search_proofs2.v
theories/Maq_loop_proofs.v
theories/Maq_proofs.v
theories/ER.v
theories/ER_proofs.v
theories/Maq_ER_spec.v
theories/Maq_ER_proofs.v
theories/Maq_ER_proofs2.v
theories/Maq_ER_proofs3.v
theories/Maq_extreme_proofs.v
theories/Stats_conc.v
theories/Stats_conc_proofs.v
theories/Maq_witness.v
theories/Maq_claims_proofs.v
theories/Maq_props.v
theories/Cache.v
theories/Cache_proofs.v
theories/Cache_proofs2.v
theories/Cache_proofs3.v
theories/Cache_proofs4.v
theories/Cache_proofs5.v
theories/CVal.v
theories/CVal_proofs.v
theories/Cache_proofs6.v
theories/CVal_proofs2.v
theories/CVal_proofs3.v
theories/Registry.v
theories/Registry_spec.v
theories/Registry_proofs.v
theories/Cache_spec.v
theories/Cache_claims_proofs.v
theories/Cache_props.v
theories/Replaceable.v
theories/Replaceable_spec.v
theories/Replaceable_proofs.v
theories/Replaceable_claims_proofs.v
theories/Replaceable_props.v
theories/Graph.v
theories/Graph_spec.v
theories/Graph_proofs.v
theories/Graph_proofs2.v
theories/Graph_proofs3.v
theories/Graph_proofs4.v
theories/Graph_proofs5.v
theories/Graph_proofs6.v
theories/Graph_proofs7.v
theories/Graph_claims_proofs.v
theories/Graph_props.v
theories/Script.v
theories/Script_spec.v
theories/Script_proofs.v
theories/Script_proofs2.v
theories/Script_props.v
theories/ERmath.v
theories/Lognormal.v
theories/Lognormal_spec.v
theories/Lognormal_proofs.v
theories/Lognormal_proofs2.v
theories/Gauss_proofs.v
theories/Lognormal_props.v
theories/Damage.v
theories/Damage_spec.v
theories/Damage_proofs.v
theories/Damage_proofs2.v
theories/Damage_props.v
theories/Functions.v
theories/Functions_spec.v
theories/Functions_proofs.v
theories/Functions_proofs2.v
theories/Functions_props.v
theories/Group.v
theories/Group_spec.v
theories/Group_proofs.v
theories/Group_proofs2.v
theories/Group_proofs3.v
theories/Group_props.v
theories/Ranges.v
theories/Ranges_spec.v
theories/Ranges_proofs.v
theories/Ranges_props.v
theories/Context.v
theories/Context_spec.v
theories/Context_proofs.v
theories/Context_props.v
theories/Interp.v
theories/Interp_spec.v
theories/Interp_proofs.v
theories/Interp_proofs2.v
theories/Interp_proofs3.v
theories/Interp_proofs4.v
theories/Interp_proofs5.v
theories/Interp_props.v
theories/Paths.v
theories/Paths_spec.v
theories/Paths_proofs.v
theories/Paths_props.v
theories/Recorder.v
theories/Recorder_spec.v
theories/Recorder_proofs.v
theories/Recorder_proofs2.v
theories/Recorder_proofs3.v
theories/Recorder_proofs4.v
theories/Recorder_proofs5.v
theories/Recorder_props.v
theories/Analyze.v
theories/Analyze_spec.v
theories/Analyze_proofs.v
theories/Analyze_proofs2.v
theories/Analyze_props.v
theories/Log.v
theories/Log_spec.v
theories/Log_proofs.v
theories/Log_props.v
theories/Target.v
theories/Target_spec.v
theories/Target_proofs.v
theories/Target_props.v
theories/Import.v
theories/Import_spec.v
theories/Import_proofs.v
theories/Import_props.v
theories/Literal.v
theories/Literal_spec.v
theories/Literal_proofs.v
theories/Literal_props.v
theories/Define.v
theories/Define_spec.v
theories/Define_proofs.v
theories/Define_props.v
theories/Lexer.v
theories/Lexer_spec.v
theories/Lexer_proofs.v
theories/Lexer_proofs2.v
theories/Lexer_proofs3.v
theories/Lexer_proofs4.v
theories/Lexer_proofs5.v
theories/Lexer_proofs6.v
theories/Lexer_props.v
theories/Annual.v
theories/Annual_spec.v
theories/Annual_proofs.v
theories/Annual_props.v
theories/Maq_accuracy_proofs.v
theories/Maq_accuracy_props.v
theories/Program.v
theories/Program_spec.v
theories/Program_proofs.v
theories/Program_proofs2.v
theories/Program_proofs3.v
theories/Program_props.v
theories/Nested.v
theories/Nested_spec.v
theories/Nested_proofs.v
theories/Nested_proofs2.v
theories/Nested_proofs3.v
theories/Nested_proofs4.v
theories/Nested_proofs5.v
theories/Nested_proofs6.v
theories/Nested_props.v
theories/Bulk.v
theories/Bulk_spec.v
theories/Bulk_proofs.v
theories/Bulk_props.v
theories/Double_spec.v
theories/Double_proofs.v
theories/Deriv.v
theories/Deriv_spec.v
theories/Deriv_proofs.v
theories/Deriv_proofs2.v
theories/Deriv_proofs3.v
theories/Deriv_props.v
theories/Double_proofs2.v
theories/Maq_double_spec.v
theories/Maq_double_proofs.v
theories/Maq_double_proofs2.v
theories/Maq_double_props.v
theories/Maq_double_proofs3.v
theories/Wrapper.v
theories/Wrapper_spec.v
theories/Wrapper_proofs.v
theories/Wrapper_props.v
theories/Describe.v
theories/Describe_spec.v
theories/Describe_proofs.v
theories/Describe_props.v
theories/Maq_return_proofs.v
theories/Maq_return_proofs2.v
theories/Maq_return_props.v
theories/Names.v
theories/Names_spec.v
theories/Names_proofs.v
theories/Names_proofs2.v
theories/Names_props.v
theories/Names_props2.v
theories/Methods.v
theories/Methods_spec.v
theories/Methods_proofs.v
theories/Methods_props.v
theories/Report.v
theories/Report_spec.v
theories/Report_proofs.v
theories/Report_proofs2.v
theories/Report_proofs3.v
theories/Report_props.v
theories/Totals.v
theories/Totals_spec.v
theories/Totals_proofs.v
theories/Totals_proofs2.v
theories/Totals_proofs3.v
theories/Totals_proofs4.v
theories/Totals_proofs5.v
theories/Totals_proofs6.v
theories/Totals_proofs7.v
theories/Totals_props.v
theories/Regress.v
theories/Regress_spec.v
theories/Regress_proofs.v
theories/Regress_props.v
theories/Spread.v
theories/Spread_spec.v
theories/Spread_proofs.v
theories/Spread_proofs2.v
theories/Spread_proofs3.v
theories/Spread_proofs4.v
theories/Spread_proofs5.v
theories/Spread_proofs6.v
theories/Spread_props.v
theories/Shown.v
theories/Shown_spec.v
theories/Shown_proofs.v
theories/Shown_proofs2.v
theories/Shown_proofs3.v
theories/Shown_props.v
theories/Tabled.v
theories/Tabled_spec.v
theories/Tabled_proofs.v
theories/Tabled_proofs2.v
theories/Tabled_proofs3.v
theories/Tabled_props.v
theories/Hyperbola.v
theories/Hyperbola_spec.v
theories/Hyperbola_proofs.v
theories/Hyperbola_proofs2.v
theories/Hyperbola_proofs3.v
theories/Hyperbola_props.v
theories/Discount.v
theories/Discount_spec.v
theories/Discount_proofs.v
theories/Discount_props.v
theories/Loglog.v
theories/Loglog_spec.v
theories/Loglog_proofs.v
theories/Loglog_proofs2.v
theories/Loglog_proofs3.v
theories/Loglog_proofs4.v
theories/Loglog_props.v
theories/Power.v
theories/Power_spec.v
theories/Power_proofs.v
theories/Power_props.v
theories/Probfn.v
theories/Probfn_spec.v
theories/Probfn_proofs.v
theories/Probfn_props.v
theories/Make.v
theories/Make_spec.v
theories/Make_proofs.v
theories/Make_proofs2.v
theories/Make_props.v
theories/Span.v
theories/Span_spec.v
theories/Span_proofs.v
theories/Span_proofs2.v
theories/Span_proofs3.v
theories/Span_proofs4.v
theories/Span_props.v
