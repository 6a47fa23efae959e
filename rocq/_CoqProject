-Q theories Verif
theories/Py.v
theories/Uni.v
theories/Tagset.v
theories/Dawg.v
theories/Dict.v
theories/Utils.v
theories/Shapes.v
theories/Tokenizers.v
theories/Units.v
theories/Analyzer.v
theories/ConfigRu.v
theories/ConfigUk.v
theories/Compile.v
theories/Preprocess.v
theories/Spec.v
theories/L_Base.v
theories/L_Run.v
theories/L_Agree.v
theories/L_Made.v
theories/L_Words.v
theories/L_Config.v
theories/Ex.v
theories/L_Ex.v
theories/L_Parse.v
theories/L_Total.v
theories/L_Tagset.v
theories/L_Para.v
theories/L_Groups.v
theories/L_Prob.v
theories/L_Units.v
theories/L_ExU.v
theories/P_Parse.v
theories/P_Units.v
theories/L_Tags2.v
theories/L_ExT.v
theories/P_Tagset.v
theories/L_Lexeme.v
theories/L_LexParse.v
theories/L_ExL.v
theories/P_Lexeme.v
theories/Spec2.v
theories/L_Inflect.v
theories/P_Inflect.v
theories/L_Text.v
theories/P_Text.v
theories/L_ByUnit.v
theories/L_Suffix.v
theories/P_ByUnit.v
theories/L_Shapes.v
theories/L_ShapeU.v
theories/P_Shapes.v
theories/Spec3.v
theories/L_Compile.v
theories/L_Compile2.v
theories/L_Compile3.v
theories/L_Compile4.v
theories/L_Join.v
theories/L_Pre.v
theories/L_EndToEnd.v
theories/L_ExC.v
theories/P_Compile.v
theories/Json.v
theories/Storage.v
theories/Spec4.v
theories/L_Json.v
theories/L_Json2.v
theories/L_Utf8.v
theories/L_Storage.v
theories/L_Storage2.v
theories/L_Storage3.v
theories/L_ExS.v
theories/P_Storage.v
theories/Probability.v
theories/Spec5.v
theories/Spec6.v
theories/L_Probability.v
theories/L_Source.v
theories/L_Prob2.v
theories/L_ExP.v
theories/P_Prob.v
theories/XmlParse.v
theories/Spec7.v
theories/L_Xml.v
theories/L_Xml2.v
theories/L_ExX.v
theories/P_Xml.v
theories/Convert.v
theories/Spec8.v
theories/L_Convert.v
theories/L_Convert2.v
theories/L_ExV.v
theories/P_Convert.v
theories/Create.v
theories/Spec9.v
theories/L_Create.v
theories/L_Create2.v
theories/L_ExW.v
theories/P_Create.v
theories/Cli.v
theories/Spec10.v
theories/L_Cli.v
theories/L_Cli2.v
theories/P_Cli.v
theories/Threads.v
theories/Spec11.v
theories/L_Threads.v
theories/L_Threads2.v
theories/L_ThreadParse.v
theories/L_ThreadLex.v
theories/L_Reload.v
theories/L_Threads3.v
theories/L_Threads4.v
theories/L_Threads5.v
theories/P_Threads.v
theories/Spec12.v
theories/L_Round.v
theories/Spec13.v
theories/L_Score.v
theories/P_Score.v
theories/Spec14.v
theories/L_Case.v
theories/P_Case.v
theories/Spec15.v
theories/L_Known.v
theories/P_Known.v
theories/AddProb.v
theories/Spec16.v
theories/L_AddProb.v
theories/L_AddProb2.v
theories/L_ExA.v
theories/P_AddProb.v
theories/Spec17.v
theories/L_Spell.v
theories/P_Spell.v
theories/L_Whole.v
theories/P_Whole.v
theories/CyrTags.v
theories/Spec18.v
theories/L_Reinit.v
theories/L_Reinit2.v
theories/P_Reinit.v
theories/L_CyrTags.v
theories/L_CyrTags2.v
theories/L_CyrTags3.v
theories/P_CyrTags.v
theories/Spec19.v
theories/L_Compose.v
theories/L_Compose2.v
theories/L_Compose3.v
theories/P_Compose.v
theories/Spec20.v
theories/L_Reach.v
theories/P_Reach.v
theories/Trace.v
theories/Spec21.v
theories/L_Trace.v
theories/L_Trace2.v
theories/L_Trace3.v
theories/L_Trace4.v
theories/L_Trace5.v
theories/P_Trace.v
theories/Rounding.v
theories/Spec22.v
theories/L_Rounding.v
theories/L_Rounding2.v
theories/L_Rounding3.v
theories/L_Rounding4.v
theories/L_Rounding5.v
theories/L_Rounding6.v
theories/L_Rounding7.v
theories/L_Rounding8.v
theories/L_ExR.v
theories/P_Rounding.v
theories/Spec23.v
theories/L_Meta.v
theories/P_Meta.v
theories/Spec24.v
theories/L_Comb.v
theories/P_Comb.v
theories/Objects.v
theories/Spec25.v
theories/L_Objects.v
theories/L_Objects2.v
theories/L_Objects3.v
theories/P_Objects.v
theories/Spec26.v
theories/L_Says.v
theories/L_ExSoap.v
theories/P_Source.v
theories/Spec27.v
theories/L_WholeLex.v
theories/P_WholeLex.v
theories/Spec28.v
theories/L_Forms.v
theories/P_Forms.v
theories/Spec29.v
theories/L_Depth.v
theories/L_Depth2.v
theories/P_Depth.v
theories/Spec30.v
theories/L_Order.v
theories/L_Order2.v
theories/P_Order.v
theories/Doubles.v
theories/Spec31.v
theories/L_Dbl.v
theories/L_Dbl2.v
theories/L_Dbl3.v
theories/L_Dbl4.v
theories/L_ExD.v
theories/Counting.v
theories/Spec32.v
theories/L_Count.v
theories/L_ExN.v
theories/P_Count.v
theories/Spec33.v
theories/L_Yo.v
theories/P_Yo.v
theories/Spec34.v
theories/L_Adverb.v
theories/P_Adverb.v
theories/Spec35.v
theories/L_New.v
theories/P_New.v
theories/Spec36.v
theories/L_Stages.v
theories/P_Stages.v
theories/Attempt.v
theories/Spec37.v
theories/L_Attempt.v
theories/L_Attempt2.v
theories/P_Attempt.v
theories/Spec38.v
theories/L_Every.v
theories/P_Every.v
theories/Spec39.v
theories/L_Renumber.v
theories/L_Permute.v
theories/L_Permute2.v
theories/L_Permute3.v
theories/L_Permute4.v
theories/P_Permute.v
theories/L_Grow.v
theories/P_Grow.v
theories/L_Options.v
theories/P_Options.v
theories/Spec40.v
theories/L_Layout.v
theories/P_Layout.v
theories/Spec41.v
theories/L_Normal.v
theories/P_Normal.v
theories/Spec42.v
theories/L_Graded.v
theories/P_Graded.v
theories/L_Estimate.v
theories/P_Estimate.v
theories/Spec43.v
theories/L_Twice.v
theories/L_Twice2.v
theories/L_Twice3.v
theories/P_Twice.v
theories/Spec44.v
theories/L_Twice4.v
theories/P_Origin.v
theories/Spec45.v
theories/L_Members.v
theories/L_Members2.v
theories/P_Members.v
theories/Spec46.v
theories/L_Describes.v
theories/L_Scoreless.v
theories/P_Describes.v
