-Q theories Verif

theories/Assumptions.v
theories/M_AddFonts.v
theories/M_Alias.v
theories/M_AllTags.v
theories/M_AsICU.v
theories/M_AsSimple.v
theories/M_AutoNames.v
theories/M_BreakText.v
theories/M_CharClasses.v
theories/M_ClashComments.v
theories/M_CldrComments.v
theories/M_Collation.v
theories/M_Coverage.v
theories/M_CoverageData.v
theories/M_Difflib.v
theories/M_Drafts.v
theories/M_Dtd.v
theories/M_ExemplarIO.v
theories/M_Exemplars.v
theories/M_Files.v
theories/M_FirstOp.v
theories/M_FixRun.v
theories/M_FixSldr.v
theories/M_FlatColl.v
theories/M_Flatten.v
theories/M_FlattenAll.v
theories/M_FontRules.v
theories/M_HackAttribs.v
theories/M_Hunspell.v
theories/M_Iana.v
theories/M_IanaTags.v
theories/M_IcuPretty.v
theories/M_Import.v
theories/M_IterDict.v
theories/M_IterParse.v
theories/M_KbdTest.v
theories/M_Keyboard.v
theories/M_Keymans.v
theories/M_LangTags.v
theories/M_LdmlBase.v
theories/M_Likely.v
theories/M_Merge.v
theories/M_Merge3.v
theories/M_MergeScript.v
theories/M_Minimise.v
theories/M_Multigraphs.v
theories/M_Normalise.v
theories/M_NormalizeAll.v
theories/M_Parents.v
theories/M_Paths.v
theories/M_Publish.v
theories/M_Serialize.v
theories/M_Sheet.v
theories/M_SheetMain.v
theories/M_SheetProc.v
theories/M_Simple.v
theories/M_Tailor.v
theories/M_TailorQ.v
theories/M_Template.v
theories/M_TmplFun.v
theories/M_TreeBuilder.v
theories/M_UnicodeSets.v
theories/M_WriteDrafts.v
theories/M_Writer.v
theories/M_XPath.v
theories/M_ZoneTab.v
theories/P_AsICU.v
theories/P_CollEsc.v
theories/P_Collation.v
theories/P_Collation2.v
theories/P_LangTags.v
theories/P_Serialize.v
theories/P_Simple.v
theories/P_Simple2.v
theories/P_Tailor.v
theories/P_UnicodeSets.v
theories/P_UnicodeSets2.v
theories/P_UsEscapes.v
theories/Py.v
theories/PyFacts.v
theories/S_Xml.v
theories/T_AddFonts.v
theories/T_AddNode.v
theories/T_Alias.v
theories/T_AllTags.v
theories/T_AsICU.v
theories/T_AsICU2.v
theories/T_AsSimple.v
theories/T_AutoNames.v
theories/T_BreakText.v
theories/T_CharClasses.v
theories/T_ClashComments.v
theories/T_CldrComments.v
theories/T_CollEscape.v
theories/T_Collation.v
theories/T_Collation2.v
theories/T_Coverage.v
theories/T_CoverageData.v
theories/T_Difference.v
theories/T_Difflib.v
theories/T_Drafts.v
theories/T_Dtd.v
theories/T_Ensure.v
theories/T_ExemplarIO.v
theories/T_Exemplars.v
theories/T_Exemplars2.v
theories/T_Exemplars3.v
theories/T_Files.v
theories/T_FirstOp.v
theories/T_FixRun.v
theories/T_FixSldr.v
theories/T_FlatColl.v
theories/T_Flatten.v
theories/T_FlattenAll.v
theories/T_FlattenGroups.v
theories/T_FontRules.v
theories/T_Fonts.v
theories/T_HackAttribs.v
theories/T_Hunspell.v
theories/T_Iana.v
theories/T_IanaTags.v
theories/T_IcuPretty.v
theories/T_Import.v
theories/T_IterDict.v
theories/T_IterParse.v
theories/T_IterTree.v
theories/T_KbdTest.v
theories/T_KeyOmit.v
theories/T_KeyText.v
theories/T_Keyboard.v
theories/T_Keyboard2.v
theories/T_Keyboard3.v
theories/T_Keymans.v
theories/T_LangTags.v
theories/T_LangTags2.v
theories/T_LangTags3.v
theories/T_LdmlBase.v
theories/T_LdmlHash.v
theories/T_Likely.v
theories/T_Merge3.v
theories/T_Merge4.v
theories/T_MergeScript.v
theories/T_Minimise.v
theories/T_Multigraphs.v
theories/T_Multigraphs2.v
theories/T_NormOrder.v
theories/T_Normalise.v
theories/T_NormalizeAll.v
theories/T_Overlay.v
theories/T_Parents.v
theories/T_PathText.v
theories/T_Paths.v
theories/T_Promote.v
theories/T_Publish.v
theories/T_Reader.v
theories/T_Reload.v
theories/T_Reorder.v
theories/T_Serialize.v
theories/T_Sheet.v
theories/T_SheetMain.v
theories/T_SheetProc.v
theories/T_Simple.v
theories/T_Simple2.v
theories/T_Tailor.v
theories/T_Tailor2.v
theories/T_Tailor3.v
theories/T_Tailor4.v
theories/T_Tailor5.v
theories/T_Template.v
theories/T_TmplFun.v
theories/T_TreeBuilder.v
theories/T_UnicodeSets.v
theories/T_UsEscapes.v
theories/T_UsOperators.v
theories/T_WriteDrafts.v
theories/T_WriteDrafts2.v
theories/T_Writer.v
theories/T_XPath.v
theories/T_ZoneTab.v
