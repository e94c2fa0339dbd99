-Q theories Verif
theories/AstM.v
theories/AstParse.v
theories/AstProofs.v
theories/AstSetup.v
theories/AstShared.v
theories/AstSpec.v
theories/AstText.v
theories/AstTextProofs.v
theories/AstTextSpec.v
theories/Base.v
theories/BaseLemmas.v
theories/BlobM.v
theories/BlobProofs.v
theories/BlobSafe.v
theories/BlobSpec.v
theories/Bounds.v
theories/Choice.v
theories/Conform.v
theories/Conform_ast.v
theories/Conform_core.v
theories/Conform_error.v
theories/Conform_extensions.v
theories/Conform_packrat.v
theories/Conform_semantic.v
theories/Conform_unicode.v
theories/Ctx.v
theories/Cut.v
theories/DicDen.v
theories/Engine.v
theories/EngineFacts.v
theories/EngineLemmas.v
theories/EngineSpec.v
theories/ErrLog.v
theories/Escape.v
theories/EscapeProofs.v
theories/EscapeSpec.v
theories/EventSpec.v
theories/Events.v
theories/Expected.v
theories/FirstAnn.v
theories/FirstCheck.v
theories/FirstProofs.v
theories/FirstSem.v
theories/FirstSetM.v
theories/FirstSetup.v
theories/FirstSpec.v
theories/FirstTop.v
theories/Frame.v
theories/Good.v
theories/GrammarCond.v
theories/IdsFacts.v
theories/Indep.v
theories/IndepSpec.v
theories/Keyword.v
theories/KeywordSpec.v
theories/LineInfo.v
theories/LineProofs.v
theories/LineSpec.v
theories/LoadCheck.v
theories/LoadLR.v
theories/LoadLoop.v
theories/LoadM.v
theories/LoadMain.v
theories/LoadPeg.v
theories/LoadRefs.v
theories/LoadSpec.v
theories/LoadTop.v
theories/LoadWf.v
theories/Loc.v
theories/LrRef.v
theories/LrSpec.v
theories/LrWf.v
theories/MacroRef.v
theories/MacroSpec.v
theories/MarkTop.v
theories/MetaChars.v
theories/MetaDef.v
theories/MetaDies.v
theories/MetaExpr.v
theories/MetaExprs.v
theories/MetaHead.v
theories/MetaInstr.v
theories/MetaJudge.v
theories/MetaLex.v
theories/MetaLits.v
theories/MetaM.v
theories/MetaRun.v
theories/MetaSource.v
theories/MetaTerm.v
theories/MetaTerms.v
theories/MetaText.v
theories/Mono.v
theories/NotationSpec.v
theories/ObjM.v
theories/ObjProofs.v
theories/ObjSpec.v
theories/Ope.v
theories/Own.v
theories/PackratCacheM.v
theories/PackratCacheProofs.v
theories/PackratFilter.v
theories/PegDen.v
theories/PegEngine.v
theories/PegFacts.v
theories/PegRef.v
theories/PegSpec.v
theories/PegWord.v
theories/PrecCond.v
theories/PrecM.v
theories/PrecSpec.v
theories/PrecTree.v
theories/ProfileM.v
theories/ProfileProofs.v
theories/ProfileSpec.v
theories/PropAst.v
theories/PropAstText.v
theories/PropBlob.v
theories/PropCache.v
theories/PropDic.v
theories/PropEngine.v
theories/PropFirst.v
theories/PropGrammarMark.v
theories/PropGrammarText.v
theories/PropIndep.v
theories/PropLoad.v
theories/PropMacro.v
theories/PropMark.v
theories/PropMemo.v
theories/PropMeta.v
theories/PropObj.v
theories/PropPeg.v
theories/PropPrec.v
theories/PropProfile.v
theories/PropRead.v
theories/PropRec.v
theories/PropReport.v
theories/PropSlots.v
theories/PropTerm.v
theories/PropText.v
theories/PropTrace.v
theories/PropTree.v
theories/PropTreeAst.v
theories/PropTreeLoad.v
theories/PropUtf8.v
theories/RangeProofs.v
theories/RangeSpec.v
theories/ReadSpec.v
theories/RefExt.v
theories/RefMark.v
theories/RefMono.v
theories/RefSem.v
theories/RefStrip.v
theories/RefWord.v
theories/Refine.v
theories/RefineMain.v
theories/RefineOps.v
theories/RefinePrec.v
theories/RefineRule.v
theories/ReportFacts.v
theories/ReportSpec.v
theories/Run.v
theories/Samples.v
theories/Scope.v
theories/Session.v
theories/SessionM.v
theories/Sim.v
theories/SimTop.v
theories/SpanRun.v
theories/TagProofs.v
theories/TextPeg.v
theories/TextPegProofs.v
theories/Top.v
theories/TopFacts.v
theories/TopRef.v
theories/TraceM.v
theories/TraceProofs.v
theories/TraceSpec.v
theories/TreeDet.v
theories/TreeRef.v
theories/TreeSpec.v
theories/TreeTop.v
theories/TrieM.v
theories/TrieProofs.v
theories/TrieSpec.v
theories/Utf8.v
theories/Utf8Proofs.v
theories/Utf8Spec.v
