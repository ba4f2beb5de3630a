-Q theories Verif
theories/Base.v
theories/BaseFacts.v
theories/Match.v
theories/Spec.v
theories/MatchFacts.v
theories/Coll.v
theories/CollFacts.v
theories/CollQuery.v
theories/CollSem.v
theories/CollSem2.v
theories/SpecColl.v
theories/SpecFiled.v
theories/CollFiled.v
theories/CollFiled2.v
theories/PropsFiled.v
theories/SpecCards.v
theories/CollCards.v
theories/SpecDerived.v
theories/PropsDerived.v
theories/PropsCards.v
theories/PropsExact.v
theories/CollHist.v
theories/CollUniv.v
theories/CollOrder.v
theories/CollMore.v
theories/PropsColl.v
theories/PropsMatch.v
theories/Loose.v
theories/PropsLoose.v
theories/Topo.v
theories/TopoFacts.v
theories/Rules.v
theories/Debug.v
theories/RulesFacts.v
theories/PropsRules.v
theories/PropsDebug.v
theories/PropsFlatten.v
theories/Slices.v
theories/SpecSlices.v
theories/RuleThen.v
theories/Conseq.v
theories/ConseqFacts.v
theories/PropsConseq.v
theories/SpecMix.v
theories/PropsMix.v
theories/SpecRepeat.v
theories/PropsRepeat.v
theories/PropsBorrow.v
theories/PropsConflict.v
theories/SpecAttempts.v
theories/Attempts.v
theories/PropsAttempts.v
theories/PropsAttempts2.v
theories/SpecNest.v
theories/PropsNest.v
theories/Play.v
theories/Twin.v
theories/TwinSwap.v
theories/PropsSeed.v
theories/SpecOnce.v
theories/OnceFacts.v
theories/PropsOnce.v
theories/SpecInside.v
theories/InsideFacts.v
theories/PropsInside.v
theories/PropsDefaults.v
theories/PropsEngine.v
theories/Processors.v
theories/ProcFacts.v
theories/PropsProc.v
theories/PropsRemoved.v
theories/WhenRet.v
theories/PropsWhen.v
theories/Pattern.v
theories/PatternFacts.v
theories/PropsPattern.v
theories/PropsHooks.v
theories/PropsHooks2.v
theories/Chain.v
theories/SpecChain.v
theories/ChainFacts.v
theories/ChainSem.v
theories/PropsChain.v
theories/PropsChain2.v
theories/Typed.v
theories/PropsTyped.v
theories/ToDict.v
theories/PropsToDict.v
theories/PropsToDict2.v
theories/Rebulk.v
theories/RebulkFacts.v
theories/PropsRebulk.v
theories/Introspect.v
theories/PropsIntrospect.v
theories/Builder.v
theories/BuilderFacts.v
theories/PropsBuilder.v
theories/PropsKeys.v
theories/TagHeap.v
theories/PropsTags.v
theories/Sched.v
theories/PropsSched.v
theories/PropsTags2.v
theories/FuncRet.v
theories/PropsFunc.v
theories/Register.v
theories/PropsRegister.v
theories/Abbrev.v
theories/PropsAbbrev.v
theories/Pipeline.v
theories/PropsPipeline.v
theories/Lookup.v
theories/PropsLookup.v
theories/Fluent.v
theories/PropsFluent.v
theories/PropsOptions.v
theories/SliceFacts.v
theories/PropsSlices.v
theories/PropsAborted.v
theories/Edits.v
theories/PropsEdits.v
theories/TopoHeap.v
theories/PropsTopoHeap.v
theories/SpecMoved.v
theories/PropsMoved.v
theories/Assemble.v
theories/PropsAssemble.v
theories/PropsFunction.v
theories/PropsTypedKeys.v
theories/PropsTotal.v
theories/PropsTotalChain.v
theories/PropsTotalBuilt.v
theories/PropsStructure.v
theories/PropsParts.v
theories/Built.v
theories/PropsBuilt.v
theories/Site.v
theories/PropsSite.v
theories/PropsSiteSub.v
theories/PropsTypedSite.v
theories/PropsRelabel.v
theories/PropsRun.v
theories/PropsKeysSub.v
