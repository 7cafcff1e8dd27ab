-Q theories Verif
theories/Base.v
theories/BaseFacts.v
theories/NumFmt.v
theories/Value.v
theories/Regex.v
theories/Backend.v
theories/Eq.v
theories/Render.v
theories/RenderFacts.v
theories/ParseArgs.v
theories/Build.v
theories/Pattern.v
theories/Queries.v
theories/Demo.v
theories/SpecLex.v
theories/SpecRead.v
theories/SpecRef.v
theories/LiteralFacts.v
theories/RefFacts.v
theories/PfLiterals.v
theories/Prop_Values.v
theories/SpecLogic.v
theories/SpecConds.v
theories/SpecRelations.v
theories/BoolFacts.v
theories/PfBool.v
theories/PfRelations.v
theories/Prop_Relations.v
theories/History.v
theories/SpecHistory.v
theories/PfHistories.v
theories/SpecOptions.v
theories/PfOptions.v
theories/SpecVacuous.v
theories/PfVacuous.v
theories/Prop_Histories.v
theories/SpecArgs.v
theories/PfArgs.v
theories/PfDedupe.v
theories/Prop_Args.v
theories/SpecClauses.v
theories/PfClauses.v
theories/PfStatements.v
theories/SpecLists.v
theories/PfLists.v
theories/PfClauseText.v
theories/Prop_Clauses.v
theories/SpecBackends.v
theories/PfUnion.v
theories/PfBackends.v
theories/Prop_Backends.v
theories/SpecEquality.v
theories/PfEquality.v
theories/Prop_Equality.v
theories/SpecErrors.v
theories/PfErrors.v
theories/PfCarry.v
theories/Prop_Errors.v
theories/SpecHas.v
theories/PfPattern.v
theories/PfHas.v
theories/SpecPattern.v
theories/PfWords.v
theories/Prop_Has.v
theories/SpecFunctions.v
theories/PfFunctions.v
theories/Prop_Functions.v
theories/Effects.v
theories/SpecEffects.v
theories/PfEffects.v
theories/PfWatched.v
theories/Prop_Effects.v
theories/Heap.v
theories/SpecHeap.v
theories/PfHeap.v
theories/PfHeapCopy.v
theories/PfHeapAlike.v
theories/PfHeapFrame.v
theories/HeapDemo.v
theories/Prop_Copy.v
theories/SpecWhole.v
theories/PfWhole.v
theories/PfWholeText.v
theories/PfWholeClauses.v
theories/PfWholeQuery.v
theories/PfWholeAll.v
theories/Prop_Whole.v
theories/SpecSql.v
theories/SpecServer.v
theories/PfSql.v
theories/PfSqlParse.v
theories/PfSqlCond.v
theories/PfSqlTree.v
theories/PfSqlClauses.v
theories/PfSqlStmt.v
theories/PfSqlExec.v
theories/PfSqlTotal.v
theories/PfServer.v
theories/Prop_Server.v
theories/SpecNested.v
theories/SpecSays.v
theories/PfNestRead.v
theories/PfNestQuery.v
theories/PfNestText.v
theories/PfNestVals.v
theories/PfNestAll.v
theories/PfNestStmt.v
theories/Prop_Nested.v
theories/SpecAccept.v
theories/PfAccept.v
theories/Prop_Accept.v
theories/SpecProgram.v
theories/PfProgram.v
theories/Prop_Program.v
theories/SpecProgramQ.v
theories/PfProgramQ.v
theories/Prop_ProgramQ.v
theories/Order.v
theories/SpecOrder.v
theories/PfOrder.v
theories/Prop_Order.v
theories/SpecJoin.v
theories/PfJoin.v
theories/Prop_Join.v
theories/SpecUpsert.v
theories/PfUpsert.v
theories/Prop_Upsert.v
theories/SpecGroup.v
theories/PfGroup.v
theories/Prop_Group.v
theories/SpecTails.v
theories/PfTails.v
theories/Prop_Tails.v
theories/SpecFirst.v
theories/PfFirst.v
theories/Prop_First.v
theories/SpecUnion.v
theories/PfUnionRows.v
theories/Prop_UnionRows.v
theories/SpecSame.v
theories/PfSame.v
theories/Prop_Same.v
theories/SpecFails.v
theories/PfFails.v
theories/PfRenders.v
theories/Prop_Fails.v
theories/SpecClient.v
theories/PfClient.v
theories/Prop_Client.v
theories/SpecRaise.v
theories/PfRaise.v
theories/Prop_Raise.v
theories/SpecRerender.v
theories/PfRerender.v
theories/SpecNestRows.v
theories/SpecSub.v
theories/PfSub.v
theories/PfSubRun.v
theories/Prop_Sub.v
theories/Names.v
theories/SpecHandlers.v
theories/PfNames.v
theories/Prop_Handlers.v
theories/HeapBuild.v
theories/PfHeapView.v
theories/HeapShow.v
theories/SpecShare.v
theories/PfShare.v
theories/PfOwn.v
theories/PfParts.v
theories/PfNewItems.v
theories/PfMethods.v
theories/PfLayout.v
theories/PfOrders.v
theories/PfTables.v
theories/PfJoins.v
theories/PfShow.v
theories/PfCells.v
theories/PfConflict.v
theories/PfQueries.v
theories/PfCalls.v
theories/PfReading.v
theories/PfInside.v
theories/PfDictJoin.v
theories/PfNewQuery.v
theories/PfSession.v
theories/PfUse.v
theories/ShareDemo.v
theories/Prop_Share.v
theories/SpecOperands.v
theories/PfOperands.v
theories/Prop_Operands.v
theories/SpecSchedule.v
theories/PfTrace.v
theories/PfSchedule.v
theories/Prop_Schedule.v
theories/PfCopied.v
theories/PfBranch.v
theories/Prop_Branch.v
theories/SpecEntry.v
theories/PfEntry.v
theories/Prop_Entry.v
theories/SpecPrinting.v
theories/PfPrinted.v
theories/PfPrinting.v
theories/Prop_Printing.v
theories/SpecSet.v
theories/PfSet.v
theories/Prop_Set.v
theories/SpecMulti.v
theories/PfMulti.v
theories/Prop_Multi.v
theories/SpecDistinct.v
theories/PfDistinct.v
theories/Prop_Distinct.v
theories/SpecObjects.v
theories/PfObjects.v
theories/Prop_Objects.v
theories/SpecGroupAll.v
theories/SpecHaving.v
theories/PfGroupAll.v
theories/Prop_GroupAll.v
theories/PfHaving.v
theories/Prop_Having.v
theories/PfFraction.v
theories/Prop_Fraction.v
theories/Prop_Pattern.v
theories/SpecUnions.v
theories/PfUnions.v
theories/Prop_Unions.v
theories/SpecUnionAny.v
theories/PfUnionAny.v
theories/Prop_UnionAny.v
theories/Entries.v
theories/SpecModule.v
theories/PfModule.v
theories/PfModuleClient.v
theories/Prop_Module.v
theories/Conformance.v
