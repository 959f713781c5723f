-Q theories Verif
theories/GoBase.v
theories/QuoteModel.v
theories/SpecLex.v
theories/SpecIdent.v
theories/GoBaseFacts.v
theories/QuoteFacts.v
theories/QuotePf.v
theories/PropertiesQuote.v
theories/SprintModel.v
theories/TokenModel.v
theories/EffectModel.v
theories/RenderModel.v
theories/NodeInd.v
theories/SpecSim.v
theories/RenderRel.v
theories/RenderInst.v
theories/BuildModel.v
theories/SpecNames.v
theories/SpecSprint.v
theories/SpecSprintf.v
theories/Utf8Facts.v
theories/SprintFacts.v
theories/SprintfFacts.v
theories/SprintfFail.v
theories/SprintfSafety.v
theories/SprintPf.v
theories/PropertiesSprint.v
theories/ExecFacts.v
theories/BindFacts.v
theories/BindPf.v
theories/SpecFormat.v
theories/FormatFacts.v
theories/PropertiesBind.v
theories/PropertiesFormat.v
theories/FieldFacts.v
theories/SpecBool.v
theories/BoolModel.v
theories/BoolFacts.v
theories/SpecText.v
theories/PredPf.v
theories/PropertiesPred.v
theories/SpecClauses.v
theories/ClauseFacts.v
theories/ClausePf.v
theories/GatePf.v
theories/PropertiesClauses.v
theories/SpecQuery.v
theories/QueryPf.v
theories/PropertiesQuery.v
theories/FetchModel.v
theories/SpecFetch.v
theories/FetchPf.v
theories/PropertiesFetch.v
theories/SpecToken.v
theories/TokenFacts.v
theories/PropertiesToken.v
theories/NameModel.v
theories/SpecName.v
theories/PropertiesName.v
theories/CacheModel.v
theories/SpecCache.v
theories/CacheFacts.v
theories/CacheFnFacts.v
theories/PropertiesCache.v
theories/UpsertModel.v
theories/SpecUpsert.v
theories/UpsertPf.v
theories/PropertiesUpsert.v
theories/DdlModel.v
theories/MigrateModel.v
theories/SpecMigrate.v
theories/MigrateFacts.v
theories/MigrateDb.v
theories/MigrateRun.v
theories/MigratePf.v
theories/SpecExec.v
theories/MigrateExec.v
theories/MigrateCheck.v
theories/SpecColumn.v
theories/ColumnPf.v
theories/PropertiesMigrate.v
theories/PropertiesColumn.v
theories/BuilderModel.v
theories/SpecBuilder.v
theories/BuilderPf.v
theories/PropertiesBuilder.v
theories/SpecSql.v
theories/SqlFacts.v
theories/SpecDdl.v
theories/SpecDrop.v
theories/DdlToks.v
theories/DdlRead.v
theories/DdlConstraint.v
theories/DdlIndex.v
theories/DdlTable.v
theories/DdlAlter.v
theories/DdlSupported.v
theories/DdlDrop.v
theories/PropertiesDdl.v
theories/LoadModel.v
theories/SpecLoad.v
theories/LoadFacts.v
theories/SpecT.v
theories/LoadPf.v
theories/LoadColumn.v
theories/LoadTable.v
theories/LoadMark.v
theories/LoadDdl.v
theories/LoadDefault.v
theories/PropertiesLoad.v
theories/TrimPf.v
theories/TriggerModel.v
theories/SpecTrigger.v
theories/TriggerPf.v
theories/FunctionPf.v
theories/TriggerStore.v
theories/PropertiesTrigger.v
theories/ViewModel.v
theories/SpecView.v
theories/ViewPf.v
theories/PropertiesView.v
theories/DbModel.v
theories/SpecDb.v
theories/SpecDeclare.v
theories/DbPf.v
theories/DbRows.v
theories/DbRead.v
theories/DbCatalog.v
theories/DbLoad.v
theories/PropertiesDb.v
theories/IntroModel.v
theories/SpecIntro.v
theories/IntroPf.v
theories/PropertiesIntro.v
theories/SpecAuto.v
theories/LoadGood.v
theories/AutoModel.v
theories/AutoPf.v
theories/PropertiesAuto.v
theories/SpecParts.v
theories/PartsPf.v
theories/PropertiesParts.v
theories/ScriptText.v
theories/TemplateModel.v
theories/SpecScript.v
theories/ScriptLex.v
theories/ScriptPf.v
theories/ScriptPf2.v
theories/PropertiesScript.v
theories/SpecColumns.v
theories/PropertiesColumns.v
theories/SpecLife.v
theories/LifeModel.v
theories/LifePf.v
theories/PropertiesLife.v
theories/ExprModel.v
theories/SpecExpr.v
theories/PropertiesExpr.v
theories/FieldModel.v
theories/SpecField.v
theories/FieldPf.v
theories/PropertiesField.v
theories/ReflectModel.v
theories/SpecReflect.v
theories/PropertiesReflect.v
theories/LogModel.v
theories/SpecLog.v
theories/PropertiesLog.v
theories/RowModel.v
theories/SpecRow.v
theories/PropertiesRow.v
theories/ChainModel.v
theories/SpecChain.v
theories/PropertiesChain.v
theories/PoolModel.v
theories/SpecPool.v
theories/PoolFacts.v
theories/PoolHold.v
theories/PoolCalls.v
theories/SpecPoolCalls.v
theories/PoolPf.v
theories/PoolFetchPf.v
theories/PropertiesPool.v
theories/SharedModel.v
theories/SpecShared.v
theories/PropertiesShared.v
theories/SpecTouch.v
theories/PropertiesTouch.v
theories/InlineModel.v
theories/RenameModel.v
theories/SpecRename.v
theories/RenamePf.v
theories/PropertiesRename.v
theories/SpecInline.v
theories/InlinePf.v
theories/PropertiesInline.v
theories/SpecServer.v
theories/ServerFacts.v
theories/ServerText.v
theories/ServerStep.v
theories/ServerForm.v
theories/ServerOk.v
theories/ServerRun.v
theories/ServerCheck.v
theories/ServerWrite.v
theories/PropertiesServer.v
theories/SpecAutoServer.v
theories/PropertiesAutoServer.v
theories/SpecReadSql.v
theories/ReadToks.v
theories/ReadParts.v
theories/ReadSqlPf.v
theories/ReadExpr.v
theories/ReadInsert.v
theories/PropertiesReadSql.v
theories/PropertiesReadInsert.v
theories/ReadMore.v
theories/PropertiesReadMore.v
theories/SpecPlain.v
theories/PlainPf.v
theories/PropertiesPlain.v
theories/PropertiesEnd.v
theories/SpecGrow.v
theories/LoadGrow.v
theories/GrowExact.v
theories/PropertiesGrow.v
