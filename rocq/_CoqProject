-Q theories Verif
theories/Base.v
theories/Peg.v
theories/Grammar.v
theories/Node.v
theories/Vocab.v
theories/Tree.v
theories/Parse.v
theories/PegProofs.v
theories/MachineProofs.v
theories/GrammarProofs.v
theories/Syntax.v
theories/Blank.v
theories/Lex.v
theories/Ops.v
theories/Complete.v
theories/CompleteMain.v
theories/Sound.v
theories/ParseProofs.v
theories/Unique.v
theories/PegSpec.v
theories/PegSpecProofs.v
theories/StepSpec.v
theories/Steps.v
theories/Steps2.v
theories/Lin1.v
theories/Lin2.v
theories/Lin3.v
theories/Lin4.v
theories/Lin5.v
theories/Lin6.v
theories/Lin7.v
theories/Lin8.v
theories/Tokens.v
theories/StepsMain.v
theories/ParserFacts.v
theories/ParserFacts2.v
theories/NormProofs.v
theories/ParserMain.v
theories/TreeFacts.v
theories/PropsParse.v
theories/Build.v
theories/Visitor.v
theories/BuildProofs.v
theories/VisitorProofs.v
theories/NodeFacts.v
theories/PropsNode.v
theories/SafeInd.v
theories/Gorm.v
theories/GormSpec.v
theories/GormProofs.v
theories/GormFacts.v
theories/GormFacts2.v
theories/GormFacts3.v
theories/GormSample.v
theories/GormFacts4.v
theories/PropsGorm.v
theories/EntQL.v
theories/EntQLSpec.v
theories/EntQLProofs.v
theories/PropsEntQL.v
theories/NameFacts.v
theories/EntSQL.v
theories/EntSQLSpec.v
theories/EntSQLProofs.v
theories/EntSQLFacts.v
theories/EntSQLFacts2.v
theories/EntSQLSample.v
theories/EntSQLFacts3.v
theories/PropsEntSQL.v
theories/SizeSpec.v
theories/Size.v
theories/SizeFacts.v
theories/PropsSize.v
theories/QuoteSpec.v
theories/QuoteProofs.v
theories/AstSpec.v
theories/Ast.v
theories/AstProofs.v
theories/PropsAst.v
theories/CaseSpec.v
theories/CaseFacts.v
theories/PropsCase.v
theories/Heap.v
theories/HeapSpec.v
theories/HeapProofs.v
theories/PropsHeap.v
theories/Utf8.v
theories/Utf8Spec.v
theories/Utf8Proofs.v
theories/PropsUtf8.v
theories/TrailSpec.v
theories/TrailProofs.v
theories/Report.v
theories/ReportSpec.v
theories/ReportProofs.v
theories/PropsReport.v
theories/ShowSpec.v
theories/ShowProofs.v
theories/BlameSpec.v
theories/BlameProofs.v
theories/Message.v
theories/MessageSpec.v
theories/MessageProofs.v
theories/PropsBlame.v
theories/Session.v
theories/SessionSpec.v
theories/SessionProofs.v
theories/PropsSession.v
theories/SqlSpec.v
theories/SqlDialect.v
theories/SqlProofs.v
theories/SqlProofs2.v
theories/SqlGorm.v
theories/PropsSql.v
theories/SqlProofs3.v
theories/SqlEnt.v
theories/PropsSqlEnt.v
theories/SqlSpecQL.v
theories/SqlAll.v
theories/PropsSqlAll.v
theories/SqlSpecDb.v
theories/SqlLoose.v
theories/SqlDbFacts.v
theories/PropsSqlDb.v
theories/SqlSpecEntDb.v
theories/SqlEntLoose.v
theories/SqlEntDbFacts.v
theories/PropsSqlEntDb.v
theories/SqlScope.v
theories/PropsSqlScope.v
theories/GormSQL.v
theories/SqlSpecWhere.v
theories/SqlWhere.v
theories/SqlWhere2.v
theories/SqlWhere3.v
theories/PropsSqlWhere.v
theories/EntWhere.v
theories/SqlSpecEntWhere.v
theories/SqlEntWhere.v
theories/PropsSqlEntWhere.v
theories/ParserApi.v
theories/ApiSpec.v
theories/ApiProofs.v
theories/PropsApi.v
theories/LitSpec.v
theories/LitProofs.v
theories/LitFacts.v
theories/PropsLit.v
theories/ImageSpec.v
theories/ImageProofs.v
theories/ImageFacts.v
theories/PropsImage.v
theories/TemplateSpec.v
theories/Template.v
theories/TemplateFacts.v
theories/PropsTemplate.v
theories/Reader.v
theories/InsertSpec.v
theories/Insert.v
theories/InsertFacts.v
theories/InsertSample.v
theories/PropsInsert.v
theories/SqlSpecQL2.v
theories/SqlQL.v
theories/PropsSqlQL.v
theories/SqlEntScope.v
theories/PropsSqlEntScope.v
theories/SchemaSpec.v
theories/SchemaFacts.v
theories/PropsSchema.v
theories/EdgeSpec.v
theories/EdgeFacts.v
theories/PropsEdge.v
theories/SameSpec.v
theories/SameFacts.v
theories/PropsSame.v
theories/BracketSpec.v
theories/BracketFacts.v
theories/PropsBracket.v
theories/Listing.v
theories/ListingSpec.v
theories/ListingFacts.v
theories/PropsListing.v
theories/NestSpec.v
theories/NestFacts.v
theories/NestFacts2.v
theories/NestFacts3.v
theories/NestFacts4.v
theories/NestFacts5.v
theories/PropsNest.v
theories/ScopeSpec.v
theories/ScopeFacts.v
theories/PropsScope.v
theories/Builder.v
theories/BuilderSpec.v
theories/BuilderFacts.v
theories/PropsBuilder.v
theories/PathSpec.v
theories/PathFacts.v
theories/PathUse.v
theories/PropsPath.v
theories/PathSqlSpec.v
theories/PathSql.v
theories/PropsPathSql.v
theories/RepoTests.v
theories/GoStmt.v
theories/GoRules.v
theories/GoCheck.v
theories/GoProofs.v
theories/GoParse.v
theories/GoMain.v
theories/PegText.v
theories/PegRead.v
theories/PegFileSpec.v
theories/PegFile.v
theories/PropsGo.v
theories/Gox.v
theories/GoxStep.v
theories/GoxMini.v
theories/GoxMiniLib.v
theories/GoxTreeProofs.v
theories/GoxParse.v
theories/GoxParseProofs.v
theories/PropsGox.v
theories/GoxNodeProofs.v
theories/GoxStringProofs.v
theories/GoxBuildProofs.v
theories/GoxJoinProofs.v
theories/PropsGox2.v
theories/GoxGorm.v
theories/GoxGormLib.v
theories/GoxGormProofs.v
theories/PropsGox3.v
theories/GoxEntQL.v
theories/GoxEntQLLib.v
theories/GoxEntQLProofs.v
theories/GoxEntQLBuild.v
theories/PropsGox4.v
