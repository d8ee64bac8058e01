-Q theories Verif
theories/Base.v
theories/Char.v
theories/Spec.v
theories/RustStd.v
theories/ModelError.v
theories/Model.v
theories/TextOps.v
theories/ListFacts.v
theories/Utf8Facts.v
theories/CoreFacts.v
theories/MethodFacts.v
theories/IterSpec.v
theories/IterFacts.v
theories/Utf16Facts.v
theories/RustFmt.v
theories/RustFmtBeside.v
theories/SpecFmt.v
theories/FmtFacts.v
theories/ModelImpl.v
theories/ModelDrain.v
theories/ModelCache.v
theories/ModelIntegration.v
theories/Layout.v
theories/OrderFacts.v
theories/ImplFacts.v
theories/DrainFacts.v
theories/SpecOps.v
theories/ModelOps.v
theories/OpsFacts.v
theories/Obs.v
theories/ClaimsEdit.v
theories/ClaimsIter.v
theories/ClaimsTrait.v
theories/RustIter.v
theories/RustOrd.v
theories/ClaimsDrainIter.v
theories/ClaimsOps.v
theories/ClaimsLaws.v
theories/ClaimsRoutes.v
theories/ModelArgs.v
theories/ClaimsArgs.v
theories/ClaimsOrd.v
theories/ClaimsAlgebra.v
theories/ClaimsTests.v
theories/ModelCacheOps.v
theories/ObsCache.v
theories/ClaimsFmt.v
theories/ClaimsCache.v
theories/StringSpec.v
theories/TestSuite.v
theories/ClaimsString.v
theories/Cases.v
theories/SpecFit.v
theories/ClaimsFit.v
theories/RustJson.v
theories/SpecJson.v
theories/ClaimsJson.v
theories/ClaimsPairs.v
theories/SpecProg.v
theories/ModelProg.v
theories/ObsProg.v
theories/ClaimsProg.v
theories/ModelLogs.v
theories/ObsLogs.v
theories/ObsLogLines.v
theories/ObsLogWhy.v
theories/ObsLogStory.v
theories/ModelLogsRest.v
theories/CasesLogs.v
theories/ClaimsLogs.v
theories/LogLines.v
theories/LogWhy.v
theories/LogStory.v
theories/ClaimsLogLines.v
theories/ClaimsLogRest.v
theories/ClaimsLogWhy.v
theories/ClaimsLogStory.v
theories/ModelLogsProg.v
theories/ObsLogProg.v
theories/ClaimsLogProg.v
theories/ObsLogProgLines.v
theories/ClaimsLogProgLines.v
theories/ClaimsLogProgStory.v
theories/ClaimsLogProgState.v
theories/ClaimsLogArgs.v
theories/RustMap.v
theories/SpecMap.v
theories/ObsMap.v
theories/ClaimsMap.v
theories/RustConv.v
theories/BenchSuite.v
theories/ClaimsConv.v
theories/ClaimsRefuted.v
theories/Borrows.v
theories/ModelBorrows.v
theories/ObsBorrows.v
theories/BorrowFacts.v
theories/BorrowRuns.v
theories/ModelBorrowOps.v
theories/ModelBorrowMake.v
theories/BorrowOps.v
theories/BorrowMake.v
theories/ClaimsBorrows.v
theories/ClaimsBorrowOps.v
theories/ClaimsBorrowMake.v
theories/ModelBorrowRead.v
theories/ClaimsBorrowRead.v
theories/StdExamples.v
theories/CasesBorrows.v
theories/DocExamples.v
theories/PropState.v
theories/PropEdit.v
theories/PropIter.v
theories/PropTrait.v
theories/PropLaws.v
theories/PropCache.v
theories/PropRoutes.v
theories/PropAlgebra.v
theories/PropTests.v
theories/PropBorrows.v
theories/PropRefuted.v
theories/PropJson.v
theories/PropFit.v
theories/PropPairs.v
theories/PropProg.v
theories/PropLogs.v
theories/PropLogLines.v
theories/PropMap.v
theories/PropConv.v
theories/ModelLogPrint.v
theories/ObsLogText.v
theories/LogText.v
theories/ClaimsLogText.v
theories/CasesLogText.v
theories/PropLogText.v
theories/PropLogWhy.v
theories/PropLogStory.v
theories/PropLogProg.v
theories/PropLogProgLines.v
