-Q theories Verif

theories/PyStr.v
theories/PyStrFacts.v
theories/Html.v
theories/HtmlSpec.v
theories/HtmlFacts.v
theories/HtmlProofs.v
theories/PropHtml.v
theories/NoteSpec.v
theories/NoteProofs.v
theories/NoteRender.v
theories/NoteMarkup.v
theories/PropNote.v
theories/CustomProofs.v
theories/PropCustom.v
theories/Indent.v
theories/IndentSpec.v
theories/IndentFacts.v
theories/IndentProofs.v
theories/PropIndent.v
theories/Preprocess.v
theories/PreprocessSpec.v
theories/PreprocessFacts.v
theories/PreprocessProofs.v
theories/PropPreprocess.v
theories/Builtins.v
theories/BuiltinsSpec.v
theories/BuiltinsFacts.v
theories/BuiltinsProofs.v
theories/PropBuiltins.v
theories/Paths.v
theories/PathsSpec.v
theories/PathsFacts.v
theories/PathsProofs.v
theories/PropPaths.v
theories/PyDict.v
theories/Structs.v
theories/StructsSpec.v
theories/StructsFacts.v
theories/StructsProofs.v
theories/PropStructs.v
theories/Value.v
theories/Dom.v
theories/DomSpec.v
theories/DomFacts.v
theories/RenderFacts.v
theories/MarkupFacts.v
theories/DomProofs.v
theories/PropDom.v
theories/RenderProofs.v
theories/PropRender.v
theories/Ast.v
theories/Machine.v
theories/Eval.v
theories/Translate.v
theories/Analyse.v
theories/Ref.v
theories/AstInd.v
theories/MachineFacts.v
theories/BlockFacts.v
theories/FuelFacts.v
theories/BlockSpec.v
theories/ControlFacts.v
theories/Samples.v
theories/BlocksProofs.v
theories/PropBlocks.v
theories/ExprSpec.v
theories/ExprFacts.v
theories/BindFacts.v
theories/ExprProofs.v
theories/PropExpr.v
theories/CallProofs.v
theories/PropCall.v
theories/ScopeSpec.v
theories/FrameFacts.v
theories/ScopeFacts.v
theories/NamesFacts.v
theories/LocalFacts.v
theories/ShareFacts.v
theories/ScopeProofs.v
theories/PropScope.v
theories/Runtime.v
theories/RuntimeSpec.v
theories/RuntimeFacts.v
theories/ContextFacts.v
theories/ExportFacts.v
theories/ImportFacts.v
theories/RuntimeSamples.v
theories/RuntimeProofs.v
theories/PyModuleFacts.v
theories/PropRuntime.v
theories/Peg.v
theories/Grammar.v
theories/PegFacts.v
theories/Syntax.v
theories/GrammarFacts.v
theories/PegSpec.v
theories/PegSemFacts.v
theories/SyntaxSpec.v
theories/ParseTools.v
theories/LocateFacts.v
theories/ParseFacts.v
theories/SyntaxSamples.v
theories/ParseProofs.v
theories/PropParse.v
theories/ConfRef.v
theories/ConfBlocks.v
theories/ConfScripts.v
theories/ConfDocs.v
theories/ParseRun.v
theories/PageSpec.v
theories/PageFlat.v
theories/PageParse.v
theories/PageRender.v
theories/PageRun.v
theories/PageTree.v
theories/PageDoc.v
theories/HtmlTags.v
theories/PageSamples.v
theories/PageFacts.v
theories/LayoutProofs.v
theories/PropPage.v
theories/DedentFacts.v
theories/PropLayout.v
theories/OperSpec.v
theories/OperParse.v
theories/OperProofs.v
theories/PropOper.v
theories/EscSpec.v
theories/EscProofs.v
theories/PropEsc.v
theories/TmplSpec.v
theories/TmplFlat.v
theories/TmplLines.v
theories/TmplParse.v
theories/TmplExpr.v
theories/TmplLayout.v
theories/TmplRender.v
theories/TmplTree.v
theories/TmplTag.v
theories/TmplScope.v
theories/TmplRun.v
theories/TmplBind.v
theories/TmplDef.v
theories/TmplImport.v
theories/TmplDoc.v
theories/BookSpec.v
theories/LoadSpec.v
theories/LoadFacts.v
theories/LoadProofs.v
theories/PropLoad.v
theories/OnceSpec.v
theories/OnceFacts.v
theories/OnceSamples.v
theories/PropOnce.v
theories/TmplBook.v
theories/TmplReadSpec.v
theories/TmplRead.v
theories/TmplNotes.v
theories/TmplCheck.v
theories/TmplSamples.v
theories/TmplProofs.v
theories/BookProofs.v
theories/PropBook.v
theories/MoreSpec.v
theories/MoreFacts.v
theories/MoreProofs.v
theories/OrderFacts.v
theories/OrderProofs.v
theories/PropMore.v
theories/MoveSpec.v
theories/MoveFacts.v
theories/MoveProofs.v
theories/PropMove.v
theories/RenameSpec.v
theories/RenameFacts.v
theories/RenameProofs.v
theories/PropRename.v
theories/InlineSpec.v
theories/InlineFacts.v
theories/InlineProofs.v
theories/PropInline.v
theories/VarSpec.v
theories/VarFacts.v
theories/VarProofs.v
theories/PropVar.v
theories/PropTmpl.v
theories/Errors.v
theories/ErrorsSpec.v
theories/ErrorsFacts.v
theories/BalanceFacts.v
theories/ErrorsProofs.v
theories/PropErrors.v
theories/Django.v
theories/DjangoSpec.v
theories/DjangoProofs.v
theories/PropDjango.v
