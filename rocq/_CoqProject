-Q theories Verif
theories/Base.v
theories/Nom.v
theories/Regex.v
theories/Ast.v
theories/Spec.v
theories/Good.v
theories/Helpers.v
theories/Types.v
theories/Expr.v
theories/Stmt.v
theories/Tests.v
theories/Lexers.v
theories/Total.v
theories/Layout.v
theories/Seqs.v
theories/Grammar.v
theories/Follow.v
theories/Sound.v
theories/SoundE.v
theories/SoundS.v
theories/LexProps.v
theories/Heads.v
theories/Rules.v
theories/Render.v
theories/Language.v
theories/CompleteT.v
theories/CompleteE.v
theories/CompleteX.v
theories/CompleteS.v
theories/Front.v
theories/Wf.v
theories/Printer.v
theories/Round.v
theories/Chains.v
theories/Exact.v
theories/Limits.v
theories/Occurs.v
theories/Utf8.v
theories/Fail.v
theories/Errors.v
theories/Cli.v
theories/CliProps.v
theories/Properties.v
theories/Properties2.v
theories/Properties3.v
theories/Properties4.v
theories/Trail.v
theories/Properties5.v
theories/Trace.v
theories/TraceProps.v
theories/Blowup.v
theories/Output.v
theories/Properties6.v
theories/Size.v
theories/Joins.v
theories/Nest.v
theories/Properties7.v
theories/Show.v
theories/ShowProps.v
theories/Properties8.v
theories/Cost.v
theories/Depth.v
theories/Properties9.v
theories/Tree.v
theories/Properties10.v
theories/Foreign.v
theories/Properties11.v
theories/Keywords.v
theories/Properties12.v
theories/Decls.v
theories/Properties13.v
theories/Brackets.v
theories/TypesExact.v
theories/Solution.v
theories/Unique.v
theories/Properties14.v
theories/Indent.v
theories/Reindent.v
theories/Properties15.v
theories/Properties16.v
theories/BlowupLet.v
theories/Cut.v
theories/CutS.v
theories/CutFile.v
theories/Properties17.v
theories/TwoRuns.v
theories/Names.v
theories/Rename.v
theories/RenameSim.v
theories/RenameAll.v
theories/Properties18.v
theories/Poly.v
theories/Properties19.v
theories/Whole.v
theories/Steps.v
theories/Indep.v
theories/IndepAll.v
theories/IndepTop.v
theories/WholeCheck.v
theories/Properties20.v
theories/CommentSpec.v
theories/Recomment.v
theories/RecommentCheck.v
theories/Properties21.v
theories/LayoutSpec.v
theories/Relayout.v
theories/RelayoutCheck.v
theories/Properties22.v
theories/Local.v
theories/Properties23.v
theories/LiteralSpec.v
theories/Literals.v
theories/LiteralsAll.v
theories/LiteralCheck.v
theories/Properties24.v
theories/Annot.v
theories/Properties25.v
theories/Properties26.v
theories/Inside.v
theories/InsideAll.v
theories/InsideCheck.v
theories/Flat.v
theories/Properties27.v
theories/Properties28.v
theories/Alone.v
theories/AloneAll.v
theories/Properties29.v
theories/Phrases.v
theories/Properties30.v
theories/Properties31.v
theories/Properties32.v
theories/Properties33.v
theories/Order.v
theories/Properties34.v
theories/Leaves.v
theories/Args.v
theories/Properties35.v
theories/Words.v
theories/Properties36.v
theories/Pairs.v
theories/Properties37.v
theories/Touch.v
theories/Properties38.v
theories/Column.v
theories/Properties39.v
theories/Unfinished.v
theories/Properties40.v
theories/Crlf.v
theories/Properties41.v
theories/Params.v
theories/Clean.v
theories/Tabs.v
theories/Properties42.v
theories/Finish.v
theories/Properties43.v
theories/Properties44.v
theories/Properties45.v
