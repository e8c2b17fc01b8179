-Q theories Verif
theories/M_Base.v
theories/L_Util.v
theories/M_BitIO.v
theories/S_Bits.v
theories/L_BitIO.v
theories/M_Lz77.v
theories/M_Compress.v
theories/S_Lz.v
theories/L_Compress.v
theories/L_Lz77.v
theories/L_CompressTop.v
theories/L_OldFormat.v
theories/L_OldTotal.v
theories/L_Decode.v
theories/L_LzTop.v
theories/P_Compress.v
theories/M_Charset.v
theories/L_Charset.v
theories/M_Memory.v
theories/S_Memory.v
theories/L_Memory.v
theories/P_Memory.v
theories/M_Rom.v
theories/S_Rom.v
theories/L_Rom.v
theories/L_Image.v
theories/P_Rom.v
theories/M_Fold.v
theories/S_Fold.v
theories/L_Fold.v
theories/L_FoldExpr.v
theories/L_FoldDet.v
theories/P_Fold.v
theories/M_Num.v
theories/S_Num.v
theories/L_Num.v
theories/L_NumFmt.v
theories/P_Num.v
theories/M_Token.v
theories/M_Str.v
theories/S_Str.v
theories/S_Token.v
theories/L_Token.v
theories/L_TokenSeq.v
theories/L_Str.v
theories/L_TokenTotal.v
theories/P_Token.v
theories/M_Text.v
theories/S_Text.v
theories/L_Text.v
theories/L_TextRead.v
theories/L_TextFile.v
theories/P_Text.v
theories/M_Url.v
theories/S_Url.v
theories/L_Url.v
theories/P_Url.v
theories/M_Pre.v
theories/S_Pre.v
theories/L_Pre.v
theories/L_PreLoop.v
theories/L_PreMore.v
theories/P_Pre.v
theories/M_Rename.v
theories/S_Rename.v
theories/L_Ident.v
theories/L_Scope.v
theories/L_Rewalk.v
theories/L_Rename.v
theories/L_RenameTop.v
theories/L_Rules.v
theories/P_Rename.v
theories/M_Files.v
theories/S_Files.v
theories/L_Files.v
theories/L_Order.v
theories/P_Files.v
theories/M_Lz4.v
theories/S_Lz4.v
theories/L_Lz4.v
theories/P_Lz4.v
theories/M_Pxu.v
theories/L_Pxu.v
theories/P_Pxu.v
theories/M_Zbytes.v
theories/P_Zbytes.v
theories/M_Cart64.v
theories/S_Cart64.v
theories/L_Cart64.v
theories/L_Image64.v
theories/P_Cart64.v
theories/M_P64.v
theories/S_P64.v
theories/L_P64.v
theories/P_P64.v
theories/M_Expr.v
theories/S_Expr.v
theories/L_Expr.v
theories/L_ExprSound.v
theories/L_ExprPrint.v
theories/L_ExprTok.v
theories/L_Strip.v
theories/P_Expr.v
theories/M_Pod.v
theories/L_Luastr.v
theories/S_Pod.v
theories/L_PodText.v
theories/L_Pod.v
theories/L_PodFmt.v
theories/L_PodBytes.v
theories/L_PodPack.v
theories/L_PodMeta.v
theories/P_Pod.v
theories/M_Export.v
theories/S_Export.v
theories/L_Export.v
theories/L_ExportJs.v
theories/L_ExportJs2.v
theories/L_ExportPod.v
theories/L_ExportPod2.v
theories/L_ExportPod3.v
theories/L_ExportRom.v
theories/P_Export.v
theories/M_Split.v
theories/S_Split.v
theories/L_Split.v
theories/L_Split2.v
theories/L_Split3.v
theories/L_Split4.v
theories/P_Split.v
theories/M_Merge.v
theories/S_Merge.v
theories/L_Merge.v
theories/L_Merge2.v
theories/L_Merge3.v
theories/L_Merge4.v
theories/P_Merge.v
theories/M_Stmt.v
theories/S_Stmt.v
theories/L_Stmt.v
theories/L_StmtEq.v
theories/L_StmtRead.v
theories/L_StmtRead2.v
theories/L_StmtSound.v
theories/L_StmtSound2.v
theories/P_Stmt.v
theories/M_Emit.v
theories/S_Emit.v
theories/L_Emit.v
theories/L_Emit2.v
theories/L_Emit3.v
theories/L_Emit4.v
theories/L_Emit5.v
theories/L_Emit6.v
theories/L_Emit7.v
theories/L_Emit8.v
theories/P_Emit.v
theories/M_Tidy.v
theories/S_Tidy.v
theories/L_Tidy.v
theories/L_Tidy2.v
theories/L_Tidy3.v
theories/L_Tidy4.v
theories/P_Tidy.v
theories/M_Unmin.v
theories/S_Unmin.v
theories/L_Unmin.v
theories/L_Unmin2.v
theories/L_Unmin3.v
theories/L_Unmin4.v
theories/L_Unmin5.v
theories/L_Unmin6.v
theories/L_Unmin7.v
theories/L_Unmin8.v
theories/P_Unmin.v
theories/M_Short.v
theories/S_Short.v
theories/L_Short.v
theories/L_Short2.v
theories/L_Short3.v
theories/L_Short4.v
theories/L_Short5.v
theories/P_Short.v
theories/M_Count.v
theories/S_Count.v
theories/L_Count.v
theories/L_Count2.v
theories/P_Count.v
theories/S_Run.v
theories/S_Toy.v
theories/S_Same.v
theories/M_Branch.v
theories/S_Branch.v
theories/L_Sim.v
theories/L_Branch.v
theories/L_Branch2.v
theories/L_Same.v
theories/P_Branch.v
theories/P_Same.v
theories/S_Alpha.v
theories/L_Alpha.v
theories/M_Names.v
theories/L_Link.v
theories/L_Link2.v
theories/P_Alpha.v
theories/M_Const.v
theories/S_Const.v
theories/S_Calc.v
theories/L_Const.v
theories/P_Const.v
theories/M_Lint.v
theories/S_Lint.v
theories/S_Other.v
theories/L_Lint.v
theories/L_Lint2.v
theories/L_Lint3.v
theories/L_Lint4.v
theories/L_Lint5.v
theories/L_Lint6.v
theories/L_Lint7.v
theories/P_Lint.v
theories/M_Lines.v
theories/L_Lines.v
theories/L_Like.v
theories/L_Like2.v
theories/L_Good.v
theories/M_Pipe.v
theories/S_Pipe.v
theories/L_Pipe.v
theories/P_Pipe.v
theories/M_Fs.v
theories/S_Fs.v
theories/L_Fs.v
theories/L_Fs2.v
theories/P_Fs.v
theories/M_Auto.v
theories/S_Auto.v
theories/L_Auto.v
theories/P_Auto.v
theories/M_Meta.v
theories/S_Meta.v
theories/L_Meta.v
theories/P_Meta.v
theories/S_Gap.v
theories/P_Gap.v
theories/M_Contents.v
theories/P_Contents.v
theories/M_Hints.v
theories/S_Hints.v
theories/L_Hints.v
theories/P_Hints.v
theories/M_HintUse.v
theories/S_HintUse.v
theories/P_HintUse.v
theories/M_Keep.v
theories/S_Keep.v
theories/L_Keep.v
theories/P_Keep.v
theories/M_Orig.v
theories/S_Orig.v
theories/L_Orig.v
theories/P_Orig.v
theories/M_Cli.v
theories/S_Cli.v
theories/P_Cli.v
theories/M_Icns.v
theories/S_Icns.v
theories/P_Icns.v
theories/P_Where.v
theories/M_Zstr.v
theories/S_Zstr.v
theories/P_Zstr.v
