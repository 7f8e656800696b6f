-Q theories Verif
theories/Base.v
theories/C_Arena.v
theories/C_Attributes.v
theories/C_Commands.v
theories/C_CompDb.v
theories/C_Converge.v
theories/C_Deeper.v
theories/C_DepGraph.v
theories/C_Dwyu.v
theories/C_Edits.v
theories/C_Elab.v
theories/C_Extended.v
theories/C_ExtendedFiles.v
theories/C_Faulty.v
theories/C_Followed.v
theories/C_Formats.v
theories/C_Glob.v
theories/C_Grammar.v
theories/C_Headers.v
theories/C_Layout.v
theories/C_Local.v
theories/C_LocalAliases.v
theories/C_Locations.v
theories/C_Main.v
theories/C_Messages.v
theories/C_Moved.v
theories/C_Order.v
theories/C_Packages.v
theories/C_ParseErrors.v
theories/C_Parser.v
theories/C_Part.v
theories/C_Pool.v
theories/C_Print.v
theories/C_Query.v
theories/C_Reads.v
theories/C_Relaid.v
theories/C_Respell.v
theories/C_Roundtrip.v
theories/C_Scanner.v
theories/C_Scripts.v
theories/C_Stats.v
theories/C_System.v
theories/C_Table.v
theories/C_Tidy.v
theories/C_Tokens.v
theories/C_Told.v
theories/C_Total.v
theories/C_Types.v
theories/C_Walk.v
theories/C_Workspace.v
theories/M_Arena.v
theories/M_Ast.v
theories/M_Commands.v
theories/M_CompDb.v
theories/M_DepGraph.v
theories/M_Dwyu.v
theories/M_Edits.v
theories/M_Elab.v
theories/M_Glob.v
theories/M_Headers.v
theories/M_Highlight.v
theories/M_Includes.v
theories/M_Main.v
theories/M_Messages.v
theories/M_ParseErrors.v
theories/M_Parser.v
theories/M_Pool.v
theories/M_Printer.v
theories/M_Project.v
theories/M_Query.v
theories/M_Regex.v
theories/M_Scanner.v
theories/M_Stats.v
theories/M_System.v
theories/M_Table.v
theories/M_Tidy.v
theories/M_Told.v
theories/M_Types.v
theories/M_Walk.v
theories/M_Workspace.v
theories/OMap.v
theories/P_Arena.v
theories/P_Attributes.v
theories/P_Beside.v
theories/P_Commands.v
theories/P_CompDb.v
theories/P_CompDb2.v
theories/P_Converge.v
theories/P_Count.v
theories/P_Deeper.v
theories/P_DepGraph.v
theories/P_Dwyu.v
theories/P_Edits.v
theories/P_Elab.v
theories/P_ErrLocal.v
theories/P_Extended.v
theories/P_ExtendedFiles.v
theories/P_Glob.v
theories/P_GlobFiles.v
theories/P_Grammar.v
theories/P_Headers.v
theories/P_Includes.v
theories/P_Layout.v
theories/P_LayoutDwyu.v
theories/P_LayoutMean.v
theories/P_LayoutParse.v
theories/P_LayoutRules.v
theories/P_LayoutRun.v
theories/P_LayoutSelf.v
theories/P_Lex.v
theories/P_Loaded.v
theories/P_Local.v
theories/P_Locations.v
theories/P_Main.v
theories/P_Messages.v
theories/P_Messages2.v
theories/P_Messages3.v
theories/P_Messages4.v
theories/P_Messages5.v
theories/P_Moved.v
theories/P_MovedRun.v
theories/P_Order.v
theories/P_Packages.v
theories/P_ParseErrors.v
theories/P_Parser.v
theories/P_Part.v
theories/P_Pool.v
theories/P_PoolFile.v
theories/P_Print.v
theories/P_PrintOutput.v
theories/P_Project.v
theories/P_Query.v
theories/P_Reads.v
theories/P_Regex.v
theories/P_Relaid.v
theories/P_Reprint.v
theories/P_Respell.v
theories/P_Respell2.v
theories/P_Respell3.v
theories/P_RespellRun.v
theories/P_Roundtrip.v
theories/P_Run.v
theories/P_Scanner.v
theories/P_Shape.v
theories/P_Stats.v
theories/P_Stats2.v
theories/P_Stats3.v
theories/P_Stats4.v
theories/P_Stats5.v
theories/P_Table.v
theories/P_Tidy.v
theories/P_Tidy2.v
theories/P_Tidy3.v
theories/P_Tidy4.v
theories/P_Tidy5.v
theories/P_Tokens.v
theories/P_Told.v
theories/P_Told2.v
theories/P_Told3.v
theories/P_Told4.v
theories/P_Told5.v
theories/P_Told6.v
theories/P_Told7.v
theories/P_Told8.v
theories/P_Total.v
theories/P_Types.v
theories/P_Viable.v
theories/P_ViableText.v
theories/P_Walk.v
theories/P_WalkPaths.v
theories/P_Workspace.v
theories/S_Arena.v
theories/S_Attributes.v
theories/S_Commands.v
theories/S_CompDb.v
theories/S_Converge.v
theories/S_DepGraph.v
theories/S_Dwyu.v
theories/S_Elab.v
theories/S_Extended.v
theories/S_Glob.v
theories/S_Grammar.v
theories/S_Headers.v
theories/S_Includes.v
theories/S_Labels.v
theories/S_Layout.v
theories/S_Local.v
theories/S_Locations.v
theories/S_Main.v
theories/S_Messages.v
theories/S_Moved.v
theories/S_Order.v
theories/S_Packages.v
theories/S_ParseErrors.v
theories/S_Parser.v
theories/S_Pool.v
theories/S_Print.v
theories/S_Query.v
theories/S_Reads.v
theories/S_Relaid.v
theories/S_Reprint.v
theories/S_Respell.v
theories/S_Roundtrip.v
theories/S_Run.v
theories/S_Scanner.v
theories/S_Shell.v
theories/S_Stats.v
theories/S_Table.v
theories/S_Tidy.v
theories/S_Tokens.v
theories/S_Told.v
theories/S_Total.v
theories/S_Walk.v
theories/S_Workspace.v
theories/T_Arena.v
theories/T_Dwyu.v
theories/T_Edits.v
theories/T_Elab.v
theories/T_Glob.v
theories/T_Headers.v
theories/T_Parser.v
theories/T_Scanner.v
theories/T_Table.v
theories/T_Types.v
theories/T_Walk.v
