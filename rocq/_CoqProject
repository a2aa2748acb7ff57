-Q theories Verif
theories/Base.v
theories/M_Hash.v
theories/S_Hash.v
theories/P_Hash.v
theories/Properties_Hash.v
theories/M_Quote.v
theories/S_Quote.v
theories/P_Quote.v
theories/Properties_Quote.v
theories/M_Text.v
theories/S_Text.v
theories/P_Text.v
theories/P_Text2.v
theories/P_Text3.v
theories/P_Text4.v
theories/Properties_Text.v
theories/M_Path.v
theories/S_Path.v
theories/P_Path.v
theories/Properties_Path.v
theories/M_StrCache.v
theories/P_StrCache.v
theories/S_StrCache.v
theories/Properties_StrCache.v
theories/M_Var.v
theories/S_Var.v
theories/P_Var.v
theories/Properties_Var.v
theories/M_Expand.v
theories/S_Expand.v
theories/M_FuncTab.v
theories/P_Expand.v
theories/Properties_Expand.v
theories/S_Eval.v
theories/P_Eval.v
theories/Properties_Eval.v
theories/M_Env.v
theories/M_Def.v
theories/S_Def.v
theories/P_Def.v
theories/P_Def2.v
theories/Properties_Def.v
theories/M_Flags.v
theories/S_Flags.v
theories/P_Flags.v
theories/P_Flags2.v
theories/P_Flags3.v
theories/P_Flags4.v
theories/P_Flags5.v
theories/Properties_Flags.v
theories/S_Env.v
theories/P_Env.v
theories/Properties_Env.v
theories/M_Time.v
theories/Properties_Time.v
theories/M_Argv.v
theories/S_Argv.v
theories/Properties_Argv.v
theories/M_Chop.v
theories/S_Chop.v
theories/Properties_Chop.v
theories/M_Cond.v
theories/S_Cond.v
theories/P_Cond.v
theories/Properties_Cond.v
theories/M_Jobs.v
theories/S_Jobs.v
theories/P_Jobs.v
theories/P_JobsRun.v
theories/Properties_Jobs.v
theories/M_Debugger.v
theories/S_Debugger.v
theories/P_Debugger.v
theories/P_Debugger2.v
theories/P_Debugger3.v
theories/Properties_Debugger.v
theories/M_Vpath.v
theories/S_Vpath.v
theories/P_Vpath.v
theories/P_Vpath2.v
theories/Properties_Vpath.v
theories/S_VpathCheck.v
theories/W_Vpath.v
theories/Properties_VpathCheck.v
theories/M_Implicit.v
theories/S_Implicit.v
theories/P_Implicit.v
theories/P_Implicit2.v
theories/P_Implicit3.v
theories/P_Implicit4.v
theories/P_Implicit5.v
theories/P_Implicit6.v
theories/Properties_Implicit.v
theories/M_Auto.v
theories/S_Auto.v
theories/P_Auto.v
theories/P_Auto2.v
theories/Properties_Auto.v
theories/M_Build.v
theories/S_Build.v
theories/P_Notice.v
theories/P_Build.v
theories/P_Made.v
theories/P_Quiet.v
theories/S_BuildExamples.v
theories/P_Question.v
theories/Properties_Build.v
theories/S_BuildCheck.v
theories/W_Random.v
theories/W_BuildCheck.v
theories/Properties_BuildCheck.v
theories/M_Cmd.v
theories/S_Cmd.v
theories/P_Cmd.v
theories/P_CmdSlow.v
theories/Properties_Cmd.v
theories/S_CmdCheck.v
theories/W_Cmd.v
theories/Properties_CmdCheck.v
theories/M_Clean.v
theories/S_Clean.v
theories/P_Clean.v
theories/P_Keep.v
theories/P_Sweep.v
theories/Properties_Clean.v
theories/M_Line.v
theories/S_Line.v
theories/P_Line.v
theories/Properties_Line.v
theories/M_Recipe.v
theories/S_Recipe.v
theories/P_Recipe.v
theories/P_Fold.v
theories/Properties_Recipe.v
theories/M_Json.v
theories/S_Json.v
theories/S_Profile.v
theories/P_Json.v
theories/W_Json.v
theories/Properties_Json.v
theories/M_Seq.v
theories/S_Seq.v
theories/P_Seq.v
theories/Properties_Seq.v
theories/M_Rules.v
theories/S_Rules.v
theories/P_Rules.v
theories/Properties_Rules.v
theories/M_Desc.v
theories/S_Desc.v
theories/P_Desc.v
theories/Properties_Desc.v
theories/M_Delete.v
theories/S_Delete.v
theories/P_Delete.v
theories/Properties_Delete.v
theories/M_RuleLine.v
theories/S_RuleLine.v
theories/P_RuleLine.v
theories/Properties_RuleLine.v
theories/M_Goal.v
theories/S_Goal.v
theories/P_Goal.v
theories/Properties_Goal.v
theories/M_Ar.v
theories/S_Ar.v
theories/W_Ar.v
theories/P_Ar.v
theories/Properties_Ar.v
theories/S_Timely.v
theories/Properties_Timely.v
theories/S_ImplicitCheck.v
theories/P_ImplicitCheck.v
theories/W_Implicit.v
theories/Properties_ImplicitCheck.v
theories/S_Glob.v
theories/P_Glob.v
theories/Properties_Glob.v
theories/S_SeqCheck.v
theories/W_Seq.v
theories/Properties_SeqCheck.v
theories/M_Output.v
theories/S_Output.v
theories/P_Output.v
theories/P_Output2.v
theories/P_Output3.v
theories/P_Output4.v
theories/Properties_Output.v
theories/P_Output5.v
theories/P_Output6.v
theories/S_OutputCheck.v
theories/W_Output.v
theories/Properties_OutputCheck.v
theories/M_Dir.v
theories/S_Dir.v
theories/P_Dir.v
theories/P_Dir2.v
theories/Properties_Dir.v
theories/S_DirCheck.v
theories/W_Dir.v
theories/Properties_DirCheck.v
theories/M_Second.v
theories/S_Second.v
theories/P_Second.v
theories/P_Second2.v
theories/Properties_Second.v
theories/S_SecondCheck.v
theories/W_Second.v
theories/Properties_SecondCheck.v
theories/M_Restart.v
theories/S_Restart.v
theories/P_Restart.v
theories/P_Restart2.v
theories/P_Restart3.v
theories/P_Restart4.v
theories/Properties_Restart.v
theories/M_RestartEnv.v
theories/Properties_RestartEnv.v
theories/S_RestartCheck.v
theories/W_Restart.v
theories/Properties_RestartCheck.v
theories/M_Rename.v
theories/S_Rename.v
theories/P_Rename.v
theories/Properties_Rename.v
theories/S_RenameCheck.v
theories/W_Rename.v
theories/Properties_RenameCheck.v
theories/M_Define.v
theories/S_Define.v
theories/P_Define.v
theories/Properties_Define.v
theories/S_DefineCheck.v
theories/W_Define.v
theories/Properties_DefineCheck.v
theories/M_Mtime.v
theories/S_Mtime.v
theories/P_Mtime.v
theories/Properties_Mtime.v
theories/S_MtimeCheck.v
theories/W_Mtime.v
theories/Properties_MtimeCheck.v
theories/M_Symlink.v
theories/S_Symlink.v
theories/P_Symlink.v
theories/Properties_Symlink.v
theories/S_SymlinkCheck.v
theories/W_Symlink.v
theories/Properties_SymlinkCheck.v
