-Q theories Verif
theories/Base.v
theories/StrLib_Model.v
theories/StrLib_Spec.v
theories/StrLib_Proofs.v
theories/StrLib_Props.v
theories/Estr_Model.v
theories/Estr_Spec.v
theories/Estr_Proofs.v
theories/Estr_Props.v
theories/EsCache_Model.v
theories/EsCache_Proofs.v
theories/EsCache_Props.v
theories/Lex.v
theories/CmdList_Model.v
theories/CmdList_Spec.v
theories/CmdList_Proofs.v
theories/CmdList_Props.v
theories/Pairs_Model.v
theories/Pairs_Proofs.v
theories/Pairs_Props.v
theories/Glob_Model.v
theories/Glob_Spec.v
theories/Glob_Proofs.v
theories/Glob_Props.v
theories/Attr_Model.v
theories/Attr_Spec.v
theories/Attr_Proofs.v
theories/Attr_Props.v
theories/Env_Model.v
theories/Env_Spec.v
theories/Env_Proofs.v
theories/EnvLocal_Proofs.v
theories/EnvStack_Model.v
theories/EnvStack_Spec.v
theories/EnvStack_Proofs.v
theories/Env_Props.v
theories/EnvLocal_Props.v
theories/EnvStack_Props.v
theories/Num_Model.v
theories/Num_Proofs.v
theories/Var_Model.v
theories/Var_Spec.v
theories/Var_Proofs.v
theories/Var_Props.v
theories/Path_Model.v
theories/Path_Spec.v
theories/Path_Proofs.v
theories/Path_Props.v
theories/LocalVar_Model.v
theories/LocalVar_Spec.v
theories/LocalVar_Proofs.v
theories/LocalVar_Props.v
theories/Expand_Model.v
theories/Expand_Spec.v
theories/Expand_Proofs.v
theories/Expand_Props.v
theories/Args_Model.v
theories/Args_Spec.v
theories/Args_Proofs.v
theories/Args_Props.v
theories/Block_Model.v
theories/Block_Spec.v
theories/Block_Proofs.v
theories/Block_Props.v
theories/Parse_Model.v
theories/Parse_Spec.v
theories/Parse_Proofs.v
theories/Parse_Props.v
theories/Redir_Spec.v
theories/Redir_Proofs.v
theories/Redir_Props.v
theories/If_Model.v
theories/If_Spec.v
theories/If_Proofs.v
theories/IfExp_Proofs.v
theories/If_Props.v
theories/Stream_Model.v
theories/ForTok_Model.v
theories/ForTok_Spec.v
theories/ForTok_Proofs.v
theories/ForTok_Props.v
theories/Body_Model.v
theories/For_Model.v
theories/Run_Model.v
theories/Stream_Spec.v
theories/Stream_Proofs.v
theories/Run_Spec.v
theories/Run_Proofs.v
theories/Run_Props.v
theories/RunBlock_Spec.v
theories/RunBlock_Proofs.v
theories/RunIf_Proofs.v
theories/RunBlock_Props.v
theories/For_Spec.v
theories/For_Proofs.v
theories/For_Props.v
theories/Script_Model.v
theories/Script_Spec.v
theories/Script_Proofs.v
theories/Script_Props.v
theories/Params_Model.v
theories/Params_Spec.v
theories/Params_Proofs.v
theories/Params_Props.v
theories/Wc_Model.v
theories/Wc_Spec.v
theories/Wc_Proofs.v
theories/Wc_Props.v
theories/Prompt_Model.v
theories/Prompt_Spec.v
theories/Prompt_Proofs.v
theories/Prompt_Props.v
theories/Set_Model.v
theories/Set_Spec.v
theories/Set_Proofs.v
theories/Set_Props.v
theories/SetA_Model.v
theories/SetA_Spec.v
theories/SetA_Proofs.v
theories/SetA_Props.v
theories/Call_Model.v
theories/Call_Spec.v
theories/Call_Proofs.v
theories/Call_Props.v
theories/Find_Model.v
theories/Find_Spec.v
theories/Find_Proofs.v
theories/Find_Props.v
theories/Def_Model.v
theories/Def_Spec.v
theories/Def_Proofs.v
theories/Def_Props.v
theories/Fs_Model.v
theories/Fs_Spec.v
theories/Fs_Proofs.v
theories/Copy_Model.v
theories/Copy_Spec.v
theories/Copy_Proofs.v
theories/Copy_Props.v
theories/Search_Model.v
theories/Search_Spec.v
theories/Search_Proofs.v
theories/Search_Props.v
theories/Del_Model.v
theories/Del_Spec.v
theories/Del_Proofs.v
theories/Del_Props.v
theories/Mkdir_Model.v
theories/Mkdir_Spec.v
theories/Mkdir_Proofs.v
theories/Mkdir_Props.v
theories/Type_Model.v
theories/Type_Spec.v
theories/Type_Props.v
theories/Xargs_Model.v
theories/Xargs_Spec.v
theories/Xargs_Props.v
theories/CopyFail_Props.v
theories/More_Model.v
theories/More_Spec.v
theories/More_Props.v
theories/MoreCmd_Spec.v
theories/MoreCmd_Props.v
theories/SearchStar_Props.v
theories/Complete_Model.v
theories/Complete_Spec.v
theories/Complete_Props.v
theories/Edit_Model.v
theories/Edit_Spec.v
theories/Edit_Proofs.v
theories/Edit_Props.v
theories/EditHist_Props.v
theories/Exec_Model.v
theories/Exec_Spec.v
theories/Exec_Proofs.v
theories/Exec_Props.v
theories/Pipe_Model.v
theories/Pipe_Spec.v
theories/Pipe_Proofs.v
theories/Pipe_Props.v
theories/Dir_Model.v
theories/Dir_Spec.v
theories/Dir_Proofs.v
theories/Dir_Props.v
theories/Start_Model.v
theories/Start_Spec.v
theories/Start_Proofs.v
theories/Start_Props.v
theories/Main_Model.v
theories/Main_Spec.v
theories/Main_Proofs.v
theories/Main_Props.v
theories/Cd_Model.v
theories/Cd_Spec.v
theories/Cd_Proofs.v
theories/Cd_Props.v
theories/Clone_Model.v
theories/Clone_Spec.v
theories/Clone_Proofs.v
theories/Clone_Props.v
theories/Gettext_Model.v
theories/Gettext_Spec.v
theories/Gettext_Proofs.v
theories/Gettext_Props.v
theories/Timeout_Model.v
theories/Timeout_Spec.v
theories/Timeout_Proofs.v
theories/Timeout_Props.v
theories/Extern_Model.v
theories/Extern_Spec.v
theories/Extern_Proofs.v
theories/Extern_Props.v
theories/Dump_Model.v
theories/Dump_Spec.v
theories/Dump_Proofs.v
theories/Dump_Props.v
theories/Mod_Model.v
theories/Mod_Spec.v
theories/Mod_Proofs.v
theories/Mod_Props.v
theories/Tea_Model.v
theories/Tea_Spec.v
theories/Tea_Proofs.v
theories/Tea_Props.v
theories/Small_Model.v
theories/Small_Proofs.v
theories/Small_Props.v
theories/Layout_Model.v
theories/Layout_Spec.v
theories/Layout_Proofs.v
theories/Layout_Props.v
theories/Html_Model.v
theories/Html_Spec.v
theories/Html_Proofs.v
theories/Html_Props.v
theories/Batbox_Model.v
theories/Batbox_Spec.v
theories/Batbox_Proofs.v
theories/Batbox_Props.v
theories/Md_Model.v
theories/Md_Spec.v
theories/Md_Proofs.v
theories/Md_Props.v
theories/Ansi_Model.v
theories/Ansi_Spec.v
theories/Ansi_Proofs.v
theories/Ansi_Props.v
theories/Errmsg_Model.v
theories/Errmsg_Spec.v
theories/Errmsg_Proofs.v
theories/Errmsg_Props.v
