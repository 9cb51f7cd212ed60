-Q theories Verif
theories/Addr_Model.v
theories/Addr_Proof.v
theories/Addr_Props.v
theories/Addr_Spec.v
theories/Ard_Model.v
theories/Ard_Proof.v
theories/Ard_Props.v
theories/Ard_Spec.v
theories/Asm_Base.v
theories/Asm_Codes.v
theories/Asm_Count.v
theories/Asm_Model.v
theories/Asm_Options.v
theories/Asm_Process.v
theories/Asm_Props.v
theories/Asm_Spec.v
theories/Asm_Tidy.v
theories/Asm_Values.v
theories/Attr_Model.v
theories/Attr_Proof.v
theories/Attr_Props.v
theories/Attr_Spec.v
theories/Attr_Vars.v
theories/Br_Count.v
theories/Br_Jump.v
theories/Br_Model.v
theories/Br_Proof.v
theories/Br_Props.v
theories/Br_Spec.v
theories/CaNum_Proof.v
theories/CaStr_Proof.v
theories/Ca_Model.v
theories/Ca_Proof.v
theories/Ca_Props.v
theories/Ca_Spec.v
theories/Caf_Eval.v
theories/Caf_Field.v
theories/Caf_Model.v
theories/Caf_Proof.v
theories/Caf_Props.v
theories/Caf_Spec.v
theories/Cag_Line.v
theories/Cag_Loose.v
theories/Cag_Model.v
theories/Cag_Proof.v
theories/Cag_Props.v
theories/Cag_Spec.v
theories/Cag_Strict.v
theories/Cal_Field.v
theories/Cal_Group.v
theories/Cal_Model.v
theories/Cal_Proof.v
theories/Cal_Props.v
theories/Cal_Spec.v
theories/Cfg_Model.v
theories/Cfg_Proof.v
theories/Cfg_Props.v
theories/Cfg_Spec.v
theories/Col_Model.v
theories/Col_Props.v
theories/Col_Spec.v
theories/Common.v
theories/Conf_Model.v
theories/Conf_Proof.v
theories/Conf_Props.v
theories/Conf_Spec.v
theories/Cont_Model.v
theories/Cont_Proof.v
theories/Cont_Props.v
theories/Cont_Spec.v
theories/DDP_Back.v
theories/DDP_Model.v
theories/DDP_Proof.v
theories/DDP_Spec.v
theories/DD_Check.v
theories/DD_Len.v
theories/DD_Model.v
theories/DD_Props.v
theories/DD_Spec.v
theories/DD_Stmt.v
theories/DD_Str.v
theories/Dap_Model.v
theories/Dap_Proof.v
theories/Dap_Props.v
theories/Dbg_All.v
theories/Dbg_Exit.v
theories/Dbg_Free.v
theories/Dbg_Live.v
theories/Dbg_Model.v
theories/Dbg_Proof.v
theories/Dbg_Props.v
theories/Dbg_Spec.v
theories/Dbg_Stops.v
theories/Ddg_Model.v
theories/Ddg_Proof.v
theories/Ddg_Props.v
theories/Ddg_Read.v
theories/Ddg_Spec.v
theories/DepArith_Proof.v
theories/DepConfl_Proof.v
theories/DepCycle_Proof.v
theories/Dep_Model.v
theories/Dep_Proof.v
theories/Dep_Props.v
theories/Dep_Spec.v
theories/Det_Model.v
theories/Det_Proof.v
theories/Det_Props.v
theories/Det_Spec.v
theories/Diag_Model.v
theories/Diag_Proof.v
theories/Diag_Props.v
theories/Diag_Spec.v
theories/Dvar_Model.v
theories/Dvar_Proof.v
theories/Dvar_Props.v
theories/Dvar_Shown.v
theories/Dvar_Spec.v
theories/Ebc_Model.v
theories/Ebc_Proof.v
theories/Ebc_Props.v
theories/Ebc_Spec.v
theories/Edit_Proof.v
theories/Ems_Model.v
theories/Ems_Proof.v
theories/Ems_Props.v
theories/Ems_Spec.v
theories/Err_Model.v
theories/Err_Proof.v
theories/Err_Props.v
theories/Err_Spec.v
theories/Exp_Model.v
theories/Exp_Proof.v
theories/Exp_Props.v
theories/Exp_Spec.v
theories/Fld_Expr.v
theories/Fld_Lex.v
theories/Fld_Model.v
theories/Fld_Proof.v
theories/Fld_Props.v
theories/Fld_Spec.v
theories/Fld_Terms.v
theories/Fnd_Model.v
theories/Fnd_Props.v
theories/Fnd_Spec.v
theories/Framing_Model.v
theories/Framing_Proof.v
theories/Framing_Props.v
theories/Framing_Spec.v
theories/Gram_Model.v
theories/Gram_Ops.v
theories/Gram_Proof.v
theories/Gram_Props.v
theories/Gram_Spec.v
theories/Grp_Model.v
theories/Grp_Proof.v
theories/Grp_Props.v
theories/Grp_Spec.v
theories/Grp_Unique.v
theories/Hov_Doc.v
theories/Hov_Items.v
theories/Hov_Model.v
theories/Hov_Props.v
theories/Hov_Regex.v
theories/Hov_Spec.v
theories/Hvs_Model.v
theories/Hvs_Props.v
theories/Hvs_Spec.v
theories/Hvs_Text.v
theories/Hvs_Vars.v
theories/Json.v
theories/Lex_Any.v
theories/Lex_Emits.v
theories/Lex_Funs.v
theories/Lex_Insert.v
theories/Lex_Main.v
theories/Lex_Model.v
theories/Lex_Proof.v
theories/Lex_Props.v
theories/Lex_Spec.v
theories/Lex_Words.v
theories/Lines_Proof.v
theories/Loctr_Model.v
theories/Loctr_Proof.v
theories/Loctr_Props.v
theories/Loctr_Spec.v
theories/Look_Back.v
theories/Look_Copy.v
theories/Look_Def.v
theories/Look_Expand.v
theories/Look_Model.v
theories/Look_Once.v
theories/Look_Proof.v
theories/Look_Props.v
theories/Look_Scan.v
theories/Look_Spec.v
theories/Look_Whole.v
theories/Lsp_Exact.v
theories/Lsp_Model.v
theories/Lsp_Proof.v
theories/Lsp_Props.v
theories/Lsp_Spec.v
theories/Lts.v
theories/Mac_Call.v
theories/Mac_Model.v
theories/Mac_Proof.v
theories/Mac_Props.v
theories/Mac_Spec.v
theories/Mach_Enc_Props.v
theories/Mach_Facts.v
theories/Mach_Model.v
theories/Mach_Place.v
theories/Mach_Proof.v
theories/Mach_Props.v
theories/Mach_Spec.v
theories/Mach_Stmt.v
theories/Mach_Table.v
theories/Mbr_Model.v
theories/Mbr_Proof.v
theories/Mbr_Props.v
theories/Mbr_Spec.v
theories/Mdl_Det.v
theories/Mdl_First.v
theories/Mdl_Label.v
theories/Mdl_Line.v
theories/Mdl_Model.v
theories/Mdl_Oper.v
theories/Mdl_Proof.v
theories/Mdl_Props.v
theories/Mdl_Spec.v
theories/Mop_Model.v
theories/Mop_Proof.v
theories/Mop_Props.v
theories/Mop_Spec.v
theories/Mop_Value.v
theories/Nav_Body.v
theories/Nav_Ctx.v
theories/Nav_Main.v
theories/Nav_Model.v
theories/Nav_Proof.v
theories/Nav_Props.v
theories/Nav_Spec.v
theories/Nav_Use.v
theories/Occ_Model.v
theories/Occ_Proof.v
theories/Occ_Props.v
theories/Occ_Spec.v
theories/Ops_Model.v
theories/Ops_Proof.v
theories/Ops_Props.v
theories/Ops_Spec.v
theories/Org_Proof.v
theories/Paint_Model.v
theories/Paint_Proof.v
theories/Paint_Props.v
theories/Paint_Spec.v
theories/Prg_Model.v
theories/Prg_Proof.v
theories/Prg_Props.v
theories/Prg_Run.v
theories/Prg_Spec.v
theories/Prx_Model.v
theories/Prx_Proof.v
theories/Prx_Props.v
theories/Prx_Spec.v
theories/Pth_Model.v
theories/Pth_Proof.v
theories/Pth_Props.v
theories/Pth_Spec.v
theories/Queue_Model.v
theories/Queue_Proof.v
theories/Queue_Props.v
theories/Queue_Spec.v
theories/Rel_Model.v
theories/Rel_Proof.v
theories/Rel_Props.v
theories/Req_Model.v
theories/Req_Proof.v
theories/Req_Props.v
theories/Req_Spec.v
theories/Rng_Model.v
theories/Rng_Proof.v
theories/Rng_Props.v
theories/Rng_Spec.v
theories/Route_Model.v
theories/Route_Proof.v
theories/Route_Props.v
theories/Route_Spec.v
theories/Sect_Diag.v
theories/Sect_Frame.v
theories/Sect_Model.v
theories/Sect_Org.v
theories/Sect_Proof.v
theories/Sect_Props.v
theories/Sect_Run.v
theories/Sect_Spec.v
theories/Ses_Model.v
theories/Ses_Proof.v
theories/Ses_Props.v
theories/Ses_Spec.v
theories/Stk_Frames.v
theories/Stk_Model.v
theories/Stk_Nests.v
theories/Stk_Proof.v
theories/Stk_Props.v
theories/Stk_Spec.v
theories/Sub_Model.v
theories/Sub_Proof.v
theories/Sub_Props.v
theories/Sub_Spec.v
theories/Sub_Text.v
theories/Sup_Model.v
theories/Sup_Proof.v
theories/Sup_Props.v
theories/Sup_Spec.v
theories/Svr_Model.v
theories/Svr_Props.v
theories/Svr_Spec.v
theories/Sys_Exit.v
theories/Sys_Model.v
theories/Sys_Proof.v
theories/Sys_Props.v
theories/Sys_Spec.v
theories/Text_Model.v
theories/Text_Proof.v
theories/Text_Props.v
theories/Text_Spec.v
theories/Tks_Model.v
theories/Tks_Proof.v
theories/Tks_Props.v
theories/Tks_Spec.v
theories/Tok_Model.v
theories/Tok_Proof.v
theories/Tok_Props.v
theories/Tok_Spec.v
theories/Und_Model.v
theories/Und_Proof.v
theories/Und_Props.v
theories/Und_Spec.v
theories/Uri_Model.v
theories/Uri_Props.v
theories/Uri_Spec.v
theories/Var_Facts.v
theories/Var_Model.v
theories/Var_Proof.v
theories/Var_Props.v
theories/Var_Run.v
theories/Var_Spec.v
theories/Wild_Model.v
theories/Wild_Proof.v
theories/Wild_Props.v
theories/Wild_Spec.v
theories/Ws_Disk.v
theories/Ws_Fresh.v
theories/Ws_Model.v
theories/Ws_Proof.v
theories/Ws_Props.v
theories/Ws_Spec.v
