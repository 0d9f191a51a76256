-Q theories Verif
theories/Base.v
theories/Base_Proofs.v
theories/Rt_Model.v
theories/Array_Model.v
theories/Interp_Model.v
theories/Rt_Spec.v
theories/Rt_Proofs.v
theories/Hist_Proofs.v
theories/Rt_Props.v
theories/Array_Spec.v
theories/Array_Proofs.v
theories/Array_Exec.v
theories/Array_Host.v
theories/Array_Props.v
theories/Init_Spec.v
theories/Init_Proofs.v
theories/Init_Props.v
theories/Mem_Spec.v
theories/Mem_Proofs.v
theories/Exec_Safe.v
theories/Mem_Props.v
theories/Alu_Spec.v
theories/Alu_Proofs.v
theories/Alu_Props.v
theories/Pool_Model.v
theories/Pool_Spec.v
theories/Pool_Proofs.v
theories/Pool_Props.v
theories/Rtti_Model.v
theories/Rtti_Spec.v
theories/Rtti_Proofs.v
theories/Rtti_Safe.v
theories/Rtti_Props.v
theories/Bits_Model.v
theories/Bits_Spec.v
theories/Bits_Proofs.v
theories/Bits_Props.v
theories/Label_Model.v
theories/Label_Spec.v
theories/Label_Proofs.v
theories/Label_Props.v
theories/Small_Model.v
theories/Small_Spec.v
theories/Small_Proofs.v
theories/Small_Props.v
theories/Md5_Model.v
theories/Md5_Spec.v
theories/Md5_Proofs.v
theories/Md5_Props.v
theories/Src_Model.v
theories/Src_Spec.v
theories/Src_Proofs.v
theories/Src_Props.v
theories/Str_Model.v
theories/Str_Spec.v
theories/Str_Proofs.v
theories/Str_Props.v
theories/Bind_Model.v
theories/Bind_Spec.v
theories/Bind_Proofs.v
theories/Bind_Props.v
theories/Exc_Model.v
theories/Exc_Spec.v
theories/Exc_Proofs.v
theories/Exc_Props.v
theories/Call_Model.v
theories/Call_Spec.v
theories/Call_Proofs.v
theories/Call_Props.v
theories/Cfg_Model.v
theories/Cfg_Spec.v
theories/Cfg_Proofs.v
theories/Cfg_Props.v
theories/Dom_Model.v
theories/Dom_Spec.v
theories/Dom_Proofs.v
theories/Dom_Idom.v
theories/Dom_Tree.v
theories/Dom_Build.v
theories/Dom_Props.v
theories/Ver_Model.v
theories/Ver_Spec.v
theories/Ver_Proofs.v
theories/Ver_Finish.v
theories/Ver_Cases.v
theories/Ver_Ops.v
theories/Ver_Props.v
theories/Img_Model.v
theories/Img_Spec.v
theories/Img_Proofs.v
theories/Img_Safe.v
theories/Img_Accept.v
theories/Img_Write.v
theories/Img_Cases.v
theories/Img_Props.v
theories/Lex_Model.v
theories/Lex_Spec.v
theories/Lex_Proofs.v
theories/Lex_Text.v
theories/Lex_Str.v
theories/Lex_Sound.v
theories/Lex_Safe.v
theories/Lex_Cases.v
theories/Lex_Props.v
theories/Fold_Model.v
theories/Fold_Spec.v
theories/Fold_Proofs.v
theories/Fold_Props.v
theories/Gen_Model.v
theories/Gen_Spec.v
theories/Gen_Steps.v
theories/Gen_Proofs.v
theories/Gen_Link.v
theories/Gen_Cases.v
theories/Gen_Props.v
theories/Stm_Model.v
theories/Stm_Spec.v
theories/Stm_Flow.v
theories/Stm_Proofs.v
theories/Stm_Link.v
theories/Stm_Cases.v
theories/Stm_Props.v
theories/Wd_Model.v
theories/Wd_Spec.v
theories/Wd_Proofs.v
theories/Wd_Hand.v
theories/Wd_Cases.v
theories/Wd_Props.v
theories/Ai_Model.v
theories/Ai_Spec.v
theories/Ai_Proofs.v
theories/Ai_Leaf.v
theories/Ai_Reads.v
theories/Ai_Local.v
theories/Ai_Cases.v
theories/Ai_Props.v
theories/Hs_Model.v
theories/Hs_Spec.v
theories/Hs_Proofs.v
theories/Hs_Vm.v
theories/Hs_Cases.v
theories/Hs_Props.v
theories/Run_Spec.v
theories/Run_Safe.v
theories/Run_Moves.v
theories/Run_Proofs.v
theories/Run_Cases.v
theories/Run_Props.v
theories/X64_Model.v
theories/X64_Spec.v
theories/X64_Ext.v
theories/X64_Step.v
theories/X64_Arith.v
theories/X64_Push.v
theories/X64_Copy.v
theories/X64_Sim.v
theories/X64_Frm.v
theories/X64_Proofs.v
theories/Jit_Model.v
theories/Jit_Spec.v
theories/Jit_Proofs.v
theories/Jit_Call.v
theories/Jit_Poll.v
theories/X64_Stop.v
theories/X64_Cases.v
theories/Jit_Whole.v
theories/Jit_Cases.v
theories/X64_Props.v
theories/Jit_Props.v
theories/Par_Model.v
theories/Par_Spec.v
theories/Par_Proofs.v
theories/Par_Complete.v
theories/Par_Whole.v
theories/Par_Cases.v
theories/Par_Props.v
theories/Stp_Model.v
theories/Stp_Spec.v
theories/Stp_Proofs.v
theories/Stp_Complete.v
theories/Stp_Whole.v
theories/Stp_Cases.v
theories/Stp_Props.v
theories/Pre_Model.v
theories/Pre_Spec.v
theories/Pre_Proofs.v
theories/Pre_Nesting.v
theories/Pre_Cases.v
theories/Pre_Props.v
theories/Mac_Model.v
theories/Mac_Spec.v
theories/Mac_Proofs.v
theories/Mac_Expand.v
theories/Mac_Cases.v
theories/Mac_Props.v
theories/Tyc_Model.v
theories/Tyc_Spec.v
theories/Tyc_Proofs.v
theories/Tyc_Cases.v
theories/Tyc_Props.v
theories/Liv_Model.v
theories/Liv_Spec.v
theories/Liv_Proofs.v
theories/Liv_Cases.v
theories/Liv_Props.v
theories/Aside_Model.v
theories/Aside_Spec.v
theories/Aside_Proofs.v
theories/Aside_Cases.v
theories/Aside_Props.v
theories/Trace_Model.v
theories/Trace_Spec.v
theories/Trace_Words.v
theories/Trace_Walk.v
theories/Trace_Proofs.v
theories/Trace_Cases.v
theories/Trace_Props.v
theories/Names_Model.v
theories/Names_Spec.v
theories/Names_Rep.v
theories/Names_Steps.v
theories/Names_Walk.v
theories/Names_Top.v
theories/Names_Whole.v
theories/Names_Proofs.v
theories/Names_Cases.v
theories/Names_Props.v
theories/Jit_Table.v
theories/Enc_Model.v
theories/Enc_Spec.v
theories/Enc_Meant.v
theories/Enc_Proofs.v
theories/Enc_Use.v
theories/Enc_Emit.v
theories/Enc_Stream.v
theories/Enc_Cases.v
theories/Enc_Props.v
theories/Enc_Label.v
theories/Enc_LabelSpec.v
theories/Enc_Patch.v
theories/Mac_Gaps.v
theories/Arg_Model.v
theories/Arg_Spec.v
theories/Arg_Proofs.v
theories/Arg_Cases.v
theories/Arg_Props.v
theories/Arg_Emit.v
theories/Arg_EmitSpec.v
theories/Arg_EmitProofs.v
theories/Arg_EmitCases.v
theories/Arg_Call.v
theories/Arg_CallCases.v
theories/Ret_Model.v
theories/Ret_Spec.v
theories/Ret_Proofs.v
theories/Ret_Cases.v
theories/Ret_Props.v
theories/Pv_Model.v
theories/Pv_Spec.v
theories/Pv_Proofs.v
theories/Pv_Cases.v
theories/Pv_Image.v
theories/Pv_Props.v
