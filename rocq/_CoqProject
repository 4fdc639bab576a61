-Q theories Verif
theories/Base.v
theories/Threads_Model.v
theories/Threads_Proofs.v
theories/Threads_Live_Proofs.v
theories/Threads_Counter_Proofs.v
theories/Threads_Props.v
theories/Sleep_Model.v
theories/Sleep_Proofs.v
theories/Sleep_Props.v
theories/Ring_Model.v
theories/Ring_Proofs.v
theories/Ring_Props.v
theories/Ring_Fine.v
theories/Ring_Fine_Props.v
theories/Reduce_Model.v
theories/Reduce_Proofs.v
theories/Reduce_Props.v
theories/Jobs_Model.v
theories/Jobs_Proofs.v
theories/Jobs_Call_Proofs.v
theories/Mask_Model.v
theories/Mask_Proofs.v
theories/Mask_Props.v
theories/GetItem_Model.v
theories/GetItem_Props.v
theories/Arange_Model.v
theories/Arange_Props.v
theories/RecArray_Model.v
theories/RecArray_Props.v
theories/RecCall_Model.v
theories/RecCall_Props.v
theories/SortCall_Model.v
theories/SortCall_Props.v
theories/Sort_Model.v
theories/SortCmp_Model.v
theories/Sort_Base_Proofs.v
theories/Sort_Insert_Proofs.v
theories/SortCmp_Proofs.v
theories/Sort_Heap_Proofs.v
theories/Sort_Quick_Proofs.v
theories/Sort_Merge_Base_Proofs.v
theories/Sort_Merge_Proofs.v
theories/Sort_MergeNum_Proofs.v
theories/Sort_Props.v
theories/ParSort_Model.v
theories/ParSort_Tree_Proofs.v
theories/ParSort_Proofs.v
theories/ParSort_Props.v
theories/ParArg_Props.v
theories/StrPar_Model.v
theories/StrPar_Props.v
theories/IsSorted_Model.v
theories/IsSorted_Props.v
theories/Group_Model.v
theories/Group_Props.v
theories/Kernel_Model.v
theories/Kernel_Proofs.v
theories/Kernel_Props.v
theories/Overlap_Props.v
theories/Float_Model.v
theories/Compare_Model.v
theories/Compare_Proofs.v
theories/Compare_Props.v
theories/Unary_Model.v
theories/Unary_Proofs.v
theories/Unary_Props.v
theories/UnaryVal_Props.v
theories/Round_Model.v
theories/Round_Props.v
theories/Arith_Model.v
theories/Arith_Props.v
theories/Settings_Model.v
theories/Settings_Props.v
theories/Hooks_Model.v
theories/Hooks_Props.v
theories/Alloc_Model.v
theories/Alloc_Props.v
theories/Layout_Model.v
theories/Layout_Props.v
theories/Ledger_Model.v
theories/Ledger_Props.v
theories/SortHook_Model.v
theories/SortHook_Props.v
theories/Trig_Model.v
theories/Trig_Fast.v
theories/Trig_Props.v
theories/Exp_Bounds.v
theories/Trig_Real.v
theories/Trig_Near.v
theories/Trig_Exp.v
theories/Trig_ExpProps.v
theories/Log_Bounds.v
theories/Trig_Log.v
theories/Trig_LogProps.v
theories/Sin_Bounds.v
theories/Trig_Sin.v
theories/Trig_SinCos.v
theories/Trig_SinProps.v
theories/Sum_Props.v
theories/LexCall_Model.v
theories/LexCall_Props.v
theories/ArgHook_Model.v
theories/ArgHook_Props.v
theories/Ufunc_Model.v
theories/Ufunc_Proofs.v
theories/Ufunc_Kernel_Proofs.v
theories/Ufunc_Props.v
theories/UfuncCmp_Model.v
theories/UfuncCmp_Props.v
theories/UfuncUn_Model.v
theories/UfuncUn_Proofs.v
theories/UfuncUn_Props.v
theories/GetCall_Model.v
theories/GetCall_Props.v
theories/Sqrt_Model.v
theories/Sqrt_Props.v
theories/PySort_Model.v
theories/PySort_Props.v
theories/RedBytes_Model.v
theories/RedBytes_Proofs.v
theories/RedBytes_Call_Proofs.v
theories/RedBytes_Props.v
theories/Prod_Props.v
theories/Cpu_Model.v
theories/Cpu_Props.v
theories/Dispatch_Model.v
theories/Dispatch_Props.v
theories/Entry_Model.v
theories/Entry_Props.v
theories/Desc_Model.v
theories/Desc_Props.v
theories/EntryRed_Model.v
theories/EntryRed_Props.v
theories/Workers_Model.v
theories/Workers_Props.v
