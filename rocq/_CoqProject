-Q theories Verif
theories/Base.v
theories/Mem.v
theories/MulOverflow_Model.v
theories/MulOverflow_Proofs.v
theories/MulOverflow_Props.v
theories/Glob_Model.v
theories/Glob_Spec.v
theories/Glob_Proofs.v
theories/Glob_Props.v
theories/Replace_Model.v
theories/Replace_Spec.v
theories/Replace_Proofs1.v
theories/Replace_Proofs2.v
theories/Replace_Proofs3.v
theories/Replace_Props.v
theories/Redblack_Model.v
theories/Redblack_Spec.v
theories/Redblack_Client.v
theories/Redblack_Proofs1.v
theories/Redblack_Proofs2.v
theories/Redblack_Proofs3.v
theories/Redblack_Proofs4.v
theories/Redblack_Proofs5.v
theories/Redblack_Proofs6.v
theories/Redblack_Proofs7.v
theories/Redblack_Proofs8.v
theories/Redblack_Proofs9.v
theories/Redblack_Proofs10.v
theories/Redblack_Proofs11.v
theories/Redblack_Proofs12.v
theories/Redblack_Props.v
theories/Supp_Model.v
theories/Supp_Spec.v
theories/Supp_Proofs1.v
theories/Supp_Proofs2.v
theories/Supp_Proofs3.v
theories/Supp_Proofs4.v
theories/Supp_Props.v
theories/Redblack_Facts.v
theories/Callstack_Model.v
theories/Callstack_Spec.v
theories/Callstack_Proofs1.v
theories/Callstack_Proofs2.v
theories/Callstack_Proofs3.v
theories/Callstack_Proofs4.v
theories/Callstack_Props.v
theories/Umbra_Model.v
theories/Umbra_Spec.v
theories/Umbra_Proofs1.v
theories/Umbra_Proofs2.v
theories/Umbra_Proofs3.v
theories/Umbra_Proofs4.v
theories/Umbra_Proofs5.v
theories/Umbra_Proofs6.v
theories/Umbra_Proofs7.v
theories/Umbra_Proofs8.v
theories/Umbra_Proofs9.v
theories/Umbra_Proofs10.v
theories/Umbra_Props.v
theories/Shadow_Model.v
theories/Shadow_Spec.v
theories/Shadow_Proofs1.v
theories/Shadow_Proofs2.v
theories/Shadow_Proofs3.v
theories/Shadow_Proofs4.v
theories/Shadow_Proofs5.v
theories/Shadow_Proofs6.v
theories/Shadow_Props.v
theories/RegShadow_Model.v
theories/RegShadow_Spec.v
theories/RegShadow_Proofs.v
theories/RegShadow_Proofs2.v
theories/RegShadow_Props.v
theories/ShadowTables_Model.v
theories/ShadowTables_Props.v
theories/DelayFree_Model.v
theories/DelayFree_Spec.v
theories/DelayFree_Proofs.v
theories/DelayFree_Proofs2.v
theories/DelayFree_Props.v
theories/Mutator_Model.v
theories/Mutator_Spec.v
theories/Mutator_Proofs.v
theories/Mutator_Proofs2.v
theories/Mutator_Proofs3.v
theories/Mutator_Proofs4.v
theories/Mutator_Proofs5.v
theories/Mutator_Proofs6.v
theories/Mutator_Props.v
theories/Regions_Model.v
theories/Regions_Spec.v
theories/Regions_Proofs.v
theories/Regions_Proofs2.v
theories/Regions_Proofs3.v
theories/Regions_Props.v
theories/Report_Model.v
theories/Report_Spec.v
theories/Report_Proofs.v
theories/Report_Proofs2.v
theories/Report_Proofs3.v
theories/Report_Props.v
theories/Leak_Model.v
theories/Leak_Spec.v
theories/Leak_Proofs.v
theories/Leak_Proofs2.v
theories/Leak_Proofs3.v
theories/Leak_Proofs4.v
theories/Leak_Proofs5.v
theories/LeakScan_Model.v
theories/LeakScan_Spec.v
theories/LeakScan_Proofs.v
theories/LeakScan_Proofs2.v
theories/Leak_Proofs6.v
theories/Leak_Props.v
theories/Alloc_Model.v
theories/Alloc_Inv.v
theories/Alloc_Proofs.v
theories/Alloc_Proofs2.v
theories/Alloc_Proofs3.v
theories/Alloc_Proofs4.v
theories/Alloc_Proofs5.v
theories/Alloc_Proofs6.v
theories/Alloc_Proofs7.v
theories/Alloc_Proofs8.v
theories/Alloc_Proofs9.v
theories/Alloc_Proofs10.v
theories/Alloc_Proofs11.v
theories/Alloc_Proofs12.v
theories/Alloc_Proofs13.v
theories/Alloc_Proofs14.v
theories/Alloc_Proofs15.v
theories/Alloc_Proofs16.v
theories/Alloc_Spec.v
theories/Alloc_Proofs17.v
theories/Alloc_Proofs18.v
theories/Alloc_Proofs19.v
theories/Alloc_Proofs20.v
theories/Alloc_Props.v
theories/MemRef_Model.v
theories/MemRef_Spec.v
theories/MemRef_Proofs.v
theories/MemRef_Proofs2.v
theories/MemRef_Proofs3.v
theories/MemRef_Proofs4.v
theories/MemRef_Props.v
theories/Def_Model.v
theories/Def_Spec.v
theories/Def_Proofs.v
theories/Def_Proofs2.v
theories/Def_Proofs3.v
theories/Def_Proofs4.v
theories/Def_Proofs5.v
theories/Def_Proofs6.v
theories/Def_Proofs7.v
theories/Def_Proofs8.v
theories/Def_Props.v
theories/Stack_Model.v
theories/Stack_Spec.v
theories/Stack_Proofs.v
theories/Stack_Proofs2.v
theories/Stack_Props.v
theories/StackAsm_Model.v
theories/StackAsm_Spec.v
theories/StackAsm_Proofs.v
theories/StackAsm_Proofs2.v
theories/StackAsm_Proofs3.v
theories/StackAsm_Proofs4.v
theories/StackAsm_Props.v
theories/Umbra32_Model.v
theories/Umbra32_Spec.v
theories/Umbra32_Proofs.v
theories/Umbra32_Proofs2.v
theories/Umbra32_Proofs3.v
theories/Umbra32_Proofs4.v
theories/Umbra32_Proofs5.v
theories/Umbra32_Proofs6.v
theories/Umbra32_Proofs7.v
theories/Umbra32_Proofs8.v
theories/Umbra32_Proofs9.v
theories/Umbra32_Props.v
theories/UmbraMaps_Model.v
theories/UmbraMaps_Spec.v
theories/UmbraMaps_Proofs.v
theories/UmbraMaps_Props.v
theories/FastPath_Model.v
theories/FastPath_Spec.v
theories/FastPath_Abs.v
theories/FastPath_Run.v
theories/FastPath_Named.v
theories/FastPath_Proofs.v
theories/FastPath_Proofs1.v
theories/FastPath_Proofs2.v
theories/FastPath_Proofs3.v
theories/FastPath_Proofs4.v
theories/FastPath_Proofs5.v
theories/FastPath_Proofs6.v
theories/FastPath_Proofs7.v
theories/FastPath_Proofs8.v
theories/FastPath_Proofs9.v
theories/FastPath_Props.v
theories/Sysarg_Model.v
theories/Sysarg_Table.v
theories/Sysarg_Spec.v
theories/Sysarg_Proofs.v
theories/Sysarg_Proofs2.v
theories/Sysarg_Proofs3.v
theories/Sysarg_Proofs4.v
theories/Sysarg_Proofs5.v
theories/Sysarg_Props.v
theories/Sysunk_Model.v
theories/Sysunk_Spec.v
theories/Sysunk_Proofs.v
theories/Sysunk_Proofs2.v
theories/Sysunk_Proofs3.v
theories/Sysunk_Props.v
theories/Digest_Model.v
theories/Digest_Spec.v
theories/Digest_Proofs.v
theories/Digest_Proofs2.v
theories/Digest_Proofs3.v
theories/Digest_Props.v
theories/Symcache_Model.v
theories/Symcache_Spec.v
theories/Symcache_Proofs.v
theories/Symcache_Proofs2.v
theories/Symcache_Proofs3.v
theories/Symcache_Proofs4.v
theories/Symcache_Proofs5.v
theories/Symcache_Props.v
theories/Pattern_Model.v
theories/Pattern_Spec.v
theories/Pattern_Proofs.v
theories/Pattern_Proofs2.v
theories/Pattern_Proofs3.v
theories/Pattern_Proofs4.v
theories/Pattern_Props.v
theories/Heapstat_Model.v
theories/Heapstat_Spec.v
theories/Heapstat_Proofs.v
theories/Heapstat_Proofs2.v
theories/Heapstat_Proofs3.v
theories/Heapstat_Proofs4.v
theories/Heapstat_Proofs5.v
theories/Heapstat_Props.v
theories/Dict_Model.v
theories/Dict_Spec.v
theories/Dict_Proofs.v
theories/Dict_Proofs2.v
theories/Dict_Proofs3.v
theories/Dict_Props.v
theories/Sep_Model.v
theories/Sep_Spec.v
theories/Sep_Proofs.v
theories/Sep_Proofs2.v
theories/Sep_Props.v
theories/Opt_Model.v
theories/Opt_Spec.v
theories/Opt_Proofs.v
theories/Opt_Proofs2.v
theories/Opt_Props.v
theories/Live_Model.v
theories/Live_Spec.v
theories/Live_Proofs.v
theories/Live_Props.v
