-Q theories Verif
theories/Base.v
theories/PyDict.v
theories/PyDict_proofs.v
theories/Returns.v
theories/Spec_Returns.v
theories/Returns_proofs.v
theories/Props_Returns.v
theories/DictStore.v
theories/Spec_DictStore.v
theories/DictStore_proofs.v
theories/Props_DictStore.v
theories/CallStore.v
theories/Spec_CallStore.v
theories/CallStore_proofs.v
theories/Props_CallStore.v
theories/Commit.v
theories/Spec_Commit.v
theories/Commit_proofs.v
theories/Props_Commit.v
theories/Refs.v
theories/Args.v
theories/Spec_Args.v
theories/Args_proofs.v
theories/Ident.v
theories/Spec_Ident.v
theories/Ident_proofs.v
theories/Props_Args.v
theories/Storage.v
theories/Spec_Storage.v
theories/Storage_base.v
theories/Spec_Storage2.v
theories/Storage_laws.v
theories/Storage_save.v
theories/Storage_drop.v
theories/Props_Storage2.v
theories/Contexts.v
theories/Spec_Contexts.v
theories/Contexts_proofs.v
theories/Props_Contexts.v
theories/GraphAlgo.v
theories/Spec_GraphAlgo.v
theories/GraphAlgo_proofs.v
theories/Tarjan_proofs.v
theories/Topsort_proofs.v
theories/Kahn_proofs.v
theories/Props_GraphAlgo.v
theories/Dag.v
theories/Spec_Dag.v
theories/Dag_proofs.v
theories/Versioner.v
theories/Spec_Versioner.v
theories/Versioner_proofs.v
theories/Versioner_lookup.v
theories/Versioner_recompute.v
theories/Versioner_sync.v
theories/Props_Versions.v
theories/Tracer.v
theories/Spec_Tracer.v
theories/Tracer_proofs.v
theories/Props_Tracer.v
theories/Frame.v
theories/Spec_Frame.v
theories/Frame_base.v
theories/Frame_ok.v
theories/Frame_ok2.v
theories/Frame_ok3.v
theories/Frame_sel.v
theories/Frame_reach.v
theories/Frame_reach2.v
theories/Paths.v
theories/Spec_Paths.v
theories/Paths_proofs.v
theories/Frame_stream.v
theories/Frame_names.v
theories/Frame_run.v
theories/Paths_loop.v
theories/Props_Frame.v
theories/Props_Frame2.v
theories/Props_Frame3.v
theories/Spec_Atoms.v
theories/Atoms_rel.v
theories/Storage_tabs.v
theories/Storage_atoms.v
theories/Storage_atoms2.v
theories/Storage_atoms3.v
theories/Storage_atoms4.v
theories/Storage_atoms5.v
theories/Props_Atoms.v
theories/Spec_Outputs.v
theories/Storage_outputs.v
theories/Queries.v
theories/Queries_proofs.v
theories/Props_Outputs.v
theories/Spec_Values.v
theories/Ident_values.v
theories/Spec_Results.v
theories/Storage_results.v
theories/Props_Results.v
theories/FrameExpand.v
theories/Spec_Expand.v
theories/Expand_proofs.v
theories/Props_Expand.v
theories/Spec_Cleanup.v
theories/Storage_clean.v
theories/Props_Clean.v
theories/FrameHistory.v
theories/Spec_History.v
theories/History_proofs.v
theories/Props_History.v
theories/Spec_Roundtrip.v
theories/Storage_roundtrip.v
theories/Props_Roundtrip.v
theories/Spec_Integrity.v
theories/Storage_integrity.v
theories/Storage_integrity2.v
theories/Props_Integrity.v
theories/Spec_Forward.v
theories/Expand_forward.v
theories/Props_Forward.v
theories/Forward_loop.v
theories/FrameExpandAll.v
theories/Spec_All.v
theories/Expand_all_proofs.v
theories/Props_All.v
theories/FrameFilter.v
theories/Spec_Filter.v
theories/Filter_proofs.v
theories/Props_Filter.v
