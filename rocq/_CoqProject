-Q theories Verif
theories/DP_Base.v
theories/DP_Sources_Model.v
theories/DP_Bucketing_Model.v
theories/DP_Multi_Model.v
theories/DP_Spec.v
theories/DP_Laws.v
theories/DP_Sources_Proofs.v
theories/DP_Sources_Proofs2.v
theories/DP_Multi_Lemmas.v
theories/DP_Shuffle_Proofs.v
theories/DP_BBL_Proofs.v
theories/DP_Dyn_Proofs.v
theories/DP_Pack_Proofs.v
theories/DP_Zip_Proofs.v
theories/DP_RR_Proofs.v
theories/DP_Sample_Proofs.v
theories/DP_Corollaries.v
theories/DP_NonStrict_Proofs.v
theories/DP_Ast.v
theories/DP_Ast_Proofs.v
theories/DP_Props_Lemmas.v
theories/DP_Props.v
theories/Ckpt_Model.v
theories/Ckpt_Spec.v
theories/Ckpt_Proofs.v
theories/Ckpt_List_Proofs.v
theories/Ckpt_Props_Lemmas.v
theories/Ckpt_Props.v
theories/LossScale_Model.v
theories/LossScale_Spec.v
theories/LossScale_Proofs.v
theories/LossScale_Props.v
theories/MetricBag_Model.v
theories/MetricBag_Spec.v
theories/MetricBag_Proofs.v
theories/MetricBag_Props.v
theories/Rng_Model.v
theories/Rng_Spec.v
theories/Rng_Proofs.v
theories/Rng_Props.v
theories/Trainer_Model.v
theories/Trainer_Spec.v
theories/Trainer_Proofs.v
theories/Trainer_Proofs2.v
theories/Trainer_Proofs3.v
theories/Trainer_Proofs4.v
theories/Trainer_Proofs5.v
theories/Trainer_Props.v
theories/Batch_Model.v
theories/Batch_Spec.v
theories/Batch_Proofs.v
theories/Batch_Proofs2.v
theories/Batch_Proofs3.v
theories/Batch_Proofs4.v
theories/Batch_Props.v
theories/Reader_Model.v
theories/Reader_Spec.v
theories/Reader_Proofs.v
theories/Reader_Props.v
theories/StepProc_Model.v
theories/StepProc_Spec.v
theories/StepProc_Proofs.v
theories/StepProc_Props.v
theories/Beam_Model.v
theories/Beam_Spec.v
theories/Beam_Proofs.v
theories/Beam_Proofs2.v
theories/Beam_Proofs3.v
theories/Beam_Props.v
theories/Sampling_Model.v
theories/Sampling_Spec.v
theories/Sampling_Proofs.v
theories/Sampling_Proofs2.v
theories/Sampling_Proofs3.v
theories/Sampling_Props.v
theories/Gang_Model.v
theories/Gang_Spec.v
theories/Gang_Proofs.v
theories/Gang_Proofs2.v
theories/Gang_Props.v
theories/Struct_Model.v
theories/Struct_Spec.v
theories/Struct_Proofs.v
theories/Struct_Proofs2.v
theories/Struct_Proofs3.v
theories/Struct_Proofs4.v
theories/Struct_Props.v
theories/Config_Model.v
theories/Config_Spec.v
theories/Config_Proofs.v
theories/Config_Proofs2.v
theories/Config_Proofs3.v
theories/Config_Props.v
theories/LR_Model.v
theories/LR_Spec.v
theories/LR_Proofs.v
theories/LR_Props.v
theories/Dep_Model.v
theories/Dep_Spec.v
theories/Dep_Proofs.v
theories/Dep_Proofs2.v
theories/Dep_Props.v
theories/Asset_Model.v
theories/Asset_Spec.v
theories/Asset_Proofs.v
theories/Asset_Proofs2.v
theories/Asset_Props.v
theories/Attn_Model.v
theories/Attn_Spec.v
theories/Attn_Proofs.v
theories/Attn_Props.v
theories/Pos_Model.v
theories/Pos_Spec.v
theories/Pos_Proofs.v
theories/Pos_Props.v
theories/Bias_Model.v
theories/Bias_Spec.v
theories/Bias_Proofs.v
theories/Bias_Props.v
theories/Shard_Model.v
theories/Shard_Spec.v
theories/Shard_Proofs.v
theories/Shard_Props.v
theories/Shard_Linear.v
theories/Shard_Nets.v
theories/Load_Model.v
theories/Load_Spec.v
theories/Load_Proofs.v
theories/Load_Props.v
theories/File_Model.v
theories/File_Spec.v
theories/File_Cache.v
theories/File_Props.v
theories/Prefetch_Model.v
theories/Prefetch_Spec.v
theories/Prefetch_Proofs.v
theories/Prefetch_Props.v
theories/Text_Model.v
theories/Text_Spec.v
theories/Text_Proofs.v
theories/Text_Lines.v
theories/Text_More.v
theories/Text_Props.v
theories/Sel_Model.v
theories/Sel_Spec.v
theories/Sel_Proofs.v
theories/Sel_Visit.v
theories/Sel_Map.v
theories/Sel_Props.v
theories/Coll_Model.v
theories/Coll_Spec.v
theories/Coll_Proofs.v
theories/Coll_Props.v
theories/DP_ParMap_Model.v
theories/DP_ParMap_Props.v
theories/Amap_Model.v
theories/Amap_Spec.v
theories/Amap_Proofs.v
theories/Amap_Live.v
theories/Amap_Props.v
theories/Dl_Model.v
theories/Dl_Spec.v
theories/Dl_Proofs.v
theories/Dl_Props.v
theories/Mask_Model.v
theories/Mask_Spec.v
theories/Mask_Proofs.v
theories/Mask_Props.v
theories/Hub_Model.v
theories/Hub_Spec.v
theories/Hub_Proofs.v
theories/Hub_Trip.v
theories/Hub_Props.v
theories/Mst_Model.v
theories/Mst_Props.v
theories/Pq_Spec.v
theories/Pq_Model.v
theories/Pq_Proofs.v
theories/Pq_Props.v
theories/Tb_Model.v
theories/Tb_Props.v
theories/Val_Model.v
theories/Val_Spec.v
theories/Val_Props.v
theories/Swp_Model.v
theories/Swp_Spec.v
theories/Swp_Props.v
theories/Grad_Model.v
theories/Grad_Props.v
theories/Moe_Model.v
theories/Moe_Spec.v
theories/Moe_Props.v
theories/Bg_Model.v
theories/Bg_Spec.v
theories/Bg_Props.v
theories/Bkt_Model.v
theories/Bkt_Props.v
theories/Dec_Model.v
theories/Dec_Spec.v
theories/Dec_Proofs.v
theories/Dec_Props.v
theories/Mod_Model.v
theories/Mod_Spec.v
theories/Mod_Proofs.v
theories/Mod_Apply.v
theories/Mod_Share.v
theories/Mod_Props.v
theories/Cnv_Model.v
theories/Cnv_Proofs.v
theories/Cnv_Props.v
theories/Spm_Model.v
theories/Spm_Spec.v
theories/Spm_Proofs.v
theories/Spm_Props.v
theories/Eos_Props.v
theories/Tok_Model.v
theories/Tok_Spec.v
theories/Tok_Props.v
theories/Xen_Model.v
theories/Xen_Spec.v
theories/Xen_Props.v
theories/Hga_Model.v
theories/Hga_Props.v
theories/Wer_Model.v
theories/Wer_Spec.v
theories/Wer_Props.v
theories/Txg_Model.v
theories/Txg_Spec.v
theories/Txg_Props.v
theories/Sft_Model.v
theories/Sft_Spec.v
theories/Sft_Props.v
theories/Cht_Model.v
theories/Cht_Spec.v
theories/Cht_Props.v
theories/W2d_Model.v
theories/W2d_Spec.v
theories/W2d_Props.v
theories/Rel_Model.v
theories/Rel_Spec.v
theories/Rel_Props.v
theories/Pql_Model.v
theories/Pql_Spec.v
theories/Pql_Props.v
theories/Arw_Model.v
theories/Arw_Spec.v
theories/Arw_Props.v
theories/Grp_Model.v
theories/Grp_Spec.v
theories/Grp_Props.v
theories/Gem_Model.v
theories/Gem_Spec.v
theories/Gem_Props.v
theories/Ini_Model.v
theories/Ini_Spec.v
theories/Ini_Props.v
theories/Vqz_Model.v
theories/Vqz_Spec.v
theories/Vqz_Props.v
theories/Mtd_Model.v
theories/Mtd_Spec.v
theories/Mtd_Props.v
theories/Ddv_Model.v
theories/Ddv_Spec.v
theories/Ddv_Props.v
