{
 "claims": [
  {
   "property": "C01",
   "status": "proved",
   "theorems": [
    "C01_pipeline_contents",
    "C01_sequential"
   ],
   "note": "Whole pipeline expressions; see wf in DP_Ast.v for what is required of the parameters and callbacks."
  },
  {
   "property": "C02",
   "status": "proved",
   "theorems": [
    "C02_shards"
   ],
   "note": ""
  },
  {
   "property": "C03",
   "status": "proved",
   "theorems": [
    "C03_bucket"
   ],
   "note": ""
  },
  {
   "property": "C04",
   "status": "proved",
   "theorems": [
    "C04_bucket_by_length"
   ],
   "note": ""
  },
  {
   "property": "C05",
   "status": "proved",
   "theorems": [
    "C05_dynamic_bucket"
   ],
   "note": ""
  },
  {
   "property": "C06",
   "status": "proved",
   "theorems": [
    "C06_pack"
   ],
   "note": "Truncation needs num_elements >= 2 and max_seq_len >= 1 and non-empty sequences."
  },
  {
   "property": "C07",
   "status": "proved",
   "theorems": [
    "C07_shuffle",
    "C07_swallowed_error_refuted"
   ],
   "note": "The refuted theorem: with swallowed upstream errors an example is lost."
  },
  {
   "property": "C08",
   "status": "proved",
   "theorems": [
    "C08_zip",
    "C08_finitude_refuted"
   ],
   "note": "The refuted theorem: zip reports an inverted finitude, so yield_from rejects finite zips."
  },
  {
   "property": "C09",
   "status": "partial",
   "theorems": [
    "C09_round_robin",
    "C09_constant_supplier",
    "C09_last_pipeline_refuted",
    "C09_stop_at_shortest_refuted"
   ],
   "note": "False in general: proved when the last pipeline contributes to every round; the refuted theorems show that this is needed."
  },
  {
   "property": "C10",
   "status": "proved",
   "theorems": [
    "C10_sample_once",
    "C10_sample_repeats",
    "C10_all_empty_refuted"
   ],
   "note": "At least one pipeline must be non-empty (refuted otherwise)."
  },
  {
   "property": "C100",
   "status": "partial",
   "theorems": [
    "C100_documented",
    "C100_uuid_refuted",
    "C100_cpu_refuted",
    "C100_distinct",
    "C100_distinct_single",
    "C100_distinct_refuted",
    "C100_exists"
   ],
   "note": "The documented precedence is proved for devices given by indices and processes with a local rank, and that processes differ in their GPUs. A single device given by its UUID makes all processes but the first fail, without LOCAL_RANK the first CUDA device is used and not the CPU, and processes that see the same single device share it."
  },
  {
   "property": "C11",
   "status": "partial",
   "theorems": [
    "C11_resume_fresh",
    "C11_resume_used",
    "C11_nonstrict_shuffle",
    "C11_repeat_refuted",
    "C11_large_seed_refuted",
    "C11_sample_end_refuted",
    "C11_warnings_refuted",
    "C11_pack_used_refuted",
    "C11_unstarted_refuted"
   ],
   "note": "False in general: proved for the expressions satisfying resumes/reloads; each excluded case is refuted."
  },
  {
   "property": "C12",
   "status": "proved",
   "theorems": [
    "C12_tape_roundtrip",
    "C12_truncated_rejected",
    "C12_wrong_type_rejected",
    "C12_leftover_rejected"
   ],
   "note": ""
  },
  {
   "property": "C13",
   "status": "partial",
   "theorems": [
    "C13_warnings",
    "C13_broken",
    "C13_bucket_refuted"
   ],
   "note": "The clause that a swallowed error drops at most the failing example is false for bucket and shuffle."
  },
  {
   "property": "C14",
   "status": "partial",
   "theorems": [
    "C14_reset",
    "C14_dynamic_bucket_refuted"
   ],
   "note": "False for dynamic_bucket with a bucket creation function; proved otherwise."
  },
  {
   "property": "C15",
   "status": "partial",
   "theorems": [
    "C15_follows",
    "C15_order",
    "C15_zero",
    "C15_resume",
    "C15_progress",
    "C15_bound",
    "C15_error_refuted",
    "C15_recover_refuted",
    "C15_buffer_refuted"
   ],
   "note": "Every schedule, with sleeping, notification and spurious wake-ups explicit. Holds but for two points: examples read before an error of the source may be lost (C15_error_refuted), and up to 2n+2 examples are read ahead, not n+1 (C15_buffer_refuted)."
  },
  {
   "property": "C16",
   "status": "partial",
   "theorems": [
    "C01_sequential",
    "C16_any_order",
    "C16_same_pipeline",
    "C16_errors",
    "C16_ends",
    "C16_parallel_error_refuted"
   ],
   "note": "Proved for every completion order of the workers if the function does not raise: same examples, same order, same state (C16_same_pipeline) as one after the other (C01_sequential). If it raises and the error is swallowed the claim is false of the code (refuted)."
  },
  {
   "property": "C17",
   "status": "proved",
   "theorems": [
    "C17_repeat"
   ],
   "note": ""
  },
  {
   "property": "C18",
   "status": "proved",
   "theorems": [
    "C18_lookup",
    "C18_size",
    "C18_evict"
   ],
   "note": "For every history of lookups, additions and clears; keys are strings, values anything."
  },
  {
   "property": "C19",
   "status": "partial",
   "theorems": [
    "C19_history",
    "C19_segment",
    "C19_raises",
    "C19_wrap_refuted"
   ],
   "note": "Holds for files that do not change and ranges whose end is below 2^64; a size that makes offset + size wrap around passes the check (C19_wrap_refuted)."
  },
  {
   "property": "C20",
   "status": "proved",
   "theorems": [
    "C20_collate",
    "C20_single",
    "C20_empty",
    "C20_options",
    "C20_make",
    "C20_pad_value_refuted"
   ],
   "note": "For buckets whose tensors at one place have the same data type and, if padded, the same other dimensions (PyTorch's conversion and broadcasting rules are not modelled), and pad values up to 2^53 (above, two different pad values can appear in a row: refuted)."
  },
  {
   "property": "C21",
   "status": "partial",
   "theorems": [
    "C21_syntax",
    "C21_accepted",
    "C21_visit",
    "C21_report",
    "C21_map",
    "C21_map_raises",
    "C21_map_whole",
    "C21_matches",
    "C21_junk_index_refuted",
    "C21_big_index_refuted",
    "C21_greatest_index_refuted",
    "C21_report_refuted",
    "C21_twice_refuted",
    "C21_dangling_refuted"
   ],
   "note": "Every string of the documented syntax is accepted with its meaning; what is accepted follows it except inside brackets, where junk, too large and the greatest index are accepted (refuted). Mapping changes exactly the addressed elements for every order of processing if the paths of the selector do not overlap; overlapping paths map an element twice or write through a dangling pointer (refuted)."
  },
  {
   "property": "C22",
   "status": "partial",
   "theorems": [
    "C22_lf",
    "C22_join",
    "C22_crlf",
    "C22_infer",
    "C22_resume",
    "C22_reset",
    "C22_last_line_refuted",
    "C22_crlf_refuted",
    "C22_infer_refuted",
    "C22_resume_refuted",
    "C22_reload_used_refuted",
    "C22_resume_infer_refuted",
    "C22_reset_refuted"
   ],
   "note": "Every content and every chunk size, mapped files included, with skipping and trimming. Holds for LF; for CRLF only if no chunk ends between the two characters (C22_crlf_refuted, C22_infer_refuted); a last line without line feed raises (C22_last_line_refuted). Saving and loading positions is characterised completely (C22_resume) and fails where a line ends with its chunk (C22_resume_refuted) and in readers in use (C22_reload_used_refuted)."
  },
  {
   "property": "C23",
   "status": "proved",
   "theorems": [
    "C23_until_first",
    "C23_until_last",
    "C23_stays_stopped",
    "C23_content_first",
    "C23_min",
    "C23_content_last",
    "C23_rearm",
    "C23_failure_refuted"
   ],
   "note": "Ranks in lock step, pipelines that do not fail; with a failing pipeline the other ranks hang (C23_failure_refuted)."
  },
  {
   "property": "C24",
   "status": "proved",
   "theorems": [
    "C24_accept_packed",
    "C24_accept_padded",
    "C24_packed",
    "C24_padded",
    "C24_positions",
    "C24_disjoint",
    "C24_empty_packed_refuted"
   ],
   "note": "Extrema are stated for layouts with at least one sequence; C24_empty_packed_refuted shows that a packed layout without sequences is accepted with meaningless extrema."
  },
  {
   "property": "C25",
   "status": "partial",
   "theorems": [
    "C25_accounting",
    "C25_layout",
    "C25_split",
    "C25_split_error",
    "C25_split_packed_partial",
    "C25_packed_sequences",
    "C25_split_packed_error",
    "C25_split_packed_refuted",
    "C25_split_empty_refuted"
   ],
   "note": "Full statement proved for padded batches. For packed batches the code trims only the last sequence (C25_split_packed_refuted); proved is that it splits the packed batch as one sequence."
  },
  {
   "property": "C26",
   "status": "partial",
   "theorems": [
    "C26_crash_atomicity",
    "C26_calls_take_effect",
    "C26_no_deadlock",
    "C26_grids",
    "C26_delete_refuted"
   ],
   "note": "Local file system, any grid of processes, any interleaving, crash at any point. The unrestricted claim is false for interrupted deletions (C26_delete_refuted); proved: complete unless a later call deletes the step."
  },
  {
   "property": "C27",
   "status": "proved",
   "theorems": [
    "C27_step_numbers",
    "C27_stale",
    "C27_stale_raises",
    "C27_no_policy"
   ],
   "note": "Scores are rational numbers (no NaN)."
  },
  {
   "property": "C28",
   "status": "proved",
   "theorems": [
    "C28_scores",
    "C28_raises",
    "C28_score_crash_refuted"
   ],
   "note": "Scores are rational numbers (no NaN). A crash in save_score leaves an unparsable score file: C28_score_crash_refuted."
  },
  {
   "property": "C29",
   "status": "proved",
   "theorems": [
    "C29_config",
    "C29_history",
    "C29_history_restart",
    "C29_updates",
    "C29_periodic",
    "C29_periodic_restart",
    "C29_once",
    "C29_end",
    "C29_errors",
    "C29_stop",
    "C29_stop_only_on_request",
    "C29_publish_period_refuted",
    "C29_stop_ignored_refuted",
    "C29_saved_twice_refuted",
    "C29_validate_at_start_refuted",
    "C29_endless_refuted"
   ],
   "note": "One process; the unit, optimizer, reader, validator are parameters. The refuted theorems record what users may expect beyond the property: stop requests are ignored when max_num_steps is set, a step can be saved twice, a reader that dries up makes the loop endless."
  },
  {
   "property": "C30",
   "status": "partial",
   "theorems": [
    "C30_resume_partial",
    "C30_updates_partial",
    "C30_finished",
    "C30_last_epoch_refuted",
    "C30_epoch_end_refuted",
    "C30_overflow_stop_refuted",
    "C30_early_stop_refuted"
   ],
   "note": "Any number of interruptions and restarts, against the uninterrupted run. Excluded cases (early stopper, end-of-epoch checkpoints, checkpoints of the last epoch, stop during an overflow) are refuted by the other theorems."
  },
  {
   "property": "C31",
   "status": "proved",
   "theorems": [
    "C31_step",
    "C31_run",
    "C31_small_scale_refuted"
   ],
   "note": "For scaler settings whose scale changes are visible to the scaler's tolerance; without that the claim is refuted."
  },
  {
   "property": "C32",
   "status": "proved",
   "theorems": [
    "C32_parallel",
    "C32_consecutive",
    "C32_agree",
    "C32_calls",
    "C32_errors",
    "C32_fake",
    "C32_post_init_refuted",
    "C32_ranks_refuted"
   ],
   "note": "Both the CUDA path (split_group) and the other (new_group). Beside the property: the check of the ranks of a Gangs object and of create_gang are too weak (refuted)."
  },
  {
   "property": "C33",
   "status": "partial",
   "theorems": [
    "C33_full",
    "C33_hybrid_partial",
    "C33_agree_partial",
    "C33_calls_partial",
    "C33_errors_partial",
    "C33_cpu_refuted"
   ],
   "note": "On CUDA or without tensor parallelism. Otherwise valid sizes are rejected: C33_cpu_refuted."
  },
  {
   "property": "C34",
   "status": "partial",
   "theorems": [
    "C34_ends",
    "C34_form",
    "C34_clean",
    "C34_pad_is_eos",
    "C34_replayed_prompt_refuted",
    "C34_max_gen_len_refuted"
   ],
   "note": "Ends with EOS, EOS nowhere else and the length limits hold for every model; no PAD and the minimum length hold if in every step 2 x beam_size tokens are not banned and the prompts hold no banned tokens. Without that they are false: refuted with a prompt that holds EOS in a batch with a shorter prompt."
  },
  {
   "property": "C35",
   "status": "partial",
   "theorems": [
    "C35_sorted",
    "C35_found",
    "C35_too_long",
    "C34_form"
   ],
   "note": "At most beam_size and sorted for every model; at least one under the same condition as C34."
  },
  {
   "property": "C36",
   "status": "proved",
   "theorems": [
    "C36_score",
    "C36_plain",
    "C36_generated_only_refuted",
    "C36_batch_refuted"
   ],
   "note": "The score covers the tokens of the prompt after its first one as well; the literal reading (generated tokens only) is refuted."
  },
  {
   "property": "C37",
   "status": "proved",
   "theorems": [
    "C37_form",
    "C37_clean",
    "C37_pad_is_eos",
    "C37_sorted",
    "C37_too_long",
    "C37_no_error",
    "C37_top_p_proper",
    "C37_top_k_proper",
    "C37_zero_gens_refuted",
    "C37_greedy_refuted",
    "C37_unk_penalty_refuted",
    "C37_max_gen_len_refuted"
   ],
   "note": "For num_gens >= 1. Every hypothesis ends with EOS, also at the length limit. No PAD and the minimum length need a sampler that returns only tokens of positive probability; both samplers of the library are, except greedy top-k with nothing left to choose from."
  },
  {
   "property": "C38",
   "status": "proved",
   "theorems": [
    "C38_top_k",
    "C38_top_p",
    "C38_nonempty",
    "C38_reaches_refuted",
    "C38_negative_p_refuted"
   ],
   "note": "Exact arithmetic on rationals; the nucleus is the smallest set exceeding p, as the docstring says, and is not empty for p >= 0."
  },
  {
   "property": "C39",
   "status": "proved",
   "theorems": [
    "C39_banned",
    "C39_ctor",
    "C39_never_generated",
    "C39_C40_choice",
    "C39_out_of_vocabulary_refuted"
   ],
   "note": "For banned tokens inside the vocabulary; others make the processor fail (C39_out_of_vocabulary_refuted)."
  },
  {
   "property": "C40",
   "status": "proved",
   "theorems": [
    "C40_ngram",
    "C40_never_repeated",
    "C39_C40_choice"
   ],
   "note": "Pure Python path; the CUDA kernel is not modelled."
  },
  {
   "property": "C41",
   "status": "partial",
   "theorems": [
    "C41_round_trip",
    "C41_plain",
    "C41_sound",
    "C41_ends",
    "C41_extra",
    "C41_missing",
    "C41_default",
    "C41_none_first_refuted",
    "C41_int_float_refuted",
    "C41_int_str_refuted",
    "C41_tuple_keys_refuted",
    "C41_lenient_refuted",
    "C41_equal_keys_refuted",
    "C41_other_class"
   ],
   "note": "Holds for every value of a supported type such that a member of a union does not look like a value of an earlier alternative and None comes second in an optional type; the keys of mappings are not containers. The full statement is false for the rest (refuted). Floats are rationals."
  },
  {
   "property": "C42",
   "status": "proved",
   "theorems": [
    "C42_merge",
    "C42_mentions",
    "C42_errors",
    "C42_type_error",
    "C42_empty",
    "C42_twice",
    "C42_fresh",
    "C42_alias_refuted"
   ],
   "note": "Overrides that are not a mapping are returned as they are, without a copy (C42_alias_refuted)."
  },
  {
   "property": "C43",
   "status": "proved",
   "theorems": [
    "C43_everywhere",
    "C43_env",
    "C43_unchanged",
    "C43_dir",
    "C43_no_error"
   ],
   "note": "Strings of 8-bit characters."
  },
  {
   "property": "C44",
   "status": "proved",
   "theorems": [
    "C44_accept",
    "C44_report",
    "C44_paths",
    "C44_message",
    "C44_pathname",
    "C44_blank_refuted",
    "C44_repr_refuted"
   ],
   "note": "The report is exact if the keys of every mapping have different reprs and validate() reports only errors of the object itself; acceptance holds without these."
  },
  {
   "property": "C45",
   "status": "partial",
   "theorems": [
    "C45_myle",
    "C45_noam",
    "C45_polynomial",
    "C45_tri_stage",
    "C45_tri_stage_monotone",
    "C45_tri_stage_steps",
    "C45_cosine",
    "C45_cosine_multiple",
    "C45_cosine_range",
    "C45_groups",
    "C45_power_refuted",
    "C45_tri_stage_refuted",
    "C45_cosine_shrink_refuted",
    "C45_cosine_grow_refuted",
    "C45_int_refuted"
   ],
   "note": "Real numbers instead of floats. Holds for positive powers, positive final scales with a decay stage, and cosine cycles of equal length or integer growth; the _refuted theorems show what happens otherwise."
  },
  {
   "property": "C46",
   "status": "proved",
   "theorems": [
    "C46_scale",
    "C46_state_dict",
    "C46_load_errors",
    "C46_small_scale_refuted"
   ],
   "note": "Scales are rational numbers; overflow is what the optimizer wrapper reports. C46_small_scale_refuted: with a minimum scale below what the division reaches exactly, an overflow is reported as a good step."
  },
  {
   "property": "C47",
   "status": "proved",
   "theorems": [
    "C47_rollback",
    "C47_commit",
    "C47_brackets",
    "C47_state_dict",
    "C47_load_errors",
    "C47_reset",
    "C47_stale_reference_refuted",
    "C47_partial_load_refuted"
   ],
   "note": "Metric objects live on a heap; references taken before a rollback go stale (refuted), a failing load leaves a partly loaded bag (refuted)."
  },
  {
   "property": "C48",
   "status": "proved",
   "theorems": [
    "C48_temporary_seed",
    "C48_transparent",
    "C48_seed",
    "C48_state_dict",
    "C48_load_errors"
   ],
   "note": "Generators are abstract; the choice of generators for a list of devices is not modelled."
  },
  {
   "property": "C49",
   "status": "proved",
   "theorems": [
    "C49_ends",
    "C49_singleton",
    "C49_transient",
    "C49_got",
    "C49_same",
    "C49_resolves",
    "C49_unsatisfiable",
    "C49_cycle",
    "C49_maybe",
    "C49_collection",
    "C49_frozen",
    "C49_register",
    "C49_keys",
    "C49_wire",
    "C49_wire_strict",
    "C49_coll_keys_refuted"
   ],
   "note": "One thread. Providers are programs that ask the container and create objects; a provider may catch errors except in C49_unsatisfiable, C49_cycle and C49_maybe (strict providers, as all auto-wired ones are)."
  },
  {
   "property": "C50",
   "status": "partial",
   "theorems": [
    "C50_full",
    "C50_local",
    "C50_local_stepwise",
    "C50_memory",
    "C50_local_memory",
    "C50_increment",
    "C50_attend",
    "C50_attend_window",
    "C50_reorder",
    "C50_steps",
    "C50_cross",
    "C50_cross_reorder_partial",
    "C50_local_refuted",
    "C50_overflow_refuted",
    "C50_cross_refuted"
   ],
   "note": "Proved for states that keep all steps (every increment and history of feeds and reorderings), for windows as long as no multi-token step runs over the end of a window that is not full, and for modules sharing a bag. Refuted: a multi-token step across a half full window leaves uninitialised memory in it; a single step fed beyond the maximum is silently dropped; the state of encoder-decoder attention ignores reorderings that keep the number of rows."
  },
  {
   "property": "C51",
   "status": "proved",
   "theorems": [
    "C51_encode",
    "C51_alone",
    "C51_stepwise",
    "C51_padding",
    "C51_tables",
    "C51_relative",
    "C51_reference",
    "C51_dim2_refuted",
    "C51_padding_refuted"
   ],
   "note": "Tables over the real numbers; one bag step for all rows. Beside the property: with a bag, padding of a padded batch is combined with a row that is not the padding row (C51_padding_refuted), and a sinusoidal encoder of dimension 2 is accepted but its table is NaN (C51_dim2_refuted)."
  },
  {
   "property": "C52",
   "status": "partial",
   "theorems": [
    "C52_vocab",
    "C52_dim",
    "C52_indivisible",
    "C52_vocab_grad",
    "C52_dim_grad",
    "C52_range_refuted",
    "C52_pad_refuted"
   ],
   "note": "Numbers are any monoid (no rounding). Holds for all indices inside the vocabulary, with the gradients too; an index outside it gives zeros instead of an error (C52_range_refuted) and a negative padding index gets a gradient when sharded over the vocabulary (C52_pad_refuted)."
  },
  {
   "property": "C53",
   "status": "proved",
   "theorems": [
    "C53_column",
    "C53_row",
    "C53_column_grad",
    "C53_row_grad",
    "C53_indivisible",
    "C53_ffn",
    "C53_glu",
    "C53_mha",
    "C53_mha_heads",
    "C53_no_reduce_refuted",
    "C53_sparsity_refuted",
    "C53_dauphin_refuted"
   ],
   "note": "Numbers are any monoid with any multiplication (no rounding). Beside the property, of networks built from the projections: without reduce_output the outputs sum to one bias for each process, the activation sparsity of GLU feed-forward networks looks only at the own shard, and the sharded Dauphin feed-forward network gates the wrong columns."
  },
  {
   "property": "C54",
   "status": "proved",
   "theorems": [
    "C54_create",
    "C54_name",
    "C54_retrieve",
    "C54_complete",
    "C54_unmodified",
    "C54_isolated",
    "C54_has_field",
    "C54_find",
    "C54_load",
    "C54_canonical",
    "C54_config",
    "C54_config_first",
    "C54_find_refuted",
    "C54_base_refuted",
    "C54_reload_refuted",
    "C54_uri_refuted"
   ],
   "note": "Fields other than __source__, which tells the provider. Bases in a circle end in RecursionError. Beside the property: one broken asset makes find_cards fail, base names of in-memory entries are not sanitized, in-memory entries cannot be loaded twice, inherited relative paths are resolved in the wrong directory (refuted)."
  },
  {
   "property": "C55",
   "status": "proved",
   "theorems": [
    "C55_accumulation",
    "C55_accumulation_fp16",
    "C55_deterministic"
   ],
   "note": "One process: the division by the targets of all ranks is inside the abstract normalize."
  },
  {
   "property": "C56",
   "status": "partial",
   "theorems": [
    "C56_fake_partial",
    "C56_reduce_refuted"
   ],
   "note": "Proved for sums, products and all_gather; mean, minimum and maximum are not supported by a fake gang (C56_reduce_refuted)."
  },
  {
   "property": "C57",
   "status": "proved",
   "theorems": [
    "C57_scope"
   ],
   "note": "One thread."
  },
  {
   "property": "C58",
   "status": "partial",
   "theorems": [
    "C58_broadcast_partial",
    "C58_broadcast_refuted"
   ],
   "note": "Holds for the gang of all processes; for other gangs the source rank is taken for a world rank (C58_broadcast_refuted)."
  },
  {
   "property": "C59",
   "status": "partial",
   "theorems": [
    "C59_identity",
    "C59_causal",
    "C59_alone",
    "C59_stepwise",
    "C59_torch",
    "C59_cache",
    "C59_alibi",
    "C59_window_refuted",
    "C59_chunked_refuted",
    "C59_single_refuted",
    "C59_nan_refuted",
    "C59_alibi_refuted",
    "C59_cache_refuted"
   ],
   "note": "Real numbers, no dropout; one head and one component of the values at a time. Holds for no bias and causal biases; windows as long as the queries are more than the window or the keys no more than it, and steps of single queries without padding. Refuted: a window is ignored for several queries within it and more keys; the chunked bias masks nothing; a padded batch of sequences of length 1 sees padding; padded queries with unpadded keys give NaN; ALiBi fails on padded batches; a cache ignores layouts."
  },
  {
   "property": "C60",
   "status": "partial",
   "theorems": [
    "C60_reshard",
    "C60_replicated",
    "C60_native",
    "C60_uneven",
    "C60_stages",
    "C60_basic",
    "C60_safetensors",
    "C60_duplicate",
    "C60_column_linear",
    "C60_row_linear",
    "C60_embeddings",
    "C60_indivisible_refuted",
    "C60_stages_refuted",
    "C60_buffer_refuted"
   ],
   "note": "Holds if FSDP shards every saved tensor (or the data parallel size is 1): a buffer, which FSDP leaves whole, comes back repeated once per saving process (C60_buffer_refuted). A target size that does not divide the dimension drops the last elements without an error, and with several pipeline stages and another tensor parallel size a process gets the parameters of all stages."
  },
  {
   "property": "C61",
   "status": "proved",
   "theorems": [
    "C61_length",
    "C61_whole"
   ],
   "note": "The elements are taken at the places the selector addresses."
  },
  {
   "property": "C62",
   "status": "partial",
   "theorems": [
    "C62_exactly_once",
    "C62_end",
    "C62_complete",
    "C62_saved",
    "C62_resumed",
    "C62_progress_partial",
    "C62_calm_partial",
    "C62_after_error",
    "C62_hang_refuted",
    "C62_hang_end_refuted",
    "C62_save_hang_refuted",
    "C62_lost_error_refuted",
    "C62_unbounded_refuted",
    "C62_selector_refuted"
   ],
   "note": "Every schedule. Each example is delivered at most once, at the end exactly once, also over an interruption. That calls always return is false of the code: next and state_dict may hang (refuted); proved that there are no other hangs, and that next does not hang if it is not called between a push and its decrement. Saving may lose a wake-up in every case."
  },
  {
   "property": "C63",
   "status": "partial",
   "theorems": [
    "C63_complete_partial",
    "C63_local_partial",
    "C63_force",
    "C63_cached",
    "C63_truncated_refuted",
    "C63_half_removed_refuted",
    "C63_local_refuted",
    "C63_dead_refuted",
    "C63_outside_refuted"
   ],
   "note": "Every history of calls, failures and stops. Complete assets are handed out if no stop happened while receiving a file or removing an old asset (otherwise false of the code: C63_truncated_refuted, C63_half_removed_refuted); local_only needs more (C63_local_refuted). A forced call always repairs the cache."
  },
  {
   "property": "C64",
   "status": "partial",
   "theorems": [
    "C64_mask",
    "C64_unmasked",
    "C64_raises",
    "C64_any_spans",
    "C64_extract",
    "C64_shape_refuted"
   ],
   "note": "All random numbers, row lengths and spans. The statement fails in one case: if a row has no room for a span and none is required, the result is an empty integer tensor of shape (0, 0) (C64_shape_refuted)."
  },
  {
   "property": "C65",
   "status": "proved",
   "theorems": [
    "C65_distractors"
   ],
   "note": "One random number corresponds to each other element exactly once, so the choice is uniform if the random numbers are."
  },
  {
   "property": "C66",
   "status": "proved",
   "theorems": [
    "C66_names",
    "C66_llama_export",
    "C66_llama_import",
    "C66_hg_export",
    "C66_hg_import",
    "C66_reference",
    "C66_rows",
    "C66_attention",
    "C66_twice_refuted"
   ],
   "note": "For dictionaries whose names are those of the model and whose projections have the number of rows of the configuration. Gemma 3n and Mistral: names only. The export of LLaMA changes the caller's dictionary in place, so that exporting it a second time gives different weights (C66_twice_refuted); the statement is about one export."
  },
  {
   "property": "C67",
   "status": "proved",
   "theorems": [
    "C67_success",
    "C67_values",
    "C67_report",
    "C67_whole",
    "C67_atomic_refuted",
    "C67_shared_refuted"
   ],
   "note": "Every model and checkpoint. After an exception a part of the model is overwritten (C67_atomic_refuted), and different contents for two names of one parameter are not reported: the last wins (C67_shared_refuted); both are compatible with the statement."
  },
  {
   "property": "C68",
   "status": "proved",
   "theorems": [
    "C68_stream",
    "C68_files",
    "C68_windows",
    "C68_epochs",
    "C68_reset",
    "C68_ranks",
    "C68_limits",
    "C68_listed_epochs",
    "C68_unseeded_refuted",
    "C68_unseeded_ranks_refuted",
    "C68_empty_refuted",
    "C68_limit_zero_refuted"
   ],
   "note": "For permutations of any kind as results of shuffling. Outside the statement: with shuffling and no seed fragments are lost and repeated, in an epoch (C68_unseeded_refuted) and among ranks (C68_unseeded_ranks_refuted); an endless stream of no files never returns (C68_empty_refuted); a limit of 0 fragments lists one (C68_limit_zero_refuted)."
  },
  {
   "property": "C69",
   "status": "proved",
   "theorems": [
    "C69_splits",
    "C69_row_length",
    "C69_batch_size",
    "C69_max_tokens",
    "C69_ordered",
    "C69_raises",
    "C69_bucket",
    "C69_greedy_refuted",
    "C69_small_batches_refuted",
    "C69_shuffle_refuted",
    "C69_resume_refuted"
   ],
   "note": "Lengths without overflow; no batch could have taken one more row holds with ordering only (C69_greedy_refuted). The documented remainder can occur at every chunk of a table (C69_small_batches_refuted); rows are shuffled, or not, against the setting (C69_shuffle_refuted); restoring a pipeline within a shuffled table loses and repeats batches (C69_resume_refuted)."
  },
  {
   "property": "C70",
   "status": "proved",
   "theorems": [
    "C70_run",
    "C70_again",
    "C70_rng",
    "C70_collectives",
    "C70_best",
    "C70_no_score_refuted"
   ],
   "note": "Scores are integers; synchronisation of metrics and the units are functions given from outside. If no unit has the metric of the score only the first rank raises (C70_no_score_refuted). The evaluator and the generator have the same loops and are not modelled separately."
  },
  {
   "property": "C71",
   "status": "proved",
   "theorems": [
    "C71_format",
    "C71_accepts",
    "C71_tags",
    "C71_order",
    "C71_one_change",
    "C71_default",
    "C71_lone_brace_refuted",
    "C71_hash_refuted",
    "C71_values_refuted"
   ],
   "note": "The hash is any function of the text. A lone closing brace is dropped without an error (C71_lone_brace_refuted). Keys and tags are hashed without separators, so that runs differing in two settings can share a directory (C71_hash_refuted); different values can have the same tag (C71_values_refuted)."
  },
  {
   "property": "C72",
   "status": "proved",
   "theorems": [
    "C72_mean",
    "C72_mean_losses",
    "C72_distribution",
    "C72_check",
    "C72_no_targets_refuted",
    "C72_check_refuted"
   ],
   "note": "Rational numbers without rounding; what PyTorch averages is trusted; clipping is not modelled. A rank without targets skips the collective operation of the others (C72_no_targets_refuted); a norm that is not finite on one rank is not reported there (C72_check_refuted)."
  },
  {
   "property": "C73",
   "status": "proved",
   "theorems": [
    "C73_forward",
    "C73_sharded"
   ],
   "note": "Numbers with addition and multiplication without rounding; torch.topk is any choice of different experts. The backward pass is not modelled."
  },
  {
   "property": "C74",
   "status": "partial",
   "theorems": [
    "C74_saves",
    "C74_exports",
    "C74_one_at_a_time",
    "C74_kept_partial",
    "C74_end_partial",
    "C74_lost_refuted",
    "C74_saved_twice_refuted",
    "C74_stale_refuted"
   ],
   "note": "Everything holds but for the last sentence in one case: at the end of the data, if a checkpoint was due at the last step and no validation is, the run ends without committing it (C74_lost_refuted). That a checkpoint is not deleted during export needs that no step is saved twice (C74_saved_twice_refuted) and that older checkpoints are of earlier steps (C74_stale_refuted). One process is followed."
  },
  {
   "property": "C75",
   "status": "partial",
   "theorems": [
    "C75_rejected",
    "C75_buckets",
    "C75_multiple_refuted"
   ],
   "note": "Everything holds except that a bucket for which fewer sequences fit than the multiple is not a multiple of it."
  },
  {
   "property": "C76",
   "status": "partial",
   "theorems": [
    "C76_incremental",
    "C76_steps",
    "C76_rearrange",
    "C76_causal",
    "C76_alone",
    "C76_hooks",
    "C76_hook_refuted"
   ],
   "note": "Proved for causal attention without window and unpadded batches; a hook that returns False does not end the stack, contrary to its documentation."
  },
  {
   "property": "C77",
   "status": "proved",
   "theorems": [
    "C77_visit",
    "C77_post_order",
    "C77_apply",
    "C77_ties",
    "C77_to_device"
   ],
   "note": "Gradients, shapes and data types are left out."
  },
  {
   "property": "C78",
   "status": "partial",
   "theorems": [
    "C78_share",
    "C78_share_refuted",
    "C78_broadcast",
    "C78_broadcast_refuted",
    "C78_unexpected_keys",
    "C78_unexpected_keys_refuted"
   ],
   "note": "Each sentence holds but for one pattern of sharing: ties that differ between source and target (C78_share_refuted), a buffer that is persistent in one module and not in another (C78_broadcast_refuted), a module with two names and a missing child (C78_unexpected_keys_refuted)."
  },
  {
   "property": "C79",
   "status": "partial",
   "theorems": [
    "C79_features",
    "C79_fbank",
    "C79_position",
    "C79_conformer",
    "C79_conformer_causal",
    "C79_stacked_partial",
    "C79_subsampler_partial",
    "C79_stacked_refuted",
    "C79_group_norm_refuted",
    "C79_sample_refuted",
    "C79_subsampler_refuted"
   ],
   "note": "Holds for the extractors without group normalisation and with sample_every_k of 1, the position encoder and the Conformer convolution in evaluation mode. Refuted for the stacked position encoder with several layers, group normalisation, sample_every_k above 1 (drops rows) and the S2T subsampler (refuses padded batches)."
  },
  {
   "property": "C80",
   "status": "partial",
   "theorems": [
    "C80_encode",
    "C80_bounds",
    "C80_decode",
    "C80_outside_partial",
    "C80_outside_refuted",
    "C80_control",
    "C80_nllb_languages",
    "C80_nllb_encoder",
    "C80_s2t_languages_refuted"
   ],
   "note": "Indices outside of the vocabulary are refused if they fit in 32 bits; 64-bit indices are cut first (C80_outside_refuted). Languages of the S2T tokenizer that the model does not have share the unknown token (C80_s2t_languages_refuted). Segmentation of a text into pieces is external."
  },
  {
   "property": "C81",
   "status": "partial",
   "theorems": [
    "C81_special",
    "C81_llama",
    "C81_roundtrip_partial",
    "C81_roundtrip_refuted",
    "C81_modes",
    "C81_as_is",
    "C81_modes_refuted",
    "C81_hf_size_partial",
    "C81_hf_size_refuted",
    "C81_distinct_refuted",
    "C81_history_partial",
    "C81_history_refuted"
   ],
   "note": "Special tokens that are written out in a text do not come back; Gemma3n has no mode for responses and no EOS; the size of Hugging Face vocabularies does not count added tokens; EOS is PAD in Qwen base models; the Hugging Face wrapper keeps its first encoder and decoder for all calls. Splitting a text into tokens is external and enters through encoding_laws."
  },
  {
   "property": "C82",
   "status": "partial",
   "theorems": [
    "C82_loss",
    "C82_smoothed",
    "C82_batch",
    "C82_padding_refuted",
    "C82_targets_partial",
    "C82_targets_refuted",
    "C82_ignored_refuted",
    "C82_metric_partial",
    "C82_metric_refuted"
   ],
   "note": "The loss and its reductions hold for all inputs. Padding is not counted if it is masked or has the padding index; models without padding index count it otherwise (C82_padding_refuted). The number of targets differs if the padding token occurs in sequences (C82_targets_refuted). Ignored indices that are no tokens fail with label smoothing. The metric gives batches without targets the weight of one target. Rounding and infinite logits are left out."
  },
  {
   "property": "C83",
   "status": "partial",
   "theorems": [
    "C83_mask",
    "C83_first_target_refuted",
    "C83_single_target_refuted",
    "C83_loss_refuted",
    "C83_sum_refuted",
    "C83_incremental_refuted"
   ],
   "note": "Only the attention mask holds. The loss compares each position with the target of the next position, since batches and the wrapped model both move the targets by one; the sum, the label smoothing and the incremental state are refuted as well. The loss of the library is external and modelled as documented."
  },
  {
   "property": "C84",
   "status": "partial",
   "theorems": [
    "C84_transcript",
    "C84_counts_partial",
    "C84_accepted",
    "C84_counts_refuted",
    "C84_ranks",
    "C84_rates",
    "C84_reported_partial",
    "C84_reported_refuted"
   ],
   "note": "Proved whenever no transcript is empty and both rates are at least one percent. An utterance whose transcript is empty makes the evaluation fail with a ValueError, and rates below one percent are dropped. Edit distance, splitting into words and decoding are parameters; floating point numbers are rationals."
  },
  {
   "property": "C85",
   "status": "partial",
   "theorems": [
    "C85_translate",
    "C85_batch_translate",
    "C85_created",
    "C85_end_mark_refuted",
    "C85_complete",
    "C85_batch_complete",
    "C85_no_texts"
   ],
   "note": "Proved except that the source ends with its mark: a text longer than max_source_len is cut at the end, the mark first (C85_end_mark_refuted). Generators are functions that treat rows independently."
  },
  {
   "property": "C86",
   "status": "partial",
   "theorems": [
    "C86_loss_partial",
    "C86_batches",
    "C86_loss_refuted",
    "C86_single_token_refuted"
   ],
   "note": "Proved for prompts and responses with at least one token each, none of the response being the PAD of the model. The first token of a response to an empty prompt is never a target, and an example of a single token makes the training fail. Without chat templates; numbers are rational."
  },
  {
   "property": "C87",
   "status": "partial",
   "theorems": [
    "C87_mistral",
    "C87_llama",
    "C87_llama3",
    "C87_speakers",
    "C87_forged_refuted",
    "C87_marks_refuted",
    "C87_created"
   ],
   "note": "Acceptance and layout are proved for all tokenizers. That speakers cannot be forged is proved for LLaMA 3 if no text encodes to control tokens, and refuted for encoders that recognise their names (tiktoken with allowed_special=all) and for the [INST] formats."
  },
  {
   "property": "C88",
   "status": "partial",
   "theorems": [
    "C88_together",
    "C88_together_without_prompt",
    "C88_bye_refuted",
    "C88_asked",
    "C88_printed_partial",
    "C88_printed_refuted"
   ],
   "note": "Agreement of the ranks is proved for system prompts other than bye and refuted for bye. The printed text is that of the reply if the decoder only ever adds to its text; refuted for decoders with replacement characters. The reply of the model is the same function on all ranks."
  },
  {
   "property": "C89",
   "status": "partial",
   "theorems": [
    "C89_batch",
    "C89_last_sample_refuted",
    "C89_normalize_refuted",
    "C89_normalize_asr",
    "C89_resumed_refuted",
    "C89_buckets"
   ],
   "note": "Equal pieces and limits are proved for all recordings and generators. The last sample of a cropped recording is never used, normalize_audio only changes the precision, and the generator of the cropper is not part of the state of the reader. Which recordings form a batch is left to the model of bucket_by_length."
  },
  {
   "property": "C90",
   "status": "partial",
   "theorems": [
    "C90_schedule_partial",
    "C90_thawed_refuted"
   ],
   "note": "Proved for models whose parameters all learn when they are created. Parameters frozen for another reason are thawed at the end of the frozen steps, but not if training is resumed after them."
  },
  {
   "property": "C91",
   "status": "partial",
   "theorems": [
    "C91_encodings",
    "C91_too_long",
    "C91_distances",
    "C91_single_query_refuted",
    "C91_clipped"
   ],
   "note": "Proved for as many queries as keys, and for Shaw attention for any number. With relative encodings a single query over several keys, as in incremental decoding, gets the score of one distance for all keys."
  },
  {
   "property": "C92",
   "status": "proved",
   "theorems": [
    "C92_local",
    "C92_length",
    "C92_window"
   ],
   "note": "Real numbers, one head and one coordinate of the values; products with keys and encodings and the soft cap are parameters. Elements without a valid key in their window, which are padding, get an average of their context and are excluded."
  },
  {
   "property": "C93",
   "status": "partial",
   "theorems": [
    "C93_loaded",
    "C93_succeeds",
    "C93_trace",
    "C93_renamed",
    "C93_unselected_refuted",
    "C93_missing_refuted",
    "C93_nondeterministic_refuted",
    "C93_min_batch_refuted",
    "C93_twice_refuted"
   ],
   "note": "Rows, values, order and traces are proved for all fragments, columns and filters. A filter on a column that is not loaded fails only with traces, missing columns are left out silently, tables of exactly min_batch_size rows are kept, non_deterministic_read is passed as deterministic and has no effect, and of two fields for one column the first is missing."
  },
  {
   "property": "C94",
   "status": "partial",
   "theorems": [
    "C94_strings",
    "C94_range",
    "C94_lengths",
    "C94_empty_refuted",
    "C94_parts_refuted",
    "C94_fixed",
    "C94_null_refuted",
    "C94_nested",
    "C94_repeated"
   ],
   "note": "Proved for rows whose lists have a value, and for arrays without nulls. Rows with empty lists or nulls are kept or dropped depending on the other rows; a null in a slice becomes an empty list when offsets are normalised."
  },
  {
   "property": "C95",
   "status": "partial",
   "theorems": [
    "C95_groups",
    "C95_partition",
    "C95_values",
    "C95_count_refuted",
    "C95_name_refuted"
   ],
   "note": "The assignment and its exactness are proved for all names and patterns. A configured group that selects by .* and is empty is left out, so that lists with a value per configured group are refused; names match as prefixes."
  },
  {
   "property": "C96",
   "status": "partial",
   "theorems": [
    "C96_sources",
    "C96_too_many_refuted",
    "C96_embedding",
    "C96_active_refuted",
    "C96_window_partial",
    "C96_window_refuted"
   ],
   "note": "Sharing is proved for all numbers of layers with at least five unshared ones or no shared ones; with fewer, a pass raises an error. The embedding goes to all versions but the first, whichever is active. Decoding element by element ignores the window of local layers, so that it agrees with a whole pass only up to the length of the window."
  },
  {
   "property": "C97",
   "status": "partial",
   "theorems": [
    "C97_start",
    "C97_model_only_refuted",
    "C97_skip_init_refuted",
    "C97_ddp_sharded",
    "C97_reference",
    "C97_load",
    "C97_create",
    "C97_create_refuted",
    "C97_rank0",
    "C97_reshard",
    "C97_reshard_refuted",
    "C97_wrapped"
   ],
   "note": "Proved for all sections, families, gangs and checkpoints but one combination: with FSDP and only checkpoints of the model alone, nothing is restored and nothing broadcast, so that all ranks but the first train random shards. Families without meta initialisation are created differently on each rank, skip_init is dropped, and FSDP1 reverses an explicit reshard_after_forward."
  },
  {
   "property": "C98",
   "status": "partial",
   "theorems": [
    "C98_quantized",
    "C98_target_codebooks_refuted",
    "C98_temp",
    "C98_updates",
    "C98_updates_refuted",
    "C98_layers"
   ],
   "note": "Entries, targets, temperature and layers are proved for all sizes, scores, noise and histories. The targets are those of all codebooks even if fewer are configured, and the counter of the temperature counts passes and not updates, so that it runs ahead with gradient accumulation."
  },
  {
   "property": "C99",
   "status": "partial",
   "theorems": [
    "C99_cards",
    "C99_described",
    "C99_described_refuted"
   ],
   "note": "Names of steps, of the last and of the best are proved for every directory and all scores. The description is that of the run that began last in the directory, so that it is wrong for earlier steps once a run with another configuration has begun there, even if that run fails."
  }
 ]
}
