# Formal model of fairseq2 in Rocq (Coq 8.16.1)

## 1. How the development is organised

All sources are under `rocq/theories/` (logical prefix `Verif`). For each area `X`:

| file | contents |
| --- | --- |
| `X_Model.v` | total, computable Gallina functions that mirror the code function by function; every definition cites the file and lines in `/repo` it models; exceptions are values. No proofs. |
| `X_Spec.v` (or a section at the head of `X_Props.v`) | the small independent specification: list functions, relations and predicates that do not mention the model's helpers. |
| `X_Proofs.v` | lemmas and proofs. |
| `X_Props.v` | only the property theorems, each closed by `exact <lemma>`, followed by `Print Assumptions`, and beside it an `Example` showing that a concrete non-trivial case meets its hypotheses. |

Conventions

* Loops whose termination depends on data that the model does not bound (e.g. `filter` on an infinite source)
  take fuel and return `None` (out of fuel) when it is exhausted. Theorems either show that enough fuel exists
  or are about runs that did not run out of fuel (fuel monotonicity is proved).
* User callbacks, language models, random number streams, thread schedules, completion orders and crash points are
  universally quantified (function parameters, oracles, schedules). None of them is an axiom.
* Where the faithful model violates the English property a theorem `..._refuted` gives a concrete witness (by
  computation) and the largest true part is proved as `..._partial`; both are reported in section 4 and in the manifest.

## 2. Trusted base

* Coq 8.16.1's kernel (and `coqchk`), the standard library; nothing else is imported. The axioms that
  `Print Assumptions` reports are listed per theorem in section 5 (only theorems about learning rate schedules, position tables and
  attention biases use any: the standard library's axioms of the classical real numbers).
* The correspondence of the model with the code is by reading. `/repo` is not executed.
* Not modelled anywhere: PyTorch tensor kernels (tensors are lists / functions), floating point rounding (scores and
  rates are integers, rationals or reals), NCCL / c10d (collectives are their mathematical meaning), the OS beyond the
  operations named in the checkpoint model, CPython, pybind11, memory safety, time.

## 3. Plan per property

| property | what is modelled | how it is proved |
| --- | --- | --- |
| C01 | data sources as state machines (`next/reset/record/reload`) with fuel; combinators as functions on sources; `data_pipeline` wrapper | relation "a state drains to list l"; one lemma per combinator; structural induction on a pipeline AST |
| C02 | `shard_data_source::next` | induction on the input in strides |
| C03 | `bucket_data_source::next` | induction; spec is `chunks` |
| C04 | `bucket_by_length_data_source::next` with one queue per class | invariant over the consumed prefix |
| C05 | `dynamic_bucket_data_source::next` | invariant over the consumed prefix |
| C06 | `packed_data_source::next` | conservation invariant |
| C07 | `shuffle_data_source` with an arbitrary stream of random numbers | permutation invariant |
| C08 | `zip_data_source::next` | lock-step induction |
| C09 | `round_robin_data_source::next` | invariant on per-pipeline epochs; refutations of the wrong EOD |
| C10 | `sample_data_source` with arbitrary draws | invariant on per-pipeline cursors |
| C11 | `record_position/reload_position` of every source, tape | each combinator preserves the law "reload (record s) is bisimilar to s"; induction on the AST |
| C12 | tape records and typed reads | round trip by induction on the recorded list |
| C13 | `data_pipeline::next` with errors | invariant over call histories |
| C14 | `reset` of every source | law per combinator |
| C15 | prefetch as a two-thread transition system | invariant over all interleavings; progress lemma |
| C16 | parallel map: slots filled in arbitrary order | every permutation of task completions yields the same buffer |
| C17 | `repeat_data_source` | induction over epochs |
| C18 | `lru_cache` (list + index) | refinement to a recency list |
| C19 | `file_mapper` parsing + 64-bit range check | case analysis with wrap-around written out |
| C20 | collater with options per path (`Coll_*`) | the path-based code refines a structural relation; induction on the first item; padding arithmetic |
| C21 | selector parser, visitor and mapper (`Sel_*`) | parser soundness and completeness against a grammar, induction on paths for the visited places, frame property of mapping for every order |
| C22 | record reader over chunk lists | induction over chunks; spec is line splitting of the concatenation |
| C23 | one reader per rank, collective min/sum | induction over calls, all ranks in lock step |
| C24, C25 | BatchLayout / SequenceBatch constructors | induction over lengths |
| C26 | file system as a set of paths; save/delete as lists of atomic operations; crash = prefix; ranks interleave | invariant over every prefix of every interleaving |
| C27, C28 | stale-step computation; score sorting | set equalities, sortedness and permutation |
| C29, C30, C31 | the trainer loop as a state machine | invariants over runs; simulation for resume |
| C32, C33 | mesh construction | arithmetic |
| C34-C36 | beam search with an arbitrary scoring function | invariants over steps |
| C37, C38 | sampling loop, samplers | invariants; order statistics |
| C39, C40 | step processors | iff characterisations; trace property |
| C41 | types and values as inductive types; structure/unstructure | mutual induction |
| C42, C43, C44 | nested maps, directives, object trees | structural induction |
| C45 | schedules over R | real analysis in the standard library |
| C46, C47, C48, C49 | state machines | invariants over histories |
| C50, C51 | KV cache states; position indices | refinement to the history |
| C52, C53 | tables/matrices over Z with an explicit gang | algebra |
| C54 | providers, envs, base chains | structural induction / fuel for chains |
| C55 | gradient accumulation inside the trainer model | induction over micro-batches |
| C56, C57, C58 | fake gang, gang context stack, broadcast over gangs | algebra; invariant over context histories; case analysis |
| C59 | attention over padded and packed batches with biases, over R | the masked entries get weight zero, sums over the others |
| C60 | checkpoint loaders and `reshard_tensor` on matrices cut into pieces | lists: cutting and joining are inverse |
| C61 | length extraction over the visited places (`Sel_*`) | corollary of the visiting theorem, induction on the visited elements |
| C62 | map with deterministic=False as a machine: consumer and tasks with the lock, the condition variable and the counter as separate steps (`Amap_*`) | invariant of all schedules (permutation), decreasing measure for termination, characterisation of stuck states, witness schedules for the hangs |
| C63 | the download operation as a machine over three directories, stops between and inside steps (`Dl_*`) | invariant of all histories; witness histories for the findings |
| C64 | spans, scatter and top-k on lists, random numbers as parameters, top-k as a relation (`Mask_*`) | counting with duplicate-free lists; exact row lemma for the flat tensors |
| C65 | index arithmetic of the sampling on flat lists (`Mask_*`) | one-to-one map of the random numbers |
| C66 | `str.replace`, the fragment of regular expressions the key maps use, the key maps themselves as text, dictionaries, reordering of rows (`Hub_*`) | symbolic execution of the maps on names with an unknown layer number and suffix; injectivity on known names; permutation inverse; rotary encoding of C51 for the scores |
| C67 | the loop of `set_model_state` over a memory of tensors with identities (`Mst_*`) | invariant over the entries read so far |
| C68 | the streamer with its saved position, the windows over repeated epochs with suspended generators, listing with limits, the parts of the ranks (`Pq_*`) | invariant: what is left of the window and of the stream; induction over histories |
| C69 | the loops of `compute_length_splits`, the choice of batches, taking rows, concatenation and shuffling of buckets (`Tb_*`) | induction over the rows left; permutations of indices |
| C70 | the run of `StandardValidator` with its loops over units, steps and batches, as events and a state (`Val_*`) | refinement to a flat specification by induction; invariant over histories for the best score |
| C71 | sweep tags: flattening of the configuration, tags of values, the formatter as an automaton over characters, the hashed text (`Swp_*`) | induction on formats and configurations; permutations for the order of keys |
| C72 | the micro-batches, scaling, averaging and normalization of the gradients of a step over rational numbers (`Grad_*`) | algebra over sums, by induction on ranks and batches |
| C73 | the layer with its folded weights, routing, scattering and shards over a type with addition and multiplication (`Moe_*`) | refinement to sums over indices; splitting of sums for the shards |
| C74 | a machine of the trainer's turns and of the two background operations, with the log of what happens (`Bg_*`) | invariants over all schedules |
| C75 | the function over integers (`Bkt_*`) | induction over the loop with the range of lengths left to the current bucket |
| C76 | the whole decoder in evaluation mode over the attention states of C50, with abstract arithmetic at each position (`Dec_*`) | invariant: each layer's state holds the keys and values of that layer for the whole prefix; causality of the pass without a bag |
| C77 | modules and tensors with identities, the slots as a mutable store; the recursive walks with their memos (`Mod_*`) | induction over the module tree: what the memo holds is closed under reachability; converting is a fold over a duplicate-free list of slots |
| C78 | the same, with the contents of tensors per process for broadcasting (`Mod_*`) | from C77 and the first-occurrence semantics of the memo of tensors |
| C79 | rows of frames, a convolution as an arbitrary function of the window, other arithmetic per frame (`Cnv_*`) | windows within the computed length lie within the sequence and the zeros after it; induction over the layers |
| C80 | pieces of the model file, loading with control symbols, encoder writes to a tensor by position, decoder with checks, modes of translation tokenizers (`Spm_*`) | arithmetic of the positions written; pieces after loading are a permutation that keeps the order of normal pieces |
| C81 | tiktoken encodings with special tokens, the lists of special tokens of LLaMA, modes of the tokenizers, vocabulary information of Hugging Face tokenizers, cached encoder and decoder (`Tok_*`) | indices by position; distinct names by computation in the kernel; induction over parts and calls |
| C82 | the two branches of the loss over rational numbers with an arbitrary log_softmax, tensors as nested lists, the loss metric (`Xen_*`) | both branches equal one specification position by position; sums by induction |
| C83 | the adapter around an arbitrary model function, with the documented loss of the library (`Hga_*`, `Xen_*`) | refuted by theorems over all models and by a model that predicts perfectly; the attention mask position by position |
| C84 | greedy decoding, padding of the hypotheses, the metric with its merge over ranks and the reported values (`Wer_*`) | runs of a path and their uniqueness; induction over batches and ranks; refuted for silent and for nearly perfect models |
| C85 | converter, translator and completer around an arbitrary generator and tokenizer (`Txg_*`, `Wer_Model`) | a batch refines its texts one by one, by induction over the texts; the end mark refuted for texts that are too long |
| C86 | examples, target masks, collation, the shifted batches and the loss of the recipe, over an arbitrary causal decoder (`Sft_*`, `Xen_*`) | composed from C82: positions of every row split into prompt, response and padding; refuted for empty prompts |
| C87 | the three dialog encoders over an arbitrary tokenizer (`Cht_*`) | acceptance and layout by induction on the pairs of messages; injectivity by splitting at the control tokens; refuted for tokenizers that recognise control tokens in text and for the formats with textual marks |
| C88 | the loops of the chat program on the first and on the other ranks, and the hook that prints replies (`Cht_*`) | simulation of the first rank by the others, induction on the inputs and on the generated tokens; refuted for the system prompt "bye" and for decoders with replacement characters |
| C89 | the limits of batches, the cropper and the pipeline of a batch, over any random generator (`W2d_*`, `Bkt_*`) | induction on the batch, C75 for the buckets; refuted: the last sample, normalize_audio, resuming |
| C90 | freezing of parameters by parts and steps (`W2d_*`) | invariant of the flag along the steps of a process; refuted for parameters frozen for another reason |
| C91 | the relative encodings, the shift of the scores and the clipped distances as lists of rows (`Rel_*`) | index arithmetic of reshaped lists; refuted for a single query over several keys |
| C92 | blocks, contexts, masks and the relative shift of local attention over real numbers, with products as parameters (`Rel_*`) | entry by entry; sums over a context are sums over the window |
| C93 | reading, partition and trace columns, filters and renaming of a fragment as tables of optional values (`Pql_*`) | the loaded table is computed from the origins of its rows; refuted: filters on columns not loaded, missing columns, min_batch_size, non_deterministic_read, one column in two fields |
| C94 | three-valued masks, the shortcut for tables whose rows all pass, arrays of lists with offsets and nulls (`Arw_*`) | per row; induction on offsets; refuted for empty lists and nulls |
| C95 | the assignment of named parameters to groups, with matching as a parameter (`Grp_*`) | induction on the parameters; permutation; refuted: the number of groups, names as prefixes |
| C96 | the roles of layers, the slots filled and read in a pass over the layers, the versions that get the embedding, what a local layer sees (`Gem_*`) | invariant of the slots by induction on the layers; refuted: too few layers of their own, active versions other than the first, windows in decoding |
| C97 | the origin of the parameters of each rank through creation or loading, wrapping and restoring (`Ini_*`) | cases over sections and gangs, for all ranks and lists of checkpoints; refuted: only checkpoints of the model alone with FSDP, families without meta initialisation, skip_init, reshard_after_forward of FSDP1 |
| C98 | the flat scores, one-hot codes and sums over entries, the temperature and its counter, the stack of layers with the hook (`Vqz_*`) | sums over one-hot blocks; induction on layers and passes; refuted: fewer target codebooks than codebooks, the counter with gradient accumulation |
| C99 | the scan of the directory, the dictionary of cards and its updates, the sorting of scores, the history of runs and saves (`Mtd_*`) | the loop as a fold over the saved steps; reuse of the order of scores of C28; induction on events; refuted: model.yaml after a run with another configuration |
| C100 | the three environment variables, the detector branch by branch and the devices CUDA sees (`Ddv_*`) | case analysis against the documented precedence; injectivity of positions in the list of visible devices; refuted: a single device by UUID, the CPU without LOCAL_RANK, a shared single device |

## 4. Findings

Each line is a theorem that exhibits, by computation on the model, a case in which the code does not do what the property (or the documentation) says.
The property itself is proved for the other cases; what exactly is excluded is a hypothesis of the theorems named in the manifest.

| theorem | file | finding |
| --- | --- | --- |
| `C07_swallowed_error_refuted` | DP_Props | When an upstream operator fails recoverably and the error is swallowed, one more example is lost and a value that has been moved from is yielded instead (data/shuffle_data_source.cc:60-91). |
| `C08_finitude_refuted` | DP_Props | The zip of finite pipelines claims to be infinite, so that [yield_from] rejects it although all its data is finite (data/zip_data_source.cc:20-55). |
| `C09_last_pipeline_refuted` | DP_Props | An empty last pipeline, or one that is exhausted before the others when repeats are not allowed, makes round_robin report the end of data while examples are left (data/round_robin_data_source.cc:24-86). |
| `C09_stop_at_shortest_refuted` | DP_Props | With stop_at_shortest, a count or constant pipeline ends the round robin after its first round. |
| `C10_all_empty_refuted` | DP_Props | Without repeats, sampling from empty pipelines only does not report the end of data: the pipeline that is asked for the next example does not exist (data/sample_data_source.cc:68-133; undefined behaviour in C++). |
| `C11_repeat_refuted` | DP_Props | [repeat] does not save that the epoch had data: saved after the last example of an epoch and loaded into a new pipeline, it stops (data/repeat_data_source.cc:19-76). |
| `C11_large_seed_refuted` | DP_Props | A seed of 2^63 or more is saved as a negative number, which is then rejected (data/shuffle_data_source.cc:119-178, data/tape-inl.h:46-47, utils/cast.h:44-60). |
| `C11_sample_end_refuted` | DP_Props | [sample] without repeats divides by zero when everything has been sampled; the state saved then is rejected (data/sample_data_source.cc:83-133). |
| `C11_warnings_refuted` | DP_Props | The number of errors swallowed so far is not saved (data/data_pipeline.cc:116-189). |
| `C11_pack_used_refuted` | DP_Props | [pack] keeps the leftover of a truncated sequence when a state without leftover is loaded (data/packed_data_source.cc:127-147). |
| `C11_unstarted_refuted` | DP_Props | The state of a pipeline that has not been started yet does not carry the random state: loading it into a pipeline that is in use does not rewind the random generators (data/data_pipeline.cc:138-189). |
| `C13_bucket_refuted` | DP_Props | [bucket] loses the examples collected so far when an error is swallowed (data/bucket_data_source.cc:13-41). |
| `C14_dynamic_bucket_refuted` | DP_Props | [dynamic_bucket] with a bucket creation function does not drop the buckets it has created but not yet returned (data/dynamic_bucket_data_source.cc:96-103). |
| `C16_parallel_error_refuted` | DP_Props | C16: errors in parallel map When a call fails and the error is swallowed, examples of the same batch are yielded without having been mapped (data/map_data_source.cc:97-199). |
| `C26_delete_refuted` | Ckpt_Props | "Every reported step is complete at every instant" is false: deleting a step is not atomic, so a crash during [delete_checkpoint] leaves a step that is reported and cannot be loaded. |
| `C28_score_crash_refuted` | Ckpt_Props | Writing a score is not atomic: after a crash in [save_score] the listing raises for ever. |
| `C46_small_scale_refuted` | LossScale_Props | Without [visible] the overflow is not noticed: with a minimum scale of 1e-6 the halving of 2e-5 is within the tolerance, so the step in which the optimizer was not called is reported as an ordinary step. |
| `C47_stale_reference_refuted` | MetricBag_Props | A reference obtained from [get] before the transaction no longer belongs to the bag after a rollback: updates made through it are lost. |
| `C47_partial_load_refuted` | MetricBag_Props | A rejected state dictionary may have been loaded in part. |
| `C29_publish_period_refuted` | Trainer_Props | A metric period of 0 next to a checkpoint period is not rejected with the [ValueError] it gets alone, and a negative one is accepted. |
| `C29_stop_ignored_refuted` | Trainer_Props | With [max_num_steps] a requested stop is ignored. |
| `C29_saved_twice_refuted` | Trainer_Props | A checkpoint can be written twice for the same step: at a step that is due, and when the run is stopped at the end of the epoch. |
| `C29_validate_at_start_refuted` | Trainer_Props | [validate_at_start] without a validator is accepted by the constructor and ends in an internal error. |
| `C29_endless_refuted` | Trainer_Props | If the reader has no more data after the first epoch the trainer runs for ever without making a step. |
| `C30_last_epoch_refuted` | Trainer_Props | A checkpoint of the last epoch: the restarted trainer stops at once, although updates are missing. |
| `C30_epoch_end_refuted` | Trainer_Props | A checkpoint written at the end of an epoch holds the number of that epoch: the next one is counted again under the same number. |
| `C30_overflow_stop_refuted` | Trainer_Props | A stop requested while a step overflows: the checkpoint counts the step that was not made, and its number is skipped. |
| `C30_early_stop_refuted` | Trainer_Props | The checkpoint of the step at which the early stopper decides to stop is written before the decision: a trainer that is interrupted there and restarted goes on. |
| `C31_small_scale_refuted` | Trainer_Props | Below the resolution of the scaler's comparison (see C46_small_scale_refuted) an overflow is counted as an update. |
| `C24_empty_packed_refuted` | Batch_Props | A packed layout with no sequence at all is accepted; its minimum and maximum lengths are not those of any sequence. |
| `C25_split_packed_refuted` | Batch_Props | The full claim fails for packed batches: only the last sequence is trimmed, so that the target of the last element of every other sequence is the first element of the next one. |
| `C25_split_empty_refuted` | Batch_Props | A batch without rows is accepted but cannot be split, although no sequence has length 1. |
| `C23_failure_refuted` | Reader_Props | If the pipeline of one rank fails, that rank raises and the others wait for it for ever. |
| `C39_out_of_vocabulary_refuted` | StepProc_Props | A banned token outside of the vocabulary makes the processor fail instead of being ignored. |
| `C34_replayed_prompt_refuted` | Beam_Props | A prompt that holds EOS inside (as several translation models use it) in a batch with a shorter prompt: its score becomes -inf while the prompt is replayed, all candidates tie, and a hypothesis with PAD and one that is too short are returned, although the vocabulary is large enough and the model's log probabilities are finite. |
| `C36_batch_refuted` | Beam_Props | The score of a prompt's hypotheses depends on the other prompts of the batch. |
| `C34_max_gen_len_refuted` | Beam_Props | max_gen_len is counted from the longest prompt, too: a shorter prompt may get more than max_gen_len tokens. |
| `C36_generated_only_refuted` | Beam_Props | The score covers the prompt's own tokens: it is not the sum over the generated tokens. And with echo_prompt=False the first of the step scores is the sum over the prompt and the first generated token, not the score of that token. |
| `C38_reaches_refuted` | Sampling_Props | With the docstring's "exceeds" read as "reaches" the set may be one token too large. |
| `C38_negative_p_refuted` | Sampling_Props | A negative [p] is accepted and leaves no token: sampling always fails. |
| `C37_max_gen_len_refuted` | Sampling_Props | max_gen_len counts from the longest prompt: a shorter one is continued by more than max_gen_len tokens. |
| `C37_zero_gens_refuted` | Sampling_Props | num_gens = 0 is accepted and gives one hypothesis. |
| `C37_greedy_refuted` | Sampling_Props | Greedy sampling (k = 1) generates PAD if nothing has a positive probability, for example after a processor banned all tokens. |
| `C37_unk_penalty_refuted` | Sampling_Props | A penalty on UNK makes its probability negative: with a distribution that is fine otherwise sampling fails. |
| `C32_post_init_refuted` | Gang_Props | C32 as documented: a Gangs object whose root rank is 0 and one of whose other ranks is not is rejected. It is not, if the tensor parallel rank or the pipeline parallel rank alone differs. |
| `C32_ranks_refuted` | Gang_Props | The rank that equals the size, which no process has, is accepted by create_gang. |
| `C33_cpu_refuted` | Gang_Props | C33 without CUDA: with tensor parallelism, sizes that fit are rejected, since create_gang works on the gang of all processes only. |
| `C56_reduce_refuted` | Gang_Props | The other three reductions are refused. |
| `C58_broadcast_refuted` | Gang_Props | For the other gangs it is not so: a source is refused, or another process is taken for it. |
| `C41_none_first_refuted` | Struct_Props | The round trip fails for None \| int: only None is accepted. |
| `C41_int_float_refuted` | Struct_Props | ... for int \| float: 7/2 comes back as 3; ... |
| `C41_int_str_refuted` | Struct_Props | ... for int \| str: a string of digits comes back as a number; ... |
| `C41_tuple_keys_refuted` | Struct_Props | ... and mappings whose keys are tuples cannot be unstructured: a TypeError, not a StructureError, is raised. |
| `C41_lenient_refuted` | Struct_Props | Structuring is lenient where no value of the type was given: a string is split into a list, a fraction is cut off. |
| `C41_equal_keys_refuted` | Struct_Props | Keys that become equal are merged silently, the last value wins; equal elements of a set, in contrast, are reported. |
| `C42_alias_refuted` | Config_Props | ... unless the overrides are not a mapping: they are returned as they are, not copied. |
| `C44_blank_refuted` | Config_Props | An error without text is an error, but the message says nothing. |
| `C44_repr_refuted` | Config_Props | Two keys with the same repr: only the last one is reported. |
| `C45_power_refuted` | LR_Props | A negative power is not rejected and takes the learning rate above its base value. |
| `C45_tri_stage_refuted` | LR_Props | With a final scale of 0, which is not rejected, the first decay step raises an error; without decay steps the learning rate jumps. |
| `C45_cosine_shrink_refuted` | LR_Props | ... but cycles that shrink end with an error, ... |
| `C45_cosine_grow_refuted` | LR_Props | ... and cycles that grow need not fall to their end: the last step of the third cycle goes up again. |
| `C45_int_refuted` | LR_Props | A parameter given as an int (for example 0) for all groups is a TypeError. |
| `C49_coll_keys_refuted` | Dep_Props | The keys of a collection are repeated when several objects are registered under the same one. |
| `C54_find_refuted` | Asset_Props | One asset with a missing base makes find_cards() fail for all. |
| `C54_base_refuted` | Asset_Props | Entries passed in memory keep their base name as written, so that a base in quotes with spaces, accepted, is never found. |
| `C54_reload_refuted` | Asset_Props | Loading entries in memory removes their names: they cannot be loaded again. |
| `C54_uri_refuted` | Asset_Props | A relative path inherited from a base asset is taken relative to the directory of the derived asset. |
| `C50_local_refuted` | Attn_Props | A step of two tokens fed to a half full window leaves memory that was never written in the window, and drops a step that is still inside it. |
| `C50_overflow_refuted` | Attn_Props | Feeding one step more than the maximum to a state without increment is not an error: the step is lost. |
| `C50_cross_refuted` | Attn_Props | A reordering that keeps the number of rows is ignored by attention over an encoder output: with rows of the sources a, a, b, c and the order 2, 2, 3, 3 (a is finished, b and c get two beams each), the rows stay those of a, a, b, c. |
| `C51_dim2_refuted` | Pos_Props | A sinusoidal encoder for elements of two numbers, an even number, has no table: its frequencies divide zero by zero. |
| `C51_padding_refuted` | Pos_Props | With a bag padding is not combined with the padding row: a row of length 1 of 3, at step 2. |
| `C59_window_refuted` | Bias_Props | A window is not applied to a step of several queries that are no more than the window, although there are more keys: the last of two queries sees three keys through a window of two. |
| `C59_chunked_refuted` | Bias_Props | The chunked bias masks nothing: the first of two queries sees the key after it. |
| `C59_single_refuted` | Bias_Props | A padded batch of queries of length 1 has no causal bias: the only query sees padding. |
| `C59_nan_refuted` | Bias_Props | Padding among the queries but not the keys gives NaN there. |
| `C59_alibi_refuted` | Bias_Props | ALiBi with several heads does not work for padded batches. |
| `C59_cache_refuted` | Bias_Props | A cache that has served one layout gives wrong results for another one of the same shape. |
| `C52_range_refuted` | Shard_Props | An index out of the vocabulary is an error of the unsharded embedding, but the sharded one returns zeros. |
| `C52_pad_refuted` | Shard_Props | A negative padding index, which counts from the end, has no gradient in the unsharded table, but it has one in the sharded table. |
| `C53_no_reduce_refuted` | Shard_Linear | Without reducing, the outputs of the ranks do not sum up to the output: each of them has the bias. |
| `C53_sparsity_refuted` | Shard_Nets | [_gaussian_topk] for a sparsity of one half, where icdf(0.5) = 0: relu(x - mean). The mean of the values on one rank is not the mean of all. |
| `C53_dauphin_refuted` | Shard_Nets | The gated network of Dauphin et al. splits the output of the inner projection in halves: on each rank it pairs other columns. |
| `C60_indivisible_refuted` | Load_Props | A dimension that the target size does not divide loses its last elements without an error. |
| `C60_stages_refuted` | Load_Props | If only the tensor parallel sizes differ, it gets the parameters of all stages. |
| `C60_buffer_refuted` | Load_Props | A tensor that FSDP does not shard, such as a buffer, comes back repeated once for each process of the saving gang. |
| `C19_wrap_refuted` | File_Props | The whole claim is false: a size close to 2^64 passes the check, and the block reaches outside of the file. |
| `C15_error_refuted` | Prefetch_Props | Examples that were read before an error are lost, if the thread is fast. |
| `C15_recover_refuted` | Prefetch_Props | An error that the pipeline could skip (one bad example) is raised again by every later call, reset included, although the source has more examples. |
| `C15_buffer_refuted` | Prefetch_Props | More than [n + 1] examples are read ahead: one buffer is filled while the other one is used. |
| `C22_last_line_refuted` | Text_Props | A last line without a line feed is not given: reading raises an error instead. |
| `C22_crlf_refuted` | Text_Props | With pieces of 1024 bytes, the smallest size, and a piece that ends between a carriage return and a line feed, two lines are given as one. |
| `C22_infer_refuted` | Text_Props | In the same way the inferred line ending is wrong, and an empty line is given although empty lines are to be skipped. |
| `C22_resume_refuted` | Text_Props | A position saved after the last line, before the end is seen, cannot be loaded. |
| `C22_reload_used_refuted` | Text_Props | A position loaded into a reader in use: for a mapped file it raises; for a file read to its end a position at the start gives no lines at all. |
| `C22_resume_infer_refuted` | Text_Props | The inferred line ending is not saved: the lines after loading a position can be others than those without saving. |
| `C22_reset_refuted` | Text_Props | After a read that raised for an incomplete line in more than one piece, a reset leaves those pieces behind: the next line is copied past the end of its block. (A data pipeline does not let its source be reset after such an error.) |
| `C21_junk_index_refuted` | Sel_Props | Strings outside the documented syntax are accepted: text between brackets that is neither a number nor a star. |
| `C21_big_index_refuted` | Sel_Props | An index that does not fit is accepted as a different one, although an overflow is meant to be rejected: the check only notices a value that became smaller. (The test of the overflow uses a number for which the check works.) |
| `C21_greatest_index_refuted` | Sel_Props | The greatest index is read as a star. |
| `C21_report_refuted` | Sel_Props | The path reported for an element can be wrong if a path has two stars: after each inner list one segment too many is left behind. |
| `C21_twice_refuted` | Sel_Props | An element that two paths lead to is mapped twice. |
| `C21_dangling_refuted` | Sel_Props | If one path leads to an element and another one into it, the second element is looked up in the example before the first one is replaced, and written to afterwards: the address it is written to is no longer valid. |
| `C20_pad_value_refuted` | Coll_Props | A pad value that a floating point number cannot hold is rounded in the part that pads to the longest sequence, and exact in the part that pads to the multiple: a row can contain two different pad values. |
| `C62_hang_refuted` | Amap_Props | next may hang in the middle of the data. Both workers have pushed their results but not yet decremented the count when the results have been taken and next is called again: it sees two tasks in flight, starts none, and waits for a queue that nobody will fill. |
| `C62_hang_end_refuted` | Amap_Props | The same at the end of the data: after the only example the end is never reported. |
| `C62_save_hang_refuted` | Amap_Props | Saving the state (or a reset) may hang: the count is decremented and the notification sent after the waiting thread has looked at the count and before it sleeps. |
| `C62_lost_error_refuted` | Amap_Props | An error may be lost: if the function raises for the last example before next looks, the end of the data is reported and no error, and the example is missing. |
| `C62_unbounded_refuted` | Amap_Props | The read-ahead is not bounded: after k calls to next there may be k results waiting, with num_parallel_calls=2. |
| `C62_selector_refuted` | Amap_Props | With a selector an example may be returned without having been mapped, and another one mapped twice: the tasks share the buffer of one mapper. |
| `C63_truncated_refuted` | Dl_Props | The process stops while receiving the data. The next call downloads the file, next to the truncated one left behind, takes the first file of the directory for the asset and removes the others: it may return the truncated file, and so will all later calls. |
| `C63_half_removed_refuted` | Dl_Props | The process stops while force removes the old asset. Later calls return what is left of it. |
| `C63_local_refuted` | Dl_Props | The process stops while an archive is being extracted. A call with local_only then returns the part extracted so far. |
| `C63_dead_refuted` | Dl_Props | The process stops while force removes a finished download: the cache is then neither used nor filled any more. Every later call without force fails and does not ask the server. |
| `C63_outside_refuted` | Dl_Props | The server chooses the name under which the file is stored, and that may lead out of the cache, to any place: with an absolute name, and with a relative one too. |
| `C64_shape_refuted` | Mask_Props | The mask has the requested shape: false if a row has no room for a span (and none is required). The result is then an empty integer tensor of shape (0, 0). Here: two rows of 10 elements, spans of 6, probability one half. |
| `C66_twice_refuted` | Hub_Props | The export changes the caller's dictionary: exporting the same dictionary twice gives different weights. |
| `C67_atomic_refuted` | Mst_Props | After an exception a part of the model is overwritten. |
| `C67_shared_refuted` | Mst_Props | Two names of one parameter with different contents in the checkpoint: nothing is reported and the first content is lost. |
| `C68_unseeded_refuted` | Pq_Props | With shuffling and no seed the files are shuffled anew whenever the stream is iterated again; this also happens in the middle of an epoch, after a window that spans the end of the epoch before it: in two epochs a fragment is delivered once and another three times. |
| `C68_unseeded_ranks_refuted` | Pq_Props | With shuffling and no seed each rank has an order of its own, and the shards overlap: a fragment is delivered to no rank. |
| `C68_empty_refuted` | Pq_Props | When no file is left, because no partition passes the filters, and the number of epochs is not limited, asking for an element never returns. |
| `C68_limit_zero_refuted` | Pq_Props | A limit of no fragments lists one, when files are split into row groups. |
| `C69_greedy_refuted` | Tb_Props | Without ordering, a chunk is closed too early: its first bound on the length is that of the first row of the chunk before. |
| `C69_small_batches_refuted` | Tb_Props | Batches of a number of rows do not cross the chunks of the table: with tables concatenated and not combined, or read with several chunks, more than the last is smaller. |
| `C69_shuffle_refuted` | Tb_Props | Rows are shuffled although shuffling is off, if tables are bucketed by total length; and not shuffled although it is on, if batches are built by tokens of other buckets. |
| `C69_resume_refuted` | Tb_Props | Each time the batches of a table are built, their order is drawn anew. A pipeline restored in the middle of a table builds them again and skips as many as were read: batches are repeated, others lost. |
| `C70_no_score_refuted` | Val_Props | Without a metric for the score the first rank raises while the others return and go on. |
| `C71_lone_brace_refuted` | Swp_Props | A closing brace without an opening one is dropped silently, although the braces must match: "a}b" gives "ab", as "ab" does. |
| `C71_hash_refuted` | Swp_Props | Keys and tags are hashed without separators: two runs that differ in two settings share their directory, for every hash function. With keys a and b: a = "xbq", b = "z" and a = "x", b = "qbz". |
| `C71_values_refuted` | Swp_Props | Different values have the same tag: none and the text "none", truth and "t", a number and its text, texts that differ in other than word characters. |
| `C72_no_targets_refuted` | Grad_Props | A rank whose batches have no target does not take part in the reduction of the number of targets: the other ranks wait for it, for ever. |
| `C72_check_refuted` | Grad_Props | A rank without a finite norm among ranks with one is not reported, although the check is documented to let pass only the case that all are not finite. |
| `C74_lost_refuted` | Bg_Props | If a checkpoint is due at the last step of the data, and nothing is validated then, the run ends without committing it, however much time it had: it is never found again |
| `C74_saved_twice_refuted` | Bg_Props | A step that is saved twice, as when a stop is requested at the end of an epoch (C29_saved_twice_refuted): the export of the first checkpoint has just started when that checkpoint is deleted |
| `C74_stale_refuted` | Bg_Props | With later checkpoints in the directory, as when training starts again from nothing beside checkpoints of models only, a new checkpoint is deleted as soon as it is saved, and then exported |
| `C75_multiple_refuted` | Bkt_Props | The documentation says that the number of sequences in a bucket is a multiple of num_seqs_multiple_of. It is not when fewer than that many sequences fit: the bucket is then left as it is, and no error is raised. |
| `C76_hook_refuted` | Dec_Props | The documentation says that a hook that gives False makes the decoder treat the layer as the final one. It does not: only the other hooks are not called. The loops of models/transformer/decoder.py 187-188 and encoder.py 162-163 are the same. |
| `C78_share_refuted` | Mod_Props | Finding: without that proviso the claim is false. [share_parameters] compares the names that are left after tied tensors are listed once. Here the source ties [c] to [a] and the target ties [c] to [b]; both are listed as [a], [b], so they are accepted, and afterwards [c] of the target is [b] of the source, not [c] of the source. |
| `C78_broadcast_refuted` | Mod_Props | Finding: without that proviso the claim is false. A buffer that is first met as a non-persistent one is put in the memo before it is passed over, so it is not sent although another module has it as a persistent buffer (and it is part of the state dict). |
| `C78_unexpected_keys_refuted` | Mod_Props | Finding: a module that has two names is walked under the first one only, so a key under the missing child of the second name is silently ignored. |
| `C79_stacked_refuted` | Cnv_Props | Finding: the stacked position encoder masks the padding before the first layer only. The first convolution writes into the padding, and the second one reads it, so that the encodings of a sequence in a padded batch differ from those of the sequence alone. |
| `C79_group_norm_refuted` | Cnv_Props | Finding: group normalisation (the first layer of an extractor without layer normalisation) looks at the whole padded row, so that features depend on the padding. The code says so in a comment (257-259). |
| `C79_sample_refuted` | Cnv_Props | Finding: with [sample_every_k] above 1 the filterbank extractor drops rows of the batch instead of frames: it numbers the rows ([arange(0, batch_size)]) and indexes the first dimension. |
| `C79_subsampler_refuted` | Cnv_Props | Finding: the subsampler of S2T Transformer refuses every padded batch, although it goes on to compute the lengths of padded sequences: its check for packed batches asks [padded] instead of [packed]. |
| `C80_outside_refuted` | Spm_Props | The statement is false of 64-bit indices: they are cut to 32 bits before they are compared to the size of the vocabulary, so that 2^32 + 3 is decoded like 3 (sp_decoder.cc 97-101, sp_model.cc 43-47). |
| `C80_s2t_languages_refuted` | Spm_Props | The statement about languages is false of the tokenizer of speech-to-text models: it takes its languages from the configuration and the tokens from the file of the model without adding or checking them, so that languages without a token are all encoded as the unknown token (models/s2t_transformer/tokenizer.py 105-116, 143-150). |
| `C81_roundtrip_refuted` | Tok_Props | The text does not come back in general, and the user's text can hold tokens that end the sequence: special tokens that are written out in a text are encoded as such, in every mode (tiktoken.py 171). |
| `C81_modes_refuted` | Tok_Props | The statement is false of Gemma3n: there is no mode for responses, and in no mode a text is closed by EOS (gemma3n/tokenizer.py 73-87). |
| `C81_hf_size_refuted` | Tok_Props | The statement is false of special tokens that are added to the base vocabulary, as the ones of Qwen and LLaMA 3 are: the size that is told does not count them (hg.py 70, 82). |
| `C81_distinct_refuted` | Tok_Props | C81 (telling EOS and PAD apart). It is false of Qwen base models, whose padding is EOS; OLMo base models have one token for the beginning, the end and the unknown. Generators never generate the padding, so that with such a vocabulary no sequence ends before the greatest length ([C34_pad_is_eos], [C37_pad_is_eos]; qwen/tokenizer.py 167-175, olmo/tokenizer.py 127-135). |
| `C81_history_refuted` | Tok_Props | The statement is false of users that ask for different things: the encoder and the decoder that were made first are given to everyone, so that special tokens are not skipped, and tensors are on another device than the one that is asked for (hg/tokenizer.py 98-112). |
| `C82_padding_refuted` | Xen_Props | The statement is false without its condition: a model without padding index (Qwen; LLaMA and Mistral by default) and a batch without target mask count the padding, as the lengths of the sequences are not looked at (cross_entropy.py 51-52, transformer_lm/model.py 174-181, qwen/factory.py 66). |
| `C82_targets_refuted` | Xen_Props | The statement is false if the padding token is a token of the sequences, as EOS is in Qwen base models: it adds nothing to the loss, and is counted as a target. |
| `C82_ignored_refuted` | Xen_Props | That ignored targets are accepted is false with label smoothing: an ignored index that is not a token, such as -100, is accepted without label smoothing and is an error with it (cross_entropy.py 101-102). |
| `C82_metric_refuted` | Xen_Props | The statement is false of batches without targets, which have the weight of a batch with one target: "num_targets or 1" (metrics/common.py 32-34). |
| `C83_first_target_refuted` | Hga_Props | C83 (loss). Recipes expect that the loss of the adapter is the cross entropy of the logits of every position and its target. Proved is what the adapter gives instead: the target of the next position is compared, and the first target of every sequence is not seen. (The targets of a batch are moved by one already: /repo/src/fairseq2/datasets/batch.py 160-210.) |
| `C83_single_target_refuted` | Hga_Props | A sequence with one target has no loss. |
| `C83_loss_refuted` | Hga_Props | A model that predicts every target perfectly has the loss zero, but not by the adapter; a model that predicts the token after the target has the loss zero by the adapter. Four tokens; log probabilities are 0 for the token that is predicted and -10 for the other ones. |
| `C83_sum_refuted` | Hga_Props | Even with targets that are not moved, the sum is not the sum over the targets: the mean is over one target less per sequence than the number it is multiplied with; nor is a given label smoothing used. |
| `C83_incremental_refuted` | Hga_Props | C83 (incremental decoding). Generators give a model with an incremental state only the tokens it has not seen. The adapter does not use the state: what it gives for a token does not depend on the tokens before it, even if the wrapped model looks at all tokens. |
| `C84_counts_refuted` | Wer_Props | C84 is refuted for models that stay silent The full statement, that every evaluation ends and counts every utterance, is false: one utterance for which the model's best label is the blank in every frame, as is common early in training, makes the validation fail with a ValueError, whatever the other utterances are. |
| `C84_reported_refuted` | Wer_Props | The full statement, that rates which could be computed are reported, is false for good models: as soon as one of the two rates is below one percent -- a perfect transcript of everything included -- neither is reported, and a validation whose score is the word error rate finds none. |
| `C85_end_mark_refuted` | Txg_Props | C85 is refuted for long texts That the model translates what the tokenizer makes of a text, with the mark of the end of the source, is false for a text that is too long: the end mark is what is cut first, so the model is given a source without one. |
| `C86_loss_refuted` | Sft_Props | C86 is refuted for empty prompts The full statement, without the condition that prompts have tokens, is false: the first token of a response to an empty prompt is treated as if it were the prompt -- as the input of the others, never as a target. |
| `C86_single_token_refuted` | Sft_Props | And an example of one token, an empty prompt and the end of its response, makes the training fail. |
| `C87_forged_refuted` | Cht_Props | The encoders of the LLaMA 3 tokenizers however turn the names of control tokens in a text into the control tokens (data/tokenizers/tiktoken.py, [allowed_special="all"]): what a user writes can hold what the model reads as an answer of its own. |
| `C87_marks_refuted` | Cht_Props | The other two formats mark the turns with text: whatever the tokenizer, the begin of an answer can as well be the end of the question. |
| `C88_bye_refuted` | Cht_Props | "bye" as the system prompt ends the other processes, while the first one goes on: it sends messages that nobody receives and asks the model alone. |
| `C88_printed_refuted` | Cht_Props | The tokens of many tokenizers end within a character; the decoder then ends the text with a replacement character. The hook compares lengths only: when the character becomes complete, nothing is printed; the reader keeps the replacement character. |
| `C89_last_sample_refuted` | W2d_Props | The last sample of a recording that is cropped is never used: the window does not reach the end, since [randint] excludes its upper bound. |
| `C89_normalize_refuted` | W2d_Props | The option to normalise the audio changes the precision of the waveforms and nothing else; its documentation promises zero mean and unit variance. |
| `C89_resumed_refuted` | W2d_Props | Resuming: the generator that crops is not part of the state of the reader. Take two batches of a shorter and a longer recording. Unless the first two draws agree, a training that is resumed after the first batch reads another piece of the longer one than a training that is not interrupted. |
| `C90_thawed_refuted` | W2d_Props | Parameters that were frozen for another reason begin to learn with the encoder: the end of the frozen steps thaws everything but the feature extractor, though not if the training is resumed after them. |
| `C91_single_query_refuted` | Rel_Props | A single query over several keys, as in the decoding of one element after the other, is scored with the greatest distance for all keys. |
| `C93_unselected_refuted` | Pql_Props | With traces, a filter on a column that is not loaded is an error; without them it works: the trace, "useful for debugging", decides. |
| `C93_missing_refuted` | Pql_Props | A requested column that does not exist, such as a misspelt one, is left out without an error. |
| `C93_nondeterministic_refuted` | Pql_Props | [non_deterministic_read] has no effect: fragments are always delivered in order (see C16). |
| `C93_min_batch_refuted` | Pql_Props | Tables of exactly [min_batch_size] rows are kept, although the option says that they are dropped. |
| `C93_twice_refuted` | Pql_Props | If two fields name the same column, the first one is missing. |
| `C94_empty_refuted` | Arw_Props | Whether a row with an empty list stays depends on the other rows: it is kept beside a row that passes, and dropped beside one that does not, and if it is alone, although all of its (no) strings are within the bounds. |
| `C94_parts_refuted` | Arw_Props | So a table and its parts are filtered differently; the same holds of rows with null instead of a list. |
| `C94_null_refuted` | Arw_Props | With nulls it does not: in a slice that does not begin with the array, a null becomes an empty list. |
| `C95_count_refuted` | Grp_Props | A configured group can be missing, so that a list with one learning rate per configured group is refused. |
| `C95_name_refuted` | Grp_Props | A name selects more than the parameter of that name: matches are prefixes. |
| `C96_too_many_refuted` | Gem_Props | With fewer layers of their own, no shared layer can run: the last layer is global and no global layer precedes the shared ones. |
| `C96_active_refuted` | Gem_Props | With another active version it is added to the active one too, and not to the first. |
| `C96_window_refuted` | Gem_Props | Afterwards it does not: an element that is decoded alone sees all earlier ones, and in a pass at once only those in its window. |
| `C97_model_only_refuted` | Ini_Props | With FSDP, if only checkpoints of the model alone exist, the run does not resume, and yet nothing is broadcast: rank 0 has its shard of the pretrained model, and all others have drawn theirs at random. |
| `C97_skip_init_refuted` | Ini_Props | [skip_init] has no effect: a model that a checkpoint will overwrite is initialised first. |
| `C97_create_refuted` | Ini_Props | If it does not, every rank draws its own parameters. |
| `C97_reshard_refuted` | Ini_Props | Where it is said, FSDP2 does that and FSDP1 the opposite. |
| `C98_target_codebooks_refuted` | Vqz_Props | w2v-BERT has as many targets per element as codebooks, however many target codebooks are configured. |
| `C98_updates_refuted` | Vqz_Props | With gradient accumulation it is not the number of updates. |
| `C99_described_refuted` | Mtd_Props | Beginning a run with another configuration, even one that fails to restore the model, makes the cards of all earlier steps describe that configuration. |
| `C100_uuid_refuted` | Ddv_Props | A single device that is given by its UUID is not used by any process but the first: the others fail. |
| `C100_cpu_refuted` | Ddv_Props | Without LOCAL_RANK and CUDA_VISIBLE_DEVICES the CPU is documented, but the first CUDA device is used. |
| `C100_distinct_refuted` | Ddv_Props | But all processes that see the same single device use it, without an error. |

Noted while reading and not stated as theorems:

* The cosine schedule picks its cycle with `math.log(…, cycle_mul)`; with floats (for example `math.log(243, 3)` = 4.999…) a boundary step can fall into the wrong cycle. The model uses exact numbers.
* Structuring a float `inf` as an int raises an uncaught `OverflowError`.
* `RowShardedLinear.from_linear` documents `scatter_input=True` as "inputs are already sharded"; the code does the opposite, and its default differs from the constructor's.
* `IncrementalStateBag.increment_step_nr` says "less than or equal" where the check requires strictly less.
* The collective of gradient normalisation is skipped on ranks without targets.
* Asset download: `HTTPError` is a subclass of `URLError`, whose handler comes first, so the message with the HTTP status code is never used; and a forced download that fails has already removed the old asset (read from the code, `download_manager.py`; not a theorem).
* The `encoding` of `read_text` has no effect: decoding (`text/utf8_stream.cc`) is commented out in `data/file.cc` 86-89 with the note "TODO: fix!", so bytes of any encoding are returned as they are.
* Generation with a vocabulary whose PAD is EOS (Qwen base models, `qwen/tokenizer.py` 166-179): the generators set the probability of PAD to zero (`beam_search/generator.py` 620-621, `sampling/generator.py` 633-634), so EOS is never generated and every sequence is continued up to the greatest length (`C34_pad_is_eos`, `C37_pad_is_eos`).

## 5. Axioms

`Print Assumptions` stands below every property theorem. It reports:

* nothing ("Closed under the global context") for all theorems of the manifest that are not named below (621 theorems);
* `ClassicalDedekindReals.sig_forall_dec`, `FunctionalExtensionality.functional_extensionality_dep` for `C45_tri_stage_steps`;
* `ClassicalDedekindReals.sig_forall_dec`, `ClassicalDedekindReals.sig_not_dec`, `FunctionalExtensionality.functional_extensionality_dep` for `C51_relative`, `C51_reference`, `C66_attention`, `C92_local`, `C92_length`, `C92_window`;
* `ClassicalDedekindReals.sig_forall_dec`, `ClassicalDedekindReals.sig_not_dec`, `Classical_Prop.classic`, `FunctionalExtensionality.functional_extensionality_dep` for `C45_myle`, `C45_noam`, `C45_polynomial`, `C45_tri_stage`, `C45_tri_stage_monotone`, `C45_cosine`, `C45_cosine_multiple`, `C45_cosine_range`, `C45_power_refuted`, `C45_tri_stage_refuted`, `C45_cosine_shrink_refuted`, `C45_cosine_grow_refuted`, `C51_tables`, `C59_identity`, `C59_causal`, `C59_alone`, `C59_stepwise`, `C59_torch`, `C59_cache`, `C59_alibi`, `C59_window_refuted`, `C59_chunked_refuted`, `C59_single_refuted`, `C59_nan_refuted`, `C59_alibi_refuted`, `C59_cache_refuted`;

All of these are axioms of the standard library's real numbers (`Coq.Reals`). Files that load `Coq.ssr` bring into scope the standard library's
`Coq.ssr.ssrunder.Under_rel` module (`Over_rel`, `Under_rel`, `Under_rel_from_rel`, `Under_relE`, `over_rel`, `over_rel_done`, `under_rel_done`), which `coqchk` lists
since it is sealed by a module type; no theorem uses it. The development declares no axiom, parameter, section-less variable or hypothesis, module type or functor.

## 6. What is modelled

The head of each model file names the source files; each definition cites the lines it models and says where it simplifies.

| model | head of the file |
| --- | --- |
| `DP_Base` | Values, tape and data sources of the native data pipeline: shared model. Source: /repo/native/src/fairseq2n/data (abbreviated "data/" below). This file contains definitions only. |
| `DP_Sources_Model` | Model of the single-input data sources and of [data_pipeline]. Definitions only. |
| `DP_Bucketing_Model` | Model of the sources that regroup or reorder examples: shuffle, bucket_by_length, dynamic_bucket and pack. Definitions only. |
| `DP_Multi_Model` | Model of the sources that read several pipelines: zip, round_robin and sample. Definitions only. |
| `Ckpt_Model` | The checkpoint manager on a local file system, with any number of processes, and the functions that list, rank and expire checkpoints. Definitions only. Source: /repo/src/fairseq2/checkpoint/manager.py (abbreviated "manager.py" below), /repo/src/fairseq2/file_system.py. |
| `LossScale_Model` | The fp16 loss scaler (src/fairseq2/optim/fp16_loss_scaler.py). Scales are rational numbers; the rounding of float32 and double arithmetic and the overflow of the scale to infinity are not modelled. [torch.amp.GradScaler] belongs to PyTorch; the part of it that is modelled here ([gs_update], [gs_step]) is its documented behaviour and is part of the trusted base. |
| `MetricBag_Model` | The metric bag (src/fairseq2/metrics/bag.py). Metric objects live on a heap and are known by reference, because [rollback_updates] replaces the objects of the bag by copies and a caller may still hold references to the replaced ones. The value of a metric object is abstract. Devices and the type check of [get] are not modelled. |
| `Rng_Model` | Random number generator bags (src/fairseq2/utils/rng.py). A generator is a PyTorch object: its state is abstract, it can be seeded, drawn from, read and set. Generators live on a heap, a bag holds references to some of them. Which generators a bag contains for which devices ([RngBag.from_device_defaults], rng.py:49-76) is not modelled: a bag is any list of references. |
| `Trainer_Model` | The trainer (src/fairseq2/trainer.py). One process is modelled. What the trainer calls (the unit, the model, the optimizer, the schedule, the data reader, the validator, the early stopper) is the parameter [env]; the loss scaler is the one of [LossScale_Model]. Metric values are kept by name, the heap of metric objects is in [MetricBag_Model]; saving a checkpoint is one event, its crash behaviour is in [Ckpt_Model]. Stopwatches, progress bars, profilers, garbage collection, gradient checking, hooks and the Hugging Face export are left out; so is the deletion of stale checkpoints, which is in [Ckpt_Model]. |
| `Batch_Model` | Model of batch layouts and sequence batches. /repo/src/fairseq2/nn/batch_layout.py, /repo/src/fairseq2/datasets/batch.py |
| `Reader_Model` | Model of the data pipeline reader on all ranks of the data parallel gang. /repo/src/fairseq2/datasets/data_reader.py |
| `StepProc_Model` | Model of the step processors of sequence generation. /repo/src/fairseq2/generation/step_processor.py |
| `Beam_Model` | Model of beam search. /repo/src/fairseq2/generation/beam_search/generator.py, algo.py |
| `Sampling_Model` | Model of sampling generation and of the samplers. /repo/src/fairseq2/generation/sampling/generator.py, sampler.py |
| `Gang_Model` | Model of gangs. /repo/src/fairseq2/gang.py |
| `Struct_Model` | Model of StandardValueConverter. /repo/src/fairseq2/utils/structured.py |
| `Config_Model` | Model of configuration merging and directives: /repo/src/fairseq2/utils/config.py, and of object validation: /repo/src/fairseq2/utils/validation.py. |
| `LR_Model` | Model of the learning rate schedulers: /repo/src/fairseq2/optim/lr_schedulers/. Floats are real numbers; step numbers and lengths are natural numbers; a learning rate is never a Tensor. |
| `Dep_Model` | Model of the dependency container: /repo/src/fairseq2/runtime/dependency.py. Line numbers refer to that file. Classes, keys and exceptions raised by user code are numbers. A provider is a program over the public interface of the container; it may catch the errors of its calls. Not modelled: Python's limit on the depth of calls, threads, and the introspection of signatures (a signature is given as a list of parameters). An Iterable is consumed at once. |
| `Asset_Model` | Asset metadata, the asset store and asset cards. Models src/fairseq2/assets/{metadata_provider,store,card}.py. Simplifications: strings are of 8-bit characters; the dicts of metadata live on a heap, the values in them are trees without identity (deepcopy() makes nested objects fresh as well); deepcopy() does not fail; one thread. |
| `Attn_Model` | Model of the key/value states of multi-head attention during incremental decoding and of the bag that holds them. /repo/src/fairseq2/models/transformer/multihead_attention.py 596-966 and 430-483, /repo/src/fairseq2/models/transformer/model.py 265-288, /repo/src/fairseq2/nn/incremental_state.py 54-152 |
| `Pos_Model` | Model of the position encoders. /repo/src/fairseq2/nn/position_encoder.py 70-600 and /repo/src/fairseq2/models/olmo/yarn_rope.py 245-305 |
| `Bias_Model` | Model of attention biases and of scaled dot-product attention. /repo/src/fairseq2/models/transformer/attention_bias.py, sdpa/naive.py, sdpa/torch.py |
| `Shard_Model` | Model of tensor parallel modules: /repo/src/fairseq2/nn/embedding.py, nn/projection.py, ops/tensor_parallel.py. A tensor with leading dimensions is a matrix here: all leading dimensions are flattened into the rows, the last dimension is the width. Numbers are of any type [A] with an addition, a multiplication and a zero; rounding is left out. A module sharded over a gang of [size] processes is the list of the modules of the processes in the order of their ranks, and a call of it is one collective call of all processes with the list of their inputs. |
| `Load_Model` | Model of the loading of model checkpoints: /repo/src/fairseq2/model_checkpoint/common.py, native.py, basic.py, safetensors.py. A tensor is a matrix as in Shard_Model (a vector is a matrix of width 1). A tensor object has an identity: parameters that share a tensor share the object within one file. A checkpoint file is a dictionary: its keys in order with their objects; [None] is an object that is not a tensor. Reading files, mmap, and the state dict converter are left out (the dictionaries are the converted ones). |
| `File_Model` | Model of the file mapper and its cache: /repo/native/src/fairseq2n/data/file_mapper.cc, data/detail/lru_cache.h, utils/string.h, data/immutable_string.cc. Strings are lists of bytes. |
| `Prefetch_Model` | Model of prefetching: /repo/native/src/fairseq2n/data/prefetch_data_source.cc (line numbers refer to it) and prefetch_data_source.h. Two threads: the consumer, who calls the operations one after another, and the background thread. A step is what a thread does between two points at which the other one can interfere: a critical section is one step, since the queues and the state are only changed under the mutex or while no background thread exists. Waiting on a condition variable is explicit, so that a notification can get lost, and a thread may wake up without one. Simplifications: recording and reloading the inner source do not fail and the tape is well-formed. |
| `Text_Model` | Model of the text reader: /repo/native/src/fairseq2n/data/record_reader.cc, text/text_line_reader.cc, text/text_data_source.cc, file_stream.cc, memory_stream.cc. Characters are bytes. Errors of the operating system are not modelled. The key under which a line is returned is left out. |
| `Sel_Model` | Model of selectors and the mapper that uses them: /repo/native/src/fairseq2n/data/element_selector.cc, element_mapper.cc, data_length_extractor.cc. Strings are lists of bytes; std::size_t is a number below 2^64. |
| `Coll_Model` | Model of the collater: /repo/native/src/fairseq2n/data/collater.cc and collater.h. A tensor is its data type, its shape and its elements in row-major order. Tensors of different data types, and padded tensors whose other dimensions differ, are handed to PyTorch's rules for conversion and broadcasting, which are parameters here ([mixed_pad], [mixed_stack]). |
| `DP_ParMap_Model` | map with num_parallel_calls > 1 and deterministic=True, with the examples of a buffer mapped by concurrent workers. /repo/native/src/fairseq2n/data/map_data_source.cc:41-67 and 168-199, /repo/native/src/fairseq2n/detail/parallel.h:19-44. Definitions only. |
| `Amap_Model` | Model of map(..., num_parallel_calls=n, deterministic=False): /repo/native/src/fairseq2n/data/map_data_source.cc, with the worker threads of /repo/native/src/fairseq2n/detail/thread_pool.h (or the TBB arena) as tasks that make their steps in any order. |
| `Dl_Model` | Model of the asset cache: _AssetDownloadOperation in /repo/src/fairseq2/assets/download_manager.py (line numbers refer to it), on a local file system (/repo/src/fairseq2/file_system.py:603-637). One asset, one process at a time, which may stop at any point. The cache of an asset consists of three directories named after the hash of its URI: the asset itself, .download and .download.tmp. A directory is a list of files (sub-directories are part of the names). Renaming is atomic, removing a directory and extracting an archive are not. Not modelled: a server that does not announce the size and stops early, flushing of NFS caches, progress. |
| `Mask_Model` | Model of random masks: /repo/src/fairseq2/nn/utils/mask.py 68-205, and of the sampling of distractors: /repo/src/fairseq2/models/wav2vec2/model.py 209-251. Tensors are nested or flat lists. Random numbers are parameters; torch.rand gives rn/rd with rn < rd, products are exact (rounding is not modelled). The probability is pn/pd. |
| `Hub_Model` | Model of the exchange of model weights with other libraries: /repo/src/fairseq2/models/utils/checkpoint.py 96-180 (line numbers without a file refer to it) and /repo/src/fairseq2/models/{llama,qwen,olmo,gemma3n,mistral}/interop.py. Strings are lists of characters, dictionaries are lists of entries in their order of insertion, a tensor is the list of its rows. [None]: an exception. |
| `Mst_Model` | Model of setting the parameters of a model from a checkpoint: /repo/src/fairseq2/models/utils/checkpoint.py 19-92. A tensor of the model has an identity (two names of one shared parameter have the same), a shape and a content; a tensor of the checkpoint has a shape and a content. Conversion between data types in copy_, and two parameters that are different views of the same memory, are not modelled. |
| `Pq_Model` | Model of streaming Parquet fragments: /repo/src/fairseq2/data/parquet/fragment_streaming/primitives.py (line numbers without a file refer to it), builder.py in the same directory, and /repo/src/fairseq2/data/parquet/utils.py. Files and fragments are abstract, [rows] is what splitting a file into its row groups gives. Random permutations are functions of the seed or of the state of the generator. |
| `Tb_Model` | Model of batching tables: /repo/src/fairseq2/data/parquet/table_bucketing/primitives.py (line numbers without a file refer to it) and builder.py in the same directory. Lengths are natural numbers without overflow (numpy: int32). A table is the list of its chunks, a chunk a list of rows. Sorting and random permutations are functions. |
| `Val_Model` | Model of validation during training: StandardValidator, /repo/src/fairseq2/validator.py (line numbers without a file refer to it), one rank. Evaluator (evaluator.py 131-290) and Generator (generator.py) have the same loops, without scores. Metric bags, batches and the random number generators are abstract. A unit that raises gives None. Metric values are integers. Not modelled: timers, logs, progress, the profiler, autocast, completing asynchronous checkpoints in the loop (lines 190-192), and errors of gangs. |
| `Swp_Model` | Model of sweep tags, the names of the output directories of runs: /repo/src/fairseq2/recipe/internal/sweep_tag.py (line numbers refer to it). A character is its code point. Which characters are word characters, and SHA-1 with its hexadecimal form, are given from outside; the hash is taken of the characters instead of their UTF-8 encoding, which is injective and compatible with concatenation. A number is the text that Python prints for it. |
| `Grad_Model` | Model of the gradient of a training step over all data parallel ranks: Trainer._do_run_step, /repo/src/fairseq2/trainer.py 539-617, with normalize_grads, scale_grads and check_grad_norms, /repo/src/fairseq2/nn/utils/grad.py. Numbers are rational and exact. One element of one parameter is followed: everything but clipping acts on each by itself. Clipping is not modelled. The averaging over ranks is that of PyTorch, as documented: DDP averages what has accumulated in the gradient; FSDP averages the new gradients and accumulates the result. |
| `Moe_Model` | Model of mixture of experts layers: MoE, /repo/src/fairseq2/models/llama4/moe.py, with GroupedExpertNetwork and TPShardedExpertNetwork, /repo/src/fairseq2/models/transformer/experts.py, and its sharding, MoESharder, /repo/src/fairseq2/models/llama4/sharder.py 46-92. Numbers are of any type with addition, multiplication and zero; rounding is left out. Tensors with two dimensions are lists of rows; the tokens of all sequences are the rows of the input (x.reshape(-1, dim)). The devices and the meta device are left out. |
| `Bg_Model` | Model of the work that the trainer leaves to the background: saving checkpoints, StandardCheckpointManager (/repo/src/fairseq2/checkpoint/manager.py 181-270, 286-298, 403-447), exporting them to Hugging Face, OutOfProcHuggingFaceExporter (/repo/src/fairseq2/checkpoint/hg.py 79-213), and the calls of the trainer that start and complete both (/repo/src/fairseq2/trainer.py, whose line numbers are given without a file name). One process is followed; the collective operations make all others take the same turns. Writing a checkpoint does not fail (for crashes see Ckpt_Model). The contents of checkpoints, and the deletion of all but the model (809-810), are left out: an export reads the model only. |
| `Bkt_Model` | Model of create_bucket_sizes: /repo/src/fairseq2/data/data_pipeline.py 646-713. Python's integers are Z; // is Z.div. |
| `Dec_Model` | Model of a decoder-only Transformer in evaluation mode, with and without the state of incremental decoding: /repo/src/fairseq2/models/transformer_lm/model.py, decoder.py, decoder_layer.py, models/transformer/frontend.py, multihead_attention.py 397-556 and attention_bias.py. The batch is neither padded nor packed. Dropout does nothing in evaluation mode. |
| `Mod_Model` | Walking a module: visiting, converting, sharing, broadcasting and loading its parameters and buffers (src/fairseq2/nn/utils/module.py). A module is an object that holds parameters, buffers and child modules under names. Two names may lead to the same module, and two slots may hold the same tensor (tied parameters). Modules and tensors are therefore given identities: numbers that play the role of object identity. Simplifications: gradients are left out, and so are data types, shapes and the [requires_grad] flag. A slot that PyTorch would keep as [None] (a parameter that is not there) is not listed. Dotted names are lists of names: PyTorch refuses names with dots. |
| `Cnv_Model` | Convolutions over padded batches: the feature extractors and position encoders of wav2vec 2.0, the filterbank subsampler of S2T Transformer and the convolution of Conformer (src/fairseq2/models/wav2vec2/feature_extractor.py, src/fairseq2/models/wav2vec2/position_encoder.py, src/fairseq2/models/s2t_transformer/feature_extractor.py, src/fairseq2/models/conformer/convolution.py). A row of a batch is a list of frames. What a convolution makes of one window of frames, and what activations and normalisations make of one frame, are arbitrary functions. Dropout is off (evaluation mode). The numbers of channels are left out: every frame has the type [E]. A batch has at least one row, and all its rows have the same length. |
| `Spm_Model` | SentencePiece models, encoders and decoders. Models /repo/native/src/fairseq2n/data/text/sentencepiece/sp_processor.cc, sp_model.cc, sp_encoder.cc and sp_decoder.cc, and the tokenizers of /repo/src/fairseq2/models/nllb/tokenizer.py and /repo/src/fairseq2/models/s2t_transformer/tokenizer.py that are built on them. The SentencePiece library itself is external: how it cuts a text into pieces and how it joins pieces into a text are parameters. Of its documented behaviour we use that a model with two pieces of the same name or without an unknown piece does not load, that PieceToId gives the index of the unknown piece for a token that is not in the model, and that the id of a piece of a cut text is PieceToId of the piece. |
| `Tok_Model` | Tokenizers: tiktoken and Hugging Face encoders and decoders, the modes of the tokenizers of the model families, and the tokenizer that wraps any Hugging Face tokenizer. Models /repo/src/fairseq2/data/tokenizers/{tiktoken,hg,sentencepiece}.py and /repo/src/fairseq2/models/{llama,llama4,qwen,olmo,gemma3n,hg}/tokenizer.py. The libraries tiktoken and transformers are external: how they cut plain text into tokens is a parameter. Devices, pinned memory and chat templates are left out, except that the wrapping tokenizer is given the device of its encoder. |
| `Xen_Model` | The cross entropy loss and the loss metric. Models /repo/src/fairseq2/nn/functional/cross_entropy.py and update_nll_loss_metric of /repo/src/fairseq2/metrics/common.py. Numbers are rationals without rounding; infinite logits are left out. torch's log_softmax is an arbitrary function of a row of logits. |
| `Hga_Model` | The adapter that gives Hugging Face causal language models the interface of fairseq2's ones. Models /repo/src/fairseq2/models/hg/adapter.py. The wrapped model is external: a function from token indices and attention mask to logits; as documented, and as its loss function (ForCausalLMLoss) does, it compares the logits of a position with the label of the next position, and returns the mean over the labels that are not -100. |
| `Wer_Model` | Greedy decoding of a speech recognition model and its word error rate. Models - recipes/wav2vec2/asr/wer_calculator.py 25-166 (WerCalculator), - src/fairseq2/metrics/text/wer.py 24-126 (WerMetric), - src/fairseq2/nn/utils/padding.py 17-55 (pad_seqs), - src/fairseq2/nn/batch_layout.py 96-152 (the checks of a padded layout). Simplifications. Scores are integers (the code only compares them). The error rates are rationals instead of floating point numbers. Files to which the transcripts are written are lists of lines; writing does not fail. The decoder of the tokenizer, the splitting of a text into words and the edit distance of the external library are parameters. |
| `Txg_Model` | Translating and completing texts. Models - src/fairseq2/generation/text.py 27-356 (SequenceToTextConverter, TextTranslator, TextCompleter), - src/fairseq2/nn/utils/padding.py 17-55 (pad_seqs) and src/fairseq2/nn/batch_layout.py 96-152, through [Wer_Model.pad_seqs]. Simplifications. Of the generator's output only the token sequences of the hypotheses are kept, and it is returned as it is. The generator is a function of the rows and the lengths of a batch and of its prompts, and raises no error of its own. The text and the token encoders and decoders are parameters. |
| `Sft_Model` | Instruction tuning of a language model, from examples to loss. Models - recipes/lm/sft/dataset.py 240-330 (the examples without chat template), - src/fairseq2/datasets/batch.py 60-215 (SequenceBatch, as_auto_regressive), padded batches only, - recipes/lm/sft/recipe.py 140-175 (LMSFTUnit.process_batch), - src/fairseq2/models/transformer_lm/model.py 119-205 (the loss), through [Xen_Model.cross_entropy]. Simplifications. An example is given by the tokens of its source and of its target. Reading, shuffling and prefetching are not part of this model: it begins with the examples of a batch. The decoder of the model, up to its logits, is a parameter; numbers are rational. |
| `Cht_Model` | Chatbots: dialogs, their encoding, and the chat program. Models - recipes/chatbot/chatbot.py 22-101 (Message, StandardChatbot), - recipes/chatbot/llama.py 22-165 (LLaMADialogEncoder, LLaMA3DialogEncoder, create_llama_dialog_encoder), - recipes/chatbot/mistral.py 22-69 (MistralDialogEncoder), - recipes/chatbot/program.py 22-190 (Program, MessagePrintHook). Simplifications. Token sequences are lists of indices. The raw encoder of the tokenizer, [str.strip], the decoder and the model's reply to a dialog are parameters; the latter is the same function on all ranks. In the chat program what the ranks do together is the list of messages that are broadcast and the list of dialogs that are given to the model. |
| `W2d_Model` | The audio data of the wav2vec2 recipes, and the frozen encoder of fine-tuning. Models - recipes/wav2vec2/ssl/data/batch_utils.py 11-41 (add_length_batching; the same as recipes/wav2vec2/asr/data/batch_utils.py), - recipes/wav2vec2/ssl/data/preprocessing.py 41-132 (add_audio_decoding, AudioCropper, add_audio_cropping), - recipes/wav2vec2/ssl/data/dataset.py 194-317 (create_reader, what is done with a batch of recordings), - recipes/wav2vec2/asr/data/preprocessing.py 66-79 (add_layernorm) and asr/data/dataset.py 320-333 (where it is used), - recipes/wav2vec2/asr/recipe.py 73-88, 185-243 (prepare_model, Wav2Vec2AsrTrainUnit.set_step_nr), src/fairseq2/nn/utils/module.py 280-285 (freeze_parameters). Simplifications. A decoded waveform is a list of samples of any type; the precision is a tag. numpy's generator is a state with a function that draws a number below a bound. Which recordings form a batch is the matter of [bucket_by_length] (C03 and others) and not repeated here. |
| `Rel_Model` | Attention with relative positions. Models - src/fairseq2/models/transformer/sdpa/relative.py 99-178 (RelativePositionSDPA: how the scores of relative positions are computed) and 190-276 (RelativePositionalEncoding), - src/fairseq2/models/transformer/sdpa/shaw.py 124-190 (ShawRelativePositionSDPA: the relative positions of queries and keys), - src/fairseq2/models/gemma3n/audio/sdpa.py 54-385 (Gemma3nConformerSDPA). Simplifications. One sequence of a batch and one head; numbers are real numbers; a value has one coordinate. Products of queries with keys and with encodings of positions are parameters. Tensors are lists of rows, [view] and [reshape] cut the flat list anew. Softmax gives masked keys the weight 0 beside a key that is not masked (they get the least number of the type), and the same weight to all keys if all are masked. |
| `Pql_Model` | Loading fragments of Parquet datasets. Models - src/fairseq2/data/parquet/fragment_loading/builder.py 68-125 ([SafeFragment.load]) and 128-211 ([ParquetFragmentLoader]), - src/fairseq2/data/parquet/fragment_loading/config.py 57-80 ([get_flatten_columns], [get_renaming_mapper]), - src/fairseq2/data/parquet/utils.py 180-201 ([add_fragments_trace]), 204-217 ([add_partitioning_values]) and 220-222 ([rename_table_columns]). Simplifications. A null is [None]. A filter is given by the columns it refers to and its value for a row; a filter on a missing column is an error. Reading does not fail (the second attempt after an OSError reads the same). [to_table] delivers the rows in the order of the row groups, as the code assumes (utils.py 181), and supplies the three columns of the scanner. Threads, memory pools, memory mapping and prefetching are left out. |
| `Arw_Model` | Filters and layouts of Arrow tables. Models src/fairseq2/data/parquet/arrow_transform.py 18-53 ([is_list_like], [_fix_list_offset], [pyarrow_column_to_array]), 56-67 ([repeat_list_column]), 70-79 ([simple_array_to_nested]) and 177-312 ([filter_strings_by_length], [filter_list_by_range], [filter_list_with_min_max_length]). Simplifications. A row is any type, a column a function of rows; a null is [None]. Strings are given by their numbers of characters, numbers are integers. Arrow's and Polars' functions are modelled from their documentation: comparisons of nulls are null, [&] and [and_kleene] are Kleene's, [list.min] and [list.max] skip nulls and are null for lists without values, [pc.all] skips nulls and is null without values, [filter] keeps rows whose mask is true. |
| `Grp_Model` | Parameter groups of optimizers. Models src/fairseq2/recipe/optim.py 31-205 ([prepare_parameter_groups], [_ParameterGroup], [maybe_raise_param_group_length_error]) and its use in src/fairseq2/recipe/internal/lr_schedulers.py 87-93, 156-163, 192-207. Simplifications. A parameter is given with its name, as by [named_parameters] (which yields each tensor once). [re.match] is a parameter. The settings of a group are any type. Log messages are left out. |
| `Gem_Model` | The layers of the Gemma3n decoder. Models - src/fairseq2/models/gemma3n/config.py 211-255 ([is_global_layer], [get_kv_projection_role]), - src/fairseq2/models/gemma3n/decoder.py 87-196 (the sharing of keys and values between layers in [Gemma3nDecoder.forward]), - src/fairseq2/models/gemma3n/decoder_layer.py 241-261 (the versions that get the per-layer embedding), - src/fairseq2/models/gemma3n/factory.py 224-293 (biases and states of the attention of a layer) with src/fairseq2/models/transformer/multihead_attention.py 413-458 and src/fairseq2/models/transformer/attention_bias.py 209-233, 376-388. Simplifications. Keys and values are represented by the number of the layer that projects them. A mask is the keys that a query sees; all arithmetic is left out. |
| `Ini_Model` | The parameters with which training begins. Models - src/fairseq2/models/family.py 404-443 ([create_new_model]), 445-605 ([load_model], [load_custom_model], [_do_load_model]), - src/fairseq2/recipe/internal/train_model.py 90-319 (the bootstrapper), - src/fairseq2/recipe/internal/data_parallel.py 35-207 (the wrappers), - src/fairseq2/nn/ddp.py 30-101, src/fairseq2/nn/fsdp/unified.py 34-90, src/fairseq2/nn/fsdp/fsdp1.py 50-176, src/fairseq2/nn/fsdp/fsdp2.py 60-171, src/fairseq2/nn/fsdp/common.py 38-87, - src/fairseq2/nn/utils/module.py 98-134, 359-450, - src/fairseq2/recipe/internal/reference_model.py 128-260, - src/fairseq2/trainer.py 363-398 (restoring the model), - src/fairseq2/checkpoint/manager.py 710-742. Simplifications. A model is the origin of its parameters on each rank of the data parallel gang; FSDP keeps of them the rank's shard. Synchronisation is a broadcast of rank 0. Dtypes, devices, compilation, activation checkpointing, metadata and errors of files are left out; families and cards are known. |
| `Vqz_Model` | The vector quantizer of wav2vec 2.0 and what w2v-BERT makes of it. Models - src/fairseq2/models/wav2vec2/vector_quantizer.py 129-198 ([GumbelWav2Vec2VectorQuantizer.forward], [_compute_current_temp]), - src/fairseq2/models/w2vbert/model.py 71-146 (the hook and [_get_target_indices]) and factory.py 24-40, - src/fairseq2/models/transformer/encoder.py 140-171 (a stack of layers with hooks). Simplifications. The scores of the entries, which a projection gives, are integers; so are the components of the entries. Of the Gumbel softmax only the value of the forward pass is modelled: the one-hot vector of the largest sum of score and noise, which the temperature does not change. Of equal scores the first counts. Perplexities are left out. |
| `Mtd_Model` | The asset cards of saved checkpoints. Models src/fairseq2/checkpoint/model_metadata.py 46-60 (the dumper) and 78-159 (the loader), and src/fairseq2/recipe/internal/train_model.py 119-319 and 325-350 with src/fairseq2/trainer.py 363-398 for when the metadata is written. Simplifications. The contents of the checkpoint directory are the entries that [glob] finds, in any order, and the score files; a card is the number of the step whose model it points to; names of directories are as the manager writes them, with a natural number without leading zeros. The cards inherit from that of model.yaml, which is the configuration it was written with. |
| `Ddv_Model` | The default device of a process. Models src/fairseq2/device.py 140-248 ([detect_default_device], [_DefaultDeviceDetector]) and src/fairseq2/utils/env.py 91-116 ([get_local_rank]). Simplifications. Environment variables are given parsed: a device or a text that is none, an integer or a text that is none, a list of devices separated by commas, each given by its index or by its UUID. All the devices listed exist, so that CUDA sees exactly these; without the variable it sees those of the host. Devices other than the CPU and CUDA devices, which only FAIRSEQ2_DEVICE can name, are [Other]. |

Not modelled: everything that is not named there, in particular PyTorch kernels and autograd other than the gradients stated, floating point rounding, recipes and the command line,
tokenizers, audio and image decoding, model architectures beyond the layers named, metrics backends, the profiler, cluster launchers, downloads.
