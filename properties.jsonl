{"id": "C01", "title": "Sequential combinators have list semantics", "statement": "Iterating a data pipeline built from read_sequence, map, filter, skip, take, shard, bucket, concat and yield_from until it stops yields exactly, and in the same order, the examples obtained by applying the corresponding list transformation (map f, filter p, drop n, take n, every num_shards-th example, chunks of n, concatenation, flat-map) to the input sequence; nothing is lost, duplicated or reordered, and after the end every further iteration step reports the end again.", "quantifier": "every input list, every user function and predicate that does not raise, every parameter value, every nesting depth and order of combinators", "why_tests_cant": "Unit tests cover one combinator at a time on short literal lists; the claim is about every composition and every length.", "anchors": ["native/src/fairseq2n/data/data_pipeline.cc:data_pipeline::next", "native/src/fairseq2n/data/map_data_source.cc", "native/src/fairseq2n/data/filter_data_source.cc", "native/src/fairseq2n/data/skip_data_source.cc", "native/src/fairseq2n/data/take_data_source.cc", "native/src/fairseq2n/data/shard_data_source.cc", "native/src/fairseq2n/data/bucket_data_source.cc", "native/src/fairseq2n/data/concat_data_source.cc", "native/src/fairseq2n/data/yield_from_data_source.cc", "native/src/fairseq2n/data/list_data_source.cc"]}
{"id": "C02", "title": "Shards partition the data", "statement": "For a fixed input and num_shards, the outputs of shard(0..num_shards-1) with allow_uneven=True are disjoint and together contain each input example exactly once; with allow_uneven=False all shards have the same number of examples and the examples missing from all shards are exactly the final len mod num_shards ones.", "quantifier": "every input length, every num_shards >= 1 and every shard index", "why_tests_cant": "Needs all lengths modulo all shard counts at once, including lengths that are smaller than the shard count.", "anchors": ["native/src/fairseq2n/data/shard_data_source.cc:shard_data_source::next"]}
{"id": "C03", "title": "bucket chunks without loss", "statement": "bucket(n) yields buckets whose concatenation is the input, every bucket but possibly the last has exactly n examples and the last has between 1 and n; with drop_remainder=True every bucket has exactly n and fewer than n trailing examples are missing.", "quantifier": "every input and every bucket size >= 1", "why_tests_cant": "Boundary behaviour depends on len mod n for unboundedly many lengths.", "anchors": ["native/src/fairseq2n/data/bucket_data_source.cc:bucket_data_source::next"]}
{"id": "C04", "title": "bucket_by_length respects its sizes and lengths", "statement": "Every full bucket yielded by bucket_by_length(bucket_sizes) consists of examples of one length class (the smallest configured length that is >= the example's length) and has exactly that class's size; within a class, examples keep their input order; the examples left over at the end of the input are combined into buckets that respect the size and length of the class they are given to; every example with an admissible length is yielded exactly once, except that drop_remainder discards one last incomplete bucket; an over-long (or too short) example either raises or is skipped, as configured, and never appears in a bucket.", "quantifier": "every input list, every set of (size,length) pairs, every min_data_len and skip flags", "why_tests_cant": "The buckets' contents depend on the whole history of interleaved lengths.", "anchors": ["native/src/fairseq2n/data/bucket_by_length_data_source.cc:bucket_by_length_data_source::next"]}
{"id": "C05", "title": "dynamic_bucket thresholds", "statement": "Without a bucket creation function, dynamic_bucket yields consecutive runs of the input: their concatenation is the input (minus an incomplete tail when drop_remainder), every bucket has at least min_num_examples (except a kept tail) and at most max_num_examples examples, and no proper prefix of a bucket of admissible size already reached the threshold.", "quantifier": "every input, every cost function, threshold, min and max", "why_tests_cant": "Accumulated cost over an unbounded history.", "anchors": ["native/src/fairseq2n/data/dynamic_bucket_data_source.cc:dynamic_bucket_data_source::next"]}
{"id": "C06", "title": "pack conserves tokens", "statement": "Every batch yielded by pack has exactly num_elements elements, the recorded sequence lengths sum to the number of non-pad elements and each is at most max_seq_len (plus the documented one-token overlap); concatenating the non-pad parts reproduces the input sequences in order, up to the one-token overlap inserted at truncation points and the tail dropped by drop_remainder.", "quantifier": "every list of input sequences, every capacity, max_seq_len, truncate and drop_remainder", "why_tests_cant": "Carry-over remainders depend on the complete history of lengths.", "anchors": ["native/src/fairseq2n/data/packed_data_source.cc:packed_data_source::next"]}
{"id": "C07", "title": "shuffle permutes", "statement": "shuffle(window) yields a permutation of its input for every seed; an example that is at input position i is never yielded before position i-window+1; the output is a function of the input and the seed only, and window 0 means the whole input and window 1 is the identity.", "quantifier": "every input list, every window size, every sequence of random numbers", "why_tests_cant": "Every RNG stream must be considered; a test sees one seed.", "anchors": ["native/src/fairseq2n/data/shuffle_data_source.cc:shuffle_data_source::next", "native/src/fairseq2n/data/shuffle_data_source.cc:shuffle_data_source::shuffle"]}
{"id": "C08", "title": "zip is synchronous", "statement": "zip of k pipelines yields row i consisting of the i-th example of every pipeline; it ends at the shortest when warn_only or raises an error when the pipelines differ in length; every pipeline is advanced exactly once for each row.", "quantifier": "every number of pipelines and every content, including empty pipelines", "why_tests_cant": "All length combinations.", "anchors": ["native/src/fairseq2n/data/zip_data_source.cc:zip_data_source::next"]}
{"id": "C09", "title": "round_robin is fair and complete", "statement": "round_robin with allow_repeats (stop_at_shortest=False) yields example t from pipeline t mod k, restarting finished pipelines, until every pipeline has been exhausted at least once, so every example of every non-empty pipeline appears; with allow_repeats=False each example of every pipeline appears exactly once; with stop_at_shortest it ends at the first exhausted pipeline.", "quantifier": "every number of pipelines and lengths", "why_tests_cant": "All length vectors, and the number of restarts is unbounded.", "anchors": ["native/src/fairseq2n/data/round_robin_data_source.cc:round_robin_data_source::next"]}
{"id": "C10", "title": "sample covers every pipeline", "statement": "sample(pipelines, weights) yields, for every sequence of random draws after which it ends, every example of every pipeline: with allow_repeats=False exactly once each, with allow_repeats=True at least once each; the examples of each pipeline are yielded in that pipeline's order.", "quantifier": "every number of pipelines, lengths, weights and every random stream", "why_tests_cant": "Random choices: only a proof covers every stream.", "anchors": ["native/src/fairseq2n/data/sample_data_source.cc:sample_data_source::next", "native/src/fairseq2n/data/sample_data_source.cc:sample_data_source::random_pipeline_index"]}
{"id": "C11", "title": "state_dict / load_state_dict resume", "statement": "Let a pipeline have yielded any number of examples. load_state_dict of its (strict) state_dict into a freshly built identical pipeline, or into the same pipeline in any later state, makes it yield exactly the examples the original pipeline would have yielded from that moment on.", "quantifier": "every pipeline composition, every input, every point of interruption, every state of the pipeline the state is loaded into", "why_tests_cant": "All interruption points of all compositions; tests check a few combinators at one position.", "anchors": ["native/src/fairseq2n/data/data_pipeline.cc:data_pipeline::record_position", "native/src/fairseq2n/data/data_pipeline.cc:data_pipeline::reload_position", "native/src/fairseq2n/data/tape.h:tape", "native/python/src/fairseq2n/bindings/data/data_pipeline.cc:load_state_dict"]}
{"id": "C12", "title": "Tape is a lossless, fully consumed encoding", "statement": "Any sequence of values recorded on the tape is read back unchanged in the same order with the same types; reading at a wrong type or past the end raises an error; load_state_dict raises if the state was not consumed entirely.", "quantifier": "every sequence of recorded values", "why_tests_cant": "All sequences and all value ranges (including integer-width boundaries).", "anchors": ["native/src/fairseq2n/data/tape.h:tape", "native/src/fairseq2n/data/detail/tape-inl.h", "native/src/fairseq2n/utils/cast.h:maybe_narrow"]}
{"id": "C13", "title": "Broken pipelines stay broken, warnings are bounded", "statement": "A pipeline that raised a non-recoverable error raises an error for every later operation except reset (a no-op); a recoverable error is swallowed at most max_num_warnings times per pipeline, each swallowed error dropping at most the failing example, and the next one is raised to the caller.", "quantifier": "every history of next calls and every pattern of failing examples", "why_tests_cant": "Histories of failures are unbounded.", "anchors": ["native/src/fairseq2n/data/data_pipeline.cc:data_pipeline::next", "native/src/fairseq2n/data/data_pipeline.cc:data_pipeline::check_if_broken"]}
{"id": "C14", "title": "reset restarts the stream", "statement": "After reset, a pipeline yields again the stream of a freshly created pipeline (for shuffle/sample only if the random state is also reset), regardless of how far it had been consumed.", "quantifier": "every composition and every consumption point", "why_tests_cant": "All interruption points.", "anchors": ["native/src/fairseq2n/data/data_pipeline.cc:data_pipeline::reset"]}
{"id": "C15", "title": "prefetch preserves the stream under every schedule", "statement": "For every interleaving of the background thread with the consumer, the consumer of prefetch(n) sees exactly the examples of the inner pipeline in order, followed by the end of data or by the inner pipeline's error; the buffer never exceeds n (+1 in flight) and neither thread waits forever while the other can make progress; a recorded position covers exactly the examples not yet handed out.", "quantifier": "every interleaving of two threads, every n, every inner stream, every consumption point", "why_tests_cant": "Thread schedules cannot be enumerated by running tests.", "anchors": ["native/src/fairseq2n/data/prefetch_data_source.cc"]}
{"id": "C16", "title": "Parallel map preserves order and content", "statement": "map(fn, num_parallel_calls=n, deterministic=True) yields exactly the examples and in the order of map(fn), for every order in which the workers finish.", "quantifier": "every n >= 1, every completion order of the workers, every input", "why_tests_cant": "Completion orders are exponentially many.", "anchors": ["native/src/fairseq2n/data/map_data_source.cc:map_data_source::fill_buffer"]}
{"id": "C17", "title": "repeat repeats", "statement": "repeat(n) yields n copies of the input one after another; repeat() never ends on a non-empty input and ends at once on an empty one.", "quantifier": "every input, every n", "why_tests_cant": "Unbounded stream.", "anchors": ["native/src/fairseq2n/data/repeat_data_source.cc"]}
{"id": "C18", "title": "LRU cache of memory mapped files", "statement": "The file cache never holds more than its capacity, a lookup returns the entry last added under that key if and only if it is among the capacity most recently used ones, and the entry evicted is always the least recently used one.", "quantifier": "every sequence of lookups and insertions, every capacity", "why_tests_cant": "Operation histories are unbounded.", "anchors": ["native/src/fairseq2n/data/detail/lru_cache.h:lru_cache"]}
{"id": "C19", "title": "File segments stay inside the file", "statement": "FileMapper on `path:offset:size` returns exactly the bytes [offset, offset+size) of the file, and for every textual offset and size that does not denote a range inside the file it raises instead.", "quantifier": "every pathname string, offset, size and file length", "why_tests_cant": "64-bit arithmetic boundaries.", "anchors": ["native/src/fairseq2n/data/file_mapper.cc:file_mapper::operator()"]}
{"id": "C20", "title": "Collater pads to one rectangular batch and nothing else", "statement": "Collating sequences produces a batch where row i starts with example i unchanged and the rest of the row is the pad value, all rows have the same length, which is the smallest multiple of pad_to_multiple that is >= the longest example, and seq_lens are the original lengths.", "quantifier": "every list of sequences, pad value and multiple", "why_tests_cant": "All length combinations.", "anchors": ["native/src/fairseq2n/data/collater.cc"]}
{"id": "C21", "title": "Element selectors address exactly one path", "statement": "A selector string is accepted iff it follows the documented syntax, and mapping with it changes exactly the addressed elements and no other part of the example.", "quantifier": "every string and every nested example", "why_tests_cant": "Strings and nestings are unbounded.", "anchors": ["native/src/fairseq2n/data/element_selector.cc", "native/src/fairseq2n/data/element_mapper.cc"]}
{"id": "C22", "title": "Text reader splits every input into lines", "statement": "read_text yields the lines of the file in order, i.e. joining them with the line ending gives back the file contents, independent of how the underlying stream splits the bytes into chunks.", "quantifier": "every file content, every chunking, LF and CRLF endings", "why_tests_cant": "All chunk boundaries.", "anchors": ["native/src/fairseq2n/data/record_reader.cc", "native/src/fairseq2n/data/text/text_line_reader.cc", "native/src/fairseq2n/data/text/text_data_source.cc"]}
{"id": "C23", "title": "All data-parallel ranks end an epoch on the same call", "statement": "With a data reader per rank that synchronises batches over the data parallel gang, for every call of next either all ranks return the same number of batches (UNTIL_FIRST) or at least one rank still has batches and all ranks return without ending (UNTIL_LAST), or all ranks raise StopIteration; afterwards they keep raising until reset.", "quantifier": "every number of ranks, every content per rank, every num_accumulate and history of calls", "why_tests_cant": "Depends on the joint history of all ranks.", "anchors": ["src/fairseq2/datasets/data_reader.py:DataPipelineReader"]}
{"id": "C24", "title": "Batch layout describes the batch", "statement": "A BatchLayout that is accepted has begin indices that are increasing and delimit the sequences, position indices that count 0..len-1 within every sequence and are -1 exactly on padding, min/max lengths that are the true extrema and padded set exactly if some element is padding; malformed lengths are rejected.", "quantifier": "every shape, every list of lengths, packed or not", "why_tests_cant": "All length vectors.", "anchors": ["src/fairseq2/nn/batch_layout.py:BatchLayout"]}
{"id": "C25", "title": "Sequence batch accounting and auto-regressive split", "statement": "For every accepted SequenceBatch, num_elements + padding is the number of elements of the batch, and as_auto_regressive returns an input and a target batch of the same lengths in which the target at every position is the element following the input at that position, exactly one element being trimmed from each sequence.", "quantifier": "every batch, packed or padded", "why_tests_cant": "All length vectors.", "anchors": ["src/fairseq2/datasets/batch.py:SequenceBatch"]}
{"id": "C26", "title": "A crash never exposes a partial checkpoint", "statement": "At every instant, including between any two file-system operations of a save or delete on any rank, every step number reported by the checkpoint manager (local file system) has a complete checkpoint directory: all files of all ranks; an interrupted save is never reported.", "quantifier": "every sequence of save and delete operations, every crash point, every number of ranks and every interleaving of their writes", "why_tests_cant": "Crash points and rank interleavings cannot be enumerated by tests.", "anchors": ["src/fairseq2/checkpoint/manager.py:StandardCheckpointManager"]}
{"id": "C27", "title": "Checkpoint retention keeps what was promised", "statement": "The stale step numbers are exactly the existing steps other than the last one that are neither among the last n, nor among the n best-scored, nor multiples of n, as configured; consequently the most recent checkpoint is never deleted and with no policy configured nothing is.", "quantifier": "every set of existing steps, scores and every combination of policies", "why_tests_cant": "All sets of steps and score orders including ties.", "anchors": ["src/fairseq2/checkpoint/manager.py:get_stale_step_numbers"]}
{"id": "C28", "title": "Best checkpoint order", "statement": "Scores are returned in descending order of score with ties broken by the later step; the best step is the one with the highest score.", "quantifier": "every set of score files", "why_tests_cant": "All orders and ties.", "anchors": ["src/fairseq2/checkpoint/manager.py:_do_load_scores"]}
{"id": "C29", "title": "Trainer performs each periodic action exactly at its steps", "statement": "For every run, the step counter takes the values 1,2,3,... without gaps, never exceeds max_num_steps, and between one step and the next checkpointing, validation and metric publishing happen exactly if the step is > after_n_steps and divisible by every_n_steps (or a data epoch that is due ends there), and at the end of the run; a requested stop lets at most the current update finish when max_num_steps is not set.", "quantifier": "every configuration and every data stream, including gradient overflow", "why_tests_cant": "Run lengths are unbounded.", "anchors": ["src/fairseq2/trainer.py:Trainer._do_run", "src/fairseq2/trainer.py:Trainer._should_do"]}
{"id": "C30", "title": "Resuming a trainer continues the same run", "statement": "A trainer that is killed at any moment and restarted from one of its checkpoints, any number of times, performs the same sequence of optimizer updates (same step numbers, same batches, same model, optimizer and schedule), checkpoints and validations as the uninterrupted run.", "quantifier": "every configuration, every data stream, every crash point", "why_tests_cant": "All crash points of unbounded runs.", "anchors": ["src/fairseq2/trainer.py:Trainer._maybe_restore_state", "src/fairseq2/trainer.py:Trainer._save_checkpoint"]}
{"id": "C31", "title": "Overflowed step is repeated, not counted", "statement": "With fp16 loss scaling, a step in which gradients overflow leaves the model, the step counter and the training metrics as before the step; the loss scale is lowered but never below its minimum without reporting it.", "quantifier": "every pattern of overflows", "why_tests_cant": "Unbounded patterns.", "anchors": ["src/fairseq2/trainer.py:Trainer._do_run_step", "src/fairseq2/optim/fp16_loss_scaler.py:Float16LossScaler", "src/fairseq2/metrics/bag.py:MetricBag"]}
{"id": "C32", "title": "Parallel gangs tile the world", "statement": "create_parallel_gangs with tp_size dividing the world size gives each process exactly one data parallel and one tensor parallel gang; (dp rank, tp rank) identifies the process uniquely, two processes are in the same tp (dp) gang iff they have the same dp (tp) rank, and consecutive ranks share a tensor parallel gang.", "quantifier": "every world size and tp size, every rank", "why_tests_cant": "All sizes.", "anchors": ["src/fairseq2/gang.py:create_parallel_gangs"]}
{"id": "C33", "title": "FSDP gangs tile the data parallel gang", "statement": "create_fsdp_gangs splits the data parallel gang into intra-node sharding gangs of consecutive ranks and inter-node replication gangs such that (rdp rank, sdp rank) identifies a data parallel rank uniquely.", "quantifier": "every dp size and intra-node size", "why_tests_cant": "All sizes.", "anchors": ["src/fairseq2/gang.py:create_fsdp_gangs"]}
{"id": "C34", "title": "Beam search terminates within its length limits", "statement": "For every model, beam search ends after at most max_seq_len steps; every hypothesis ends with EOS, contains EOS nowhere else after the prompt, contains no PAD, is at most max_seq_len long, and has at least min_gen_len generated tokens counted from the longest prompt.", "quantifier": "every model (arbitrary scores), every batch of prompts, every vocabulary and beam size", "why_tests_cant": "The model is arbitrary.", "anchors": ["src/fairseq2/generation/beam_search/generator.py"]}
{"id": "C35", "title": "Beam search returns hypotheses for every prompt", "statement": "Every prompt gets at least one and at most beam_size hypotheses, returned in descending order of score, each extending its own prompt.", "quantifier": "every model, every batch, every beam size", "why_tests_cant": "Beams of different prompts finish at different steps and are re-indexed; all interleavings matter.", "anchors": ["src/fairseq2/generation/beam_search/generator.py:_AbstractBeamSearchSequenceGeneratorOp"]}
{"id": "C36", "title": "Beam search scores are sums of step scores", "statement": "The score of every hypothesis (with normalisation off) is the sum of the log probabilities that the model, after the user's processors and penalties, gives to each of its tokens but the first (prompt tokens included) given their own prefixes: beams are never mixed up when they are re-ordered.", "quantifier": "every model, every number of steps", "why_tests_cant": "All re-orderings.", "anchors": ["src/fairseq2/generation/beam_search/generator.py:_reorder_state"]}
{"id": "C37", "title": "Sampling returns exactly num_gens sequences per prompt", "statement": "The sampling generator returns exactly num_gens hypotheses for every prompt, each extending that prompt, ending with EOS (which is forced at the length limit), within the same length limits, and with the scores of its own tokens.", "quantifier": "every model, every random stream, every batch", "why_tests_cant": "Random streams and models are arbitrary.", "anchors": ["src/fairseq2/generation/sampling/generator.py"]}
{"id": "C38", "title": "Top-p and top-k sample only from the nucleus", "statement": "TopKSampler only returns one of the k most probable tokens; TopPSampler only returns tokens from the smallest set of most probable tokens whose probability exceeds p, and this set is never empty.", "quantifier": "every probability vector, k, p, random choice", "why_tests_cant": "All distributions.", "anchors": ["src/fairseq2/generation/sampling/sampler.py"]}
{"id": "C39", "title": "Banned sequences never appear", "statement": "With the banned-sequence processor, a token is forbidden exactly if it would complete a banned sequence at the end of the row, hence no generated continuation ever contains a banned sequence that ends in the generated part.", "quantifier": "every list of banned sequences, every batch, every model", "why_tests_cant": "All sequences.", "anchors": ["src/fairseq2/generation/step_processor.py:BannedSequenceProcessor"]}
{"id": "C40", "title": "No n-gram is repeated", "statement": "With the n-gram blocking processor no generated token completes an n-gram that occurs earlier in the sequence, and a token that would not is never blocked.", "quantifier": "every n, sequence and model", "why_tests_cant": "All sequences.", "anchors": ["src/fairseq2/generation/step_processor.py:NGramRepeatBlockProcessor"]}
{"id": "C41", "title": "structure inverts unstructure", "statement": "For every supported type and every value of this type, structuring the unstructured value gives back an equal value.", "quantifier": "every type expression (nested dataclasses, lists, dicts, tuples, optionals, enums, paths) and every value", "why_tests_cant": "Types nest without bound.", "anchors": ["src/fairseq2/utils/structured.py:StandardValueConverter"]}
{"id": "C42", "title": "Config merging touches only what is mentioned", "statement": "Merging overrides into a configuration yields a configuration whose value at every path is the override's if mentioned, the original's if not; _del_ removes exactly the listed keys and _set_ replaces exactly the listed ones; merging an empty override is the identity and the inputs are unchanged.", "quantifier": "every nested configuration and override", "why_tests_cant": "Nesting is unbounded.", "anchors": ["src/fairseq2/utils/config.py:StandardConfigMerger"]}
{"id": "C43", "title": "Directives are substituted in every string, once", "statement": "Processing a configuration replaces every ${env:NAME} and ${env:NAME:default} in every string in its lists and dict values, at any depth, by the value of the variable, or else the default, or else the empty string, and every ${dir} by the directory of the file; values that are put in are not looked at again, and keys, all other text and all other values are unchanged.", "quantifier": "every string, environment and nesting", "why_tests_cant": "All strings.", "anchors": ["src/fairseq2/utils/config.py:ReplaceEnvDirective", "src/fairseq2/utils/config.py:ReplacePathDirective", "src/fairseq2/utils/config.py:StandardConfigProcessor"]}
{"id": "C44", "title": "Validation reports every error", "statement": "A configuration object is accepted iff no nested object reports an error, wherever in the object tree it is; the reported field path identifies it.", "quantifier": "every object tree", "why_tests_cant": "Nesting is unbounded.", "anchors": ["src/fairseq2/utils/validation.py:StandardObjectValidator"]}
{"id": "C45", "title": "Learning rates stay in range and are continuous", "statement": "Every provided schedule gives at every step a learning rate between its lowest and highest configured values, warms up monotonically, decays monotonically, has no jump where phases meet, and keeps its final value forever.", "quantifier": "every step number and every admissible configuration", "why_tests_cant": "Infinitely many steps and real parameters.", "anchors": ["src/fairseq2/optim/lr_schedulers/"]}
{"id": "C46", "title": "Loss scale stays in range", "statement": "The fp16 loss scale changes only by the scale factor, never exceeds what the growth window permits and is reported as `min reached' before it could go below the minimum.", "quantifier": "every sequence of overflow/no-overflow steps", "why_tests_cant": "Unbounded histories.", "anchors": ["src/fairseq2/optim/fp16_loss_scaler.py:Float16LossScaler"]}
{"id": "C47", "title": "Metric bag transactions are atomic", "statement": "After rollback_updates every metric has the value it had at begin_updates; after commit_updates it has the updated value; begin without commit/rollback or vice versa raises; state_dict/load_state_dict round-trips.", "quantifier": "every sequence of operations", "why_tests_cant": "Unbounded histories.", "anchors": ["src/fairseq2/metrics/bag.py:MetricBag"]}
{"id": "C48", "title": "Temporary seeds leave the random streams unchanged", "statement": "A block run under temporary_manual_seed sees the seeded stream and, whatever it draws and even if it raises, the surrounding random stream continues as if the block had not been there; state_dict/load_state_dict resumes the stream.", "quantifier": "every program inside the block, every nesting", "why_tests_cant": "Arbitrary programs.", "anchors": ["src/fairseq2/utils/rng.py:RngBag"]}
{"id": "C49", "title": "Dependency container resolves consistently", "statement": "A singleton is created at most once and every resolve returns that object; a registered dependency always resolves unless it (transitively) depends on itself or on something missing, in which case an error is raised instead of looping forever; registering after the first resolve is rejected.", "quantifier": "every set of registrations and every order of resolves", "why_tests_cant": "Dependency graphs are unbounded.", "anchors": ["src/fairseq2/runtime/dependency.py:DependencyContainer"]}
{"id": "C50", "title": "Attention state equals the full history", "statement": "During incremental decoding, the keys and values returned by a full attention state are exactly those of all steps so far in order, for every capacity increment; those returned by a local attention state are the last min(window, n) ones; reordering permutes the batch rows.", "quantifier": "every sequence of append and reorder operations, every capacity increment and window", "why_tests_cant": "Histories are unbounded.", "anchors": ["src/fairseq2/models/transformer/multihead_attention.py:FullAttentionState", "src/fairseq2/models/transformer/multihead_attention.py:LocalAttentionState"]}
{"id": "C51", "title": "Incremental positions agree with full-sequence positions", "statement": "A position encoder assigns an element of a sequence the same table row whether the sequence is encoded at once, inside a padded or packed batch, or step by step with an incremental state; the row is always within the table and never the padding row for a real element.", "quantifier": "every sequence, every split into steps", "why_tests_cant": "All splits.", "anchors": ["src/fairseq2/nn/position_encoder.py", "src/fairseq2/nn/incremental_state.py:IncrementalStateBag"]}
{"id": "C52", "title": "Sharded embeddings equal the unsharded ones", "statement": "The vocabulary-sharded (and the dimension-sharded) embedding returns on all ranks of the tensor parallel gang the embedding the unsharded table would return, and gathering the shards gives back the table.", "quantifier": "every table, every gang size dividing it, every index", "why_tests_cant": "All sizes.", "anchors": ["src/fairseq2/nn/embedding.py:VocabShardedEmbedding", "src/fairseq2/nn/embedding.py:ShardedEmbedding"]}
{"id": "C53", "title": "Sharded projections equal the unsharded ones", "statement": "Column- and row-sharded linear projections return the output of the unsharded projection for every gang size dividing the sharded dimension.", "quantifier": "every matrix, input, gang size", "why_tests_cant": "All sizes.", "anchors": ["src/fairseq2/nn/projection.py:ColumnShardedLinear", "src/fairseq2/nn/projection.py:RowShardedLinear"]}
{"id": "C54", "title": "Asset cards resolve by environment and inheritance", "statement": "A card's field is taken from the most specific place: the environment-specific entry (user first, then the default environment, or only the explicitly named one), then the asset itself, then its base chain; an asset name defined twice is rejected, and retrieving never modifies the store.", "quantifier": "every set of assets and every base chain", "why_tests_cant": "Chains are unbounded.", "anchors": ["src/fairseq2/assets/store.py:StandardAssetStore", "src/fairseq2/assets/card.py:AssetCard", "src/fairseq2/assets/metadata_provider.py"]}
{"id": "C55", "title": "Gradient accumulation performs one update from all batches of a step", "statement": "A training step over several batches runs forward and backward for each batch in order with the model as it was before the step, divides the accumulated gradients once by the total number of targets of all its batches, clips them and calls the optimizer and then the learning rate schedule exactly once.", "quantifier": "every list of batches, every model, optimizer and unit", "why_tests_cant": "Any number of batches, with and without target counts.", "anchors": ["src/fairseq2/trainer.py:Trainer._do_run_step"]}
{"id": "C56", "title": "Fake gangs behave like gangs of equal processes", "statement": "The reductions and all_gather of a FakeGang of size n give what a gang of n processes gives whose processes all hold the same tensor.", "quantifier": "every size, value and reduction", "why_tests_cant": "All sizes, values and reductions.", "anchors": ["src/fairseq2/gang.py:FakeGang.all_reduce", "src/fairseq2/gang.py:FakeGang.all_gather"]}
{"id": "C57", "title": "Gang contexts are lexically scoped", "statement": "get_current_gangs returns the gangs of the innermost enclosing `with` for the device, otherwise the default gangs, otherwise fake gangs; after a `with` block, whether it ends normally or by an exception, the current gangs of every device are what they were before it.", "quantifier": "every program of nested and sequential contexts, default changes and exceptions", "why_tests_cant": "Unbounded nesting, any point of failure.", "anchors": ["src/fairseq2/gang.py:_GangManager", "src/fairseq2/gang.py:set_gangs", "src/fairseq2/gang.py:get_current_gangs"]}
{"id": "C58", "title": "Broadcast delivers the value of the source", "statement": "After gang.broadcast(tensor, source_rank) every process of the gang holds the tensor of the process whose rank in that gang is source_rank.", "quantifier": "every gang, source rank and values", "why_tests_cant": "All gangs.", "anchors": ["src/fairseq2/gang.py:ProcessGroupGang.broadcast"]}
{"id": "C59", "title": "Attention of a batch sees exactly the keys of the own sequence that the mask allows", "statement": "For every padded, packed or plain batch, attention gives each query the softmax-weighted mean of the values of the keys of its own sequence that its bias allows (all of them, those up to its position, or the last ones inside the window); padding and other sequences have no influence, so a sequence gets what it gets alone. A step with the keys kept so far gives the corresponding part of the whole pass, the torch implementation agrees with the naive one, and sharing a bias cache between layers changes nothing.", "quantifier": "all layouts of queries and keys, all queries, keys, values and scores, all window lengths, all sequences of layers sharing a cache", "why_tests_cant": "The combinations of layouts, lengths, windows and steps are unbounded; tests compare a few shapes.", "anchors": ["src/fairseq2/models/transformer/attention_bias.py: CausalAttentionBias, ChunkedAttentionBias, ALiBiAttentionBias, materialize_attention_bias, AttentionBiasCache, maybe_get_attention_bias_tensor", "src/fairseq2/models/transformer/sdpa/naive.py: NaiveSDPA", "src/fairseq2/models/transformer/sdpa/torch.py: TorchSDPA"]}
{"id": "C60", "title": "A checkpoint loads into gangs of any size", "statement": "A model checkpoint that was saved with any tensor and data parallel sizes, or as one file, or as a directory of safetensors files, gives a process with tensor parallel rank r for every parameter exactly the r-th of the equal parts of the whole tensor along its shard dimension (the whole tensor if it is not sharded): every parameter once, in the saved order, tensors shared by several parameters only for the first. These parts are the shards that the sharded modules hold.", "quantifier": "all parameters, shard dimensions, source and target gang sizes that divide them, uneven data parallel pieces, distributions over files", "why_tests_cant": "The combinations of source and target sizes and shapes are unbounded; tests reshard a few literal tensors.", "anchors": ["src/fairseq2/model_checkpoint/common.py:reshard_tensor", "src/fairseq2/model_checkpoint/native.py:_NativeModelCheckpointLoader", "src/fairseq2/model_checkpoint/basic.py", "src/fairseq2/model_checkpoint/safetensors.py", "src/fairseq2/checkpoint/manager.py:_record_model_state", "src/fairseq2/nn/fsdp/fsdp2.py:fsdp2_local_state_dict"]}
{"id": "C61", "title": "The length used for bucketing is the longest selected length", "statement": "bucket_by_length and dynamic_bucket with a selector take as the length of an example the longest of the lengths of the addressed elements (first dimension of a tensor, number of items of a list, value of an integer), and raise exactly if an addressed element is missing or has no length.", "quantifier": "every selector and every nested example", "why_tests_cant": "Selectors and nestings are unbounded.", "anchors": ["native/src/fairseq2n/data/data_length_extractor.cc", "native/src/fairseq2n/data/element_selector.cc"]}
{"id": "C62", "title": "Unordered parallel map delivers every example exactly once", "statement": "map(fn, num_parallel_calls=n, deterministic=False) yields fn(x) exactly once for every example x of the input, in some order, then the end; every call to next and state_dict returns; after saving and loading the state in the middle the two parts together are the same multiset; an error of fn reaches the caller; and no more than a bounded number of examples is read ahead.", "quantifier": "every n >= 2, every input (finite or not), every interleaving of workers and consumer, with sleeping and notification explicit, every point at which the state is saved", "why_tests_cant": "The failing interleavings are a few instructions wide and schedules are unbounded in number.", "anchors": ["native/src/fairseq2n/data/map_data_source.cc:map_data_source::fill_buffer_async", "native/src/fairseq2n/data/map_data_source.cc:map_data_source::AsyncMapTask::operator()", "native/src/fairseq2n/data/map_data_source.cc:map_data_source::wait_until_done", "native/src/fairseq2n/data/element_mapper.cc"]}
{"id": "C63", "title": "The asset cache hands out complete assets only", "statement": "Downloading a model, tokenizer or dataset returns a directory that holds the whole asset, byte for byte, whatever failed or was interrupted in earlier calls; a cached asset is returned without network access; a forced download replaces it; and no file outside the cache directory is written.", "quantifier": "every history of calls with and without force and local_only, network errors and process stops at any point of any call, every asset (single file or archive of any number of files)", "why_tests_cant": "The failing histories need a stop at one point of one call followed by particular later calls.", "anchors": ["src/fairseq2/assets/download_manager.py:_AssetDownloadOperation"]}
{"id": "C64", "title": "Random masks respect rows and lengths", "statement": "compute_row_mask returns a mask of the requested shape that masks only elements inside the length of their row, the same number in every row, at least one whole span and at most max_mask_prob of the row less one element, so that an unmasked element remains; it raises exactly if a row is not longer than a span or has no room for min_num_spans; every placement of spans is possible; and extracting the masked elements gives them row by row in order.", "quantifier": "every random number, every number of rows, row length, span length, probability and minimum", "why_tests_cant": "Tests see a few random draws; overlaps and the equalisation of the rows depend on all of them.", "anchors": ["src/fairseq2/nn/utils/mask.py:compute_row_mask", "src/fairseq2/nn/utils/mask.py:_compute_mask_spans", "src/fairseq2/nn/utils/mask.py:_generate_mask", "src/fairseq2/models/wav2vec2/masker.py:Wav2Vec2Masker.extract_masked_elements"]}
{"id": "C65", "title": "Distractors are other elements of the same sequence", "statement": "The distractors sampled for a masked element in wav2vec 2.0 pretraining are masked elements of the same sequence other than the element itself, and each of them is drawn for exactly one value of the random number.", "quantifier": "every batch size, number of masked elements and distractors, every random number", "why_tests_cant": "An index that leaves its sequence or hits the target appears for single random values only.", "anchors": ["src/fairseq2/models/wav2vec2/model.py:Wav2Vec2Model._sample_distractors"]}
{"id": "C66", "title": "Exchanging weights with other libraries loses nothing", "statement": "Exporting the weights of a LLaMA, Qwen or OLMo model to Hugging Face and importing the result gives the same weights under the same names, and so does importing and exporting; the names are those of the other library, for every layer number and every parameter of a module; shared embeddings are stored once there and twice here; the same holds for LLaMA in the layout of its reference implementation; and the reordered projections give the same attention scores as the other library's with its own rotary encoding.", "quantifier": "every dictionary of weights with known names, every number of layers, heads and key/value heads, every even head size, every input and position", "why_tests_cant": "Tests convert one small model; the regular expressions must work for every layer number and name, and the reordering for every head layout.", "anchors": ["src/fairseq2/models/utils/checkpoint.py:convert_state_dict", "src/fairseq2/models/utils/checkpoint.py:create_reverse_key_map", "src/fairseq2/models/llama/interop.py:convert_llama_state_dict", "src/fairseq2/models/llama/interop.py:_LLaMAHuggingFaceConverter.to_hg_state_dict", "src/fairseq2/models/llama/interop.py:convert_to_ref_llama_state_dict", "src/fairseq2/models/qwen/interop.py", "src/fairseq2/models/olmo/interop.py", "src/fairseq2/models/gemma3n/interop.py", "src/fairseq2/models/mistral/interop.py"]}
{"id": "C67", "title": "Loading a checkpoint into a model sets every tensor or says what is wrong", "statement": "set_model_state returns without exception exactly if every tensor of the checkpoint has a name of the model, occurs once and has the shape of the model's tensor, and every tensor of the model occurs under at least one of its names; then every tensor of the model holds what the checkpoint has under the last of its names. Otherwise the exception names exactly the tensors of different shape, the missing and the unexpected (or repeated) ones. A tensor is never set in part or from a tensor of another name, also if the checkpoint cannot be read to its end.", "quantifier": "every model, with any sharing of parameters, every checkpoint, every point where reading stops", "why_tests_cant": "The combinations of shared, missing, repeated and mismatched names are unbounded.", "anchors": ["src/fairseq2/models/utils/checkpoint.py:set_model_state"]}
{"id": "C68", "title": "Streaming a Parquet dataset delivers every fragment once per epoch, to one rank, also over interruptions", "statement": "With a seed, or without shuffling, a stream of fragments of a Parquet dataset delivers in each epoch every fragment of the files within the limits exactly once; shuffling moves fragments only within windows of the configured size; saving the iterator at any point and going on with the restored one changes nothing of what is delivered; after a reset everything is delivered as the first time; and over all ranks with the same seed each fragment is delivered to exactly one rank per epoch, with and without per-rank shifts of the files. Listing fragments with limits gives a beginning of the dataset that ends with the first fragment reaching a limit.", "quantifier": "every dataset, limits, window size, number of epochs, seed, shuffle outcome, every history of reading, saving, restoring and resetting, every number of ranks", "why_tests_cant": "Windows spanning epochs, points of interruption and shuffle outcomes combine without bound.", "anchors": ["src/fairseq2/data/parquet/fragment_streaming/primitives.py:ParquetFragmentStreamer", "src/fairseq2/data/parquet/fragment_streaming/primitives.py:ShuffledIterator", "src/fairseq2/data/parquet/fragment_streaming/primitives.py:list_parquet_fragments", "src/fairseq2/data/parquet/fragment_streaming/builder.py:ParquetFragmentStreamer.build_pipeline"]}
{"id": "C69", "title": "Batching the rows of Parquet tables loses no row and respects the sizes", "statement": "Concatenating tables into buckets and splitting them into batches delivers every row exactly once (rows longer than the limit are dropped if so configured, and delivered alone otherwise); with a batch size no batch is empty or larger than it; with a limit of tokens no batch of more than one row, padded to its longest row, exceeds it; without ordering and shuffling the rows keep their order, with ordering they come by ascending length, and no batch could have taken one more row.", "quantifier": "every table and chunking, all lengths and reducers, every sort and shuffle outcome, all sizes", "why_tests_cant": "The combinations of lengths at the limits, chunk boundaries and options are unbounded.", "anchors": ["src/fairseq2/data/parquet/table_bucketing/primitives.py:compute_length_splits", "src/fairseq2/data/parquet/table_bucketing/primitives.py:build_batching_loop_over_one_table", "src/fairseq2/data/parquet/table_bucketing/builder.py:TableBucketer.apply"]}
{"id": "C70", "title": "A validation run scores every batch once and leaves training undisturbed", "statement": "A validation run processes every batch of every unit exactly once, in order, into the metrics of its unit, records the metrics of each unit once, and returns the sum of the scores of the units (negated if lower is better); the best score and its step are, after any history of runs, errors, resets and a restored checkpoint, those of the first of the greatest scores; afterwards the readers are at the start of an epoch and the random number generators as before; all ranks take part in the same collective operations whatever batches they have.", "quantifier": "every list of units, batches and metrics, every rank, all histories of runs, errors and resets", "why_tests_cant": "The histories of runs, failures and restored scores, and the distributions of batches over ranks, are unbounded.", "anchors": ["src/fairseq2/validator.py:StandardValidator", "src/fairseq2/evaluator.py:Evaluator", "src/fairseq2/generator.py:Generator"]}
{"id": "C71", "title": "The name of a run's directory is filled from the settings, and runs with different settings get different names", "statement": "The name of the output directory of a run is its documented format with every placeholder replaced by the tag of the setting, doubled braces standing for braces; a format with a key that is not a setting is refused and the error names these keys. Different settings have different placeholders. The name depends on the settings and the number of processes only, not on the order in which settings are written, and two runs that differ in one setting (by its tag) hash different texts.", "quantifier": "every format, every nested configuration, all orders of keys, every number of processes", "why_tests_cant": "Formats and configurations are unbounded texts and trees; a clash of names overwrites another run.", "anchors": ["src/fairseq2/recipe/internal/sweep_tag.py:_StandardSweepTagGenerator", "src/fairseq2/recipe/internal/output_dir.py:_OutputDirectoryCreator"]}
{"id": "C72", "title": "A training step follows the gradient of the mean loss over all targets of all ranks", "statement": "The optimizer receives on every rank the gradient of the mean loss over all targets of all batches of all ranks (or, for losses that are already means, of their mean over the batches), whether the model is replicated or sharded, whether gradients are synchronized at every micro-batch or only at the last, and for any loss scale; it does not depend on how the batches are distributed over ranks. The check of gradient norms raises exactly if the norm of some rank deviates relatively by at least 1e-6 from that of the first.", "quantifier": "every number of ranks and micro-batches, all losses, numbers of targets, loss scales and modes of synchronization", "why_tests_cant": "The claim relates all distributions of batches over any number of ranks.", "anchors": ["src/fairseq2/trainer.py:Trainer._do_run_step", "src/fairseq2/nn/utils/grad.py:normalize_grads", "src/fairseq2/nn/utils/grad.py:check_grad_norms"]}
{"id": "C73", "title": "A mixture of experts applies to each token its chosen experts and no others, and sharding changes nothing", "statement": "The output of a mixture of experts layer for a token is the output of the shared expert (if there is one) plus those of the experts chosen for it, each applied to the token weighted by the sigmoid of its score; the other experts contribute nothing and no token influences another. Sharded over tensor parallel processes it has the same output on every process, for every number of processes that divides the inner dimensions; for any other number an error is raised.", "quantifier": "all weights, tokens, choices of experts, numbers of experts, dimensions and numbers of processes", "why_tests_cant": "The claim relates all layouts of the folded weights over any number of processes and experts.", "anchors": ["src/fairseq2/models/llama4/moe.py:MoE.forward", "src/fairseq2/models/transformer/experts.py:TPShardedExpertNetwork", "src/fairseq2/models/transformer/experts.py:GroupedExpertNetwork", "src/fairseq2/models/llama4/sharder.py:MoESharder"]}
{"id": "C74", "title": "Checkpoints saved and exported in the background are complete when training ends, and are not deleted during export", "statement": "However saving and exporting in the background interleave with training: checkpoints are committed in the order in which they were begun, all but perhaps the last; each committed checkpoint is exported once and in order, never two at a time, starting while it is there and not deleted before the export ends; hooks are called once for each committed checkpoint and each successful export. When training ends nothing is left undone.", "quantifier": "every schedule of training steps, checkpoints, stops and background operations, every outcome of exports and every policy of deletion that keeps the last checkpoint", "why_tests_cant": "Interleavings of background operations with training are unbounded and depend on timing.", "anchors": ["src/fairseq2/trainer.py:Trainer._on_checkpoint_saved", "src/fairseq2/trainer.py:Trainer._stop", "src/fairseq2/trainer.py:Trainer._early_stop", "src/fairseq2/checkpoint/hg.py:OutOfProcHuggingFaceExporter", "src/fairseq2/checkpoint/manager.py:StandardCheckpointManager.maybe_complete_save_operation"]}
{"id": "C75", "title": "Bucket sizes are optimal", "statement": "create_bucket_sizes rejects exactly the requests that its documentation excludes and always returns. The lengths of the buckets increase and end with the maximum length; no bucket exceeds the maximum number of elements; every admitted length has a bucket, and the smallest bucket for a length takes as many sequences as the budget allows for sequences of that very length, rounded down to a multiple of num_seqs_multiple_of.", "quantifier": "every budget, maximum and minimum length, and multiple", "why_tests_cant": "The loop runs over quotients of the budget; optimality is a claim about every length for every budget.", "anchors": ["src/fairseq2/data/data_pipeline.py:create_bucket_sizes"]}
{"id": "C76", "title": "Incremental decoding gives what decoding at once gives", "statement": "A decoder-only model that is fed tokens in chunks with a state bag gives for every chunk the outputs that the model gives for the same positions of the whole sequences without a state bag, after any number of chunks of any lengths and any rearrangements of the rows of the bag. It fails exactly if the whole sequences are too long. Without a bag, the output at a position depends on the tokens up to it only, and rows do not influence each other. Layer hooks observe outputs and can end the stack by returning False.", "quantifier": "every stack of layers, chunking, rearrangement of rows, and batch without padding", "why_tests_cant": "Every history of chunks and reorderings, for models of any depth.", "anchors": ["src/fairseq2/models/transformer_lm/model.py:TransformerLM", "src/fairseq2/models/transformer_lm/decoder.py:StandardTransformerLMDecoder", "src/fairseq2/models/transformer_lm/decoder_layer.py:StandardTransformerLMDecoderLayer", "src/fairseq2/models/transformer/multihead_attention.py:StandardMultiheadAttention", "src/fairseq2/models/transformer/frontend.py:TransformerEmbeddingFrontend", "src/fairseq2/nn/incremental_state.py:IncrementalStateBag"]}
{"id": "C77", "title": "Walking and converting a module reaches every module and tensor once and keeps ties", "statement": "visit_module runs the visitor exactly once on a module and on every module below it, however many attributes lead to it, and with post_order after the modules below it. apply_to_parameters replaces every parameter and buffer by what the function makes of it, calling the function once per distinct tensor, so that tied parameters stay tied and nothing else becomes tied. to_device refuses modules whose tensors are on several devices before changing anything; otherwise everything ends on the target device, tensors that are there stay, ties survive, and exactly the modules that were on the meta device initialise themselves, once each.", "quantifier": "every module graph with shared modules, tied tensors and missing children, every function and memo", "why_tests_cant": "Every shape of the graph and every pattern of sharing.", "anchors": ["src/fairseq2/nn/utils/module.py:visit_module", "src/fairseq2/nn/utils/module.py:apply_to_parameters", "src/fairseq2/nn/utils/module.py:to_device", "src/fairseq2/nn/utils/module.py:to_empty", "src/fairseq2/nn/utils/module.py:maybe_infer_device"]}
{"id": "C78", "title": "Sharing, broadcasting and loading modules treat every parameter and buffer", "statement": "If share_parameters accepts two modules, it makes every parameter and buffer of the target the very tensor that the source has under that name, and changes nothing else. After broadcast_module all processes hold the parameters and persistent buffers (all buffers if asked) of the source process, each tensor is sent once, and tensors of skipped modules and other tensors stay as they were. load_state_dict reports exactly the keys that lie under children set to None.", "quantifier": "every pair of module graphs with shared modules, tied tensors and missing children; every number of processes; every state dict", "why_tests_cant": "Every shape of the graph and every pattern of sharing.", "anchors": ["src/fairseq2/nn/utils/module.py:share_parameters", "src/fairseq2/nn/utils/module.py:broadcast_module", "src/fairseq2/nn/utils/module.py:load_state_dict"]}
{"id": "C79", "title": "Convolutional modules treat a sequence in a padded batch as they treat it alone", "statement": "The feature extractors and position encoders of wav2vec 2.0, the subsampler of S2T Transformer and the convolution of Conformer give every sequence of a padded batch, up to the length they report, exactly what they give for that sequence alone: frames do not depend on the padding or on the width of the batch. They report an error only if one of the sequences alone is too short. Position encoders and the Conformer convolution keep the length, and the causal Conformer convolution does not look ahead.", "quantifier": "every number of layers, kernel size, stride, batch of sequences and padding content", "why_tests_cant": "Lengths and receptive fields must fit for all combinations of kernel sizes, strides, lengths and widths.", "anchors": ["src/fairseq2/models/wav2vec2/feature_extractor.py:Wav2Vec2FeatureExtractor", "src/fairseq2/models/wav2vec2/feature_extractor.py:Wav2Vec2FbankFeatureExtractor", "src/fairseq2/models/wav2vec2/position_encoder.py:Wav2Vec2PositionEncoder", "src/fairseq2/models/wav2vec2/position_encoder.py:Wav2Vec2StackedPositionEncoder", "src/fairseq2/models/s2t_transformer/feature_extractor.py:Conv1dFbankSubsampler", "src/fairseq2/models/conformer/convolution.py:ConformerConvolution"]}
{"id": "C80", "title": "SentencePiece encoders and decoders are exact and refuse what is not in the vocabulary", "statement": "An encoder of a loaded SentencePiece model gives exactly the prefix tokens, the pieces of the text and the suffix tokens, in order or reversed as a whole as asked for, without writing outside of its tensor, and only indices of the vocabulary. A decoder that reads in the same direction joins exactly the pieces that were encoded without the control tokens. A decoder refuses a sequence if and only if it has an index outside of the vocabulary. Control symbols that are added at load time keep the indices of the tokens of the file, all moved by one if a padding token is put to the front. A translation tokenizer has a token of its own for every language, and makes an encoder exactly for the known tasks, languages and modes.", "quantifier": "every model file, list of control symbols and languages, text, prefix and suffix, and index sequence", "why_tests_cant": "Index shifts, reversals and bounds must hold for every vocabulary and combination of options.", "anchors": ["native/src/fairseq2n/data/text/sentencepiece/sp_encoder.cc:sp_encoder::do_encode", "native/src/fairseq2n/data/text/sentencepiece/sp_decoder.cc:sp_decoder::do_decode", "native/src/fairseq2n/data/text/sentencepiece/sp_processor.cc:model_loader", "native/src/fairseq2n/data/text/sentencepiece/sp_model.cc:sp_model", "src/fairseq2/models/nllb/tokenizer.py:NllbTokenizer", "src/fairseq2/models/s2t_transformer/tokenizer.py:S2TTransformerTokenizer"]}
{"id": "C81", "title": "Tokenizers encode and decode faithfully and tell the truth about their vocabulary", "statement": "A tiktoken tokenizer gives the prefix, the text and the suffix, its special tokens follow the tokens of the file in their order, and all indices are less than the size of the vocabulary; decoding without special tokens gives the text back. The LLaMA tokenizers have exactly 256 and 2048 different special tokens at known indices. A prompt and its response encoded in their modes make up the sequence that the default mode would open and close. The size of a vocabulary bounds all its special indices, and beginning, end and padding can be told apart. What a call gives does not depend on earlier calls.", "quantifier": "every vocabulary file, text, list of prefix and suffix tokens, mode and history of calls", "why_tests_cant": "Vocabulary files, texts and histories of calls are unbounded; tests use a few published models.", "anchors": ["src/fairseq2/data/tokenizers/tiktoken.py:TiktokenEncoder", "src/fairseq2/data/tokenizers/tiktoken.py:TiktokenDecoder", "src/fairseq2/data/tokenizers/tiktoken.py:load_tiktoken_model", "src/fairseq2/data/tokenizers/hg.py:HuggingFaceTokenEncoder", "src/fairseq2/models/llama/tokenizer.py:LLaMATiktokenTokenizer", "src/fairseq2/models/llama4/tokenizer.py:Llama4TokenizerConfig", "src/fairseq2/models/qwen/tokenizer.py:QwenTokenizer", "src/fairseq2/models/olmo/tokenizer.py:OLMOTokenizer", "src/fairseq2/models/gemma3n/tokenizer.py:Gemma3nTokenizer", "src/fairseq2/models/hg/tokenizer.py:HgTokenizer"]}
{"id": "C82", "title": "The training loss counts every target once and no padding", "statement": "The cross entropy loss of a batch is the cross entropy of the predictions and the (smoothed) targets, over exactly the positions that are neither padding nor masked out, with the sum, mean and shape of the chosen reduction. The loss of a padded or packed batch is the sum of the losses of its sequences alone. The number of targets that a batch tells is the number of positions that count, and the loss metric over several batches is the sum of the losses divided by the number of targets.", "quantifier": "every batch, vocabulary, padding index, label smoothing, target mask, reduction and sequence of batches", "why_tests_cant": "The two code paths, the masks and the reductions must agree for all combinations and batch contents; tests compare a few small batches.", "anchors": ["src/fairseq2/nn/functional/cross_entropy.py:cross_entropy", "src/fairseq2/metrics/common.py:update_nll_loss_metric", "src/fairseq2/models/transformer_lm/model.py:TransformerLM.compute_loss", "src/fairseq2/datasets/batch.py:SequenceBatch.num_target_elements"]}
{"id": "C83", "title": "Adapted Hugging Face language models behave like fairseq2's", "statement": "A Hugging Face causal language model that is loaded through the adapter gives recipes the loss they expect: the cross entropy of the logits of every position and its target, with the chosen reduction and label smoothing; it attends to exactly the positions within the lengths of the sequences; and it can be used by the generators with an incremental state.", "quantifier": "every wrapped model, batch, target mask, reduction and label smoothing", "why_tests_cant": "The tests use a stub in place of the library's model, whose loss differs from the library's in exactly this point; positions and masks must match for every batch.", "anchors": ["src/fairseq2/models/hg/adapter.py:HgCausalLMAdapter.forward", "src/fairseq2/models/hg/adapter.py:HgCausalLMAdapter._create_attention_mask"]}
{"id": "C84", "title": "Word error rates are those of the model's transcripts", "statement": "Evaluating a speech recognition model counts, for every utterance read by any rank, the edit distance between its reference and its greedy transcript - the best label of every frame within its length, runs of equal labels merged, blanks dropped - and reports the errors per hundred units and words of all references; neither the batching nor the padding nor the number of ranks matters, and the n-th lines of the two transcript files belong together.", "quantifier": "every sequence of batches on every number of ranks, every logits, lengths, padding, tokenizer and edit distance", "why_tests_cant": "Runs, blanks and padding can meet in unboundedly many ways, and the outcomes that go wrong (a silent model, a nearly perfect one) are not in the tests.", "anchors": ["recipes/wav2vec2/asr/wer_calculator.py:WerCalculator.compute_wer", "recipes/wav2vec2/asr/wer_calculator.py:WerCalculator._generate_hypotheses", "recipes/wav2vec2/asr/wer_calculator.py:WerCalculator.process_metric_values", "src/fairseq2/metrics/text/wer.py:WerMetric", "src/fairseq2/nn/utils/padding.py:pad_seqs", "src/fairseq2/nn/batch_layout.py:BatchLayout"]}
{"id": "C85", "title": "Texts are translated and completed one by one or in batches alike", "statement": "Translating or completing a text returns the text of the generator's best hypothesis for its tokens, together with the generator's output; a batch of texts gives exactly the results of its texts in their order and fails only if one of them fails; a translator is created only if it has a device, a target prefix, a PAD and a positive greatest length; and the model is given the tokens of the text with the mark of the end.", "quantifier": "every tokenizer, every generator that treats its rows independently of each other and of the padding, every list of texts and every greatest source length", "why_tests_cant": "Holds for every mix of lengths in a batch and every generator; the tests translate a few sentences.", "anchors": ["src/fairseq2/generation/text.py:SequenceToTextConverter", "src/fairseq2/generation/text.py:TextTranslator", "src/fairseq2/generation/text.py:TextCompleter", "src/fairseq2/nn/utils/padding.py:pad_seqs"]}
{"id": "C86", "title": "Instruction tuning trains on exactly the responses", "statement": "The loss of a batch of instruction tuning is the sum, over its examples, of the negative log likelihoods of the tokens of the responses, each given the prompt and the response's tokens before it, and its number of targets is the number of these tokens; prompts and padding add nothing, and it does not matter how the examples are put into batches.", "quantifier": "every causal language model, every list of prompts and responses of any lengths, every PAD token and every batching", "why_tests_cant": "Prompt and response boundaries, the shift of the targets, the padding of rows and masks and the mask in the loss must fit together for every mix of lengths; an offset by one still trains.", "anchors": ["recipes/lm/sft/dataset.py:LMSFTDataset.create_reader", "recipes/lm/sft/recipe.py:LMSFTUnit.process_batch", "src/fairseq2/datasets/batch.py:SequenceBatch.as_auto_regressive", "src/fairseq2/nn/functional.py:cross_entropy"]}
{"id": "C87", "title": "The chatbots read dialogs in the format of their models", "statement": "A dialog is accepted exactly if, after an optional system message, it alternates between the user and the bot and ends with the user (Mistral: without a system message); the token sequence is the format of the model family. Two dialogs that give the same sequence have the same speakers and the same contents, so that no speaker can speak for another one.", "quantifier": "every tokenizer, every list of messages with any roles and contents", "why_tests_cant": "Tests encode a handful of well-formed dialogs; that malformed ones are refused, and that no content can imitate a turn, concerns all lists of messages and all contents.", "anchors": ["recipes/chatbot/llama.py:LLaMADialogEncoder.encode", "recipes/chatbot/llama.py:LLaMA3DialogEncoder.encode", "recipes/chatbot/llama.py:create_llama_dialog_encoder", "recipes/chatbot/mistral.py:MistralDialogEncoder.encode", "src/fairseq2/data/tokenizers/tiktoken.py:TiktokenEncoder.__call__"]}
{"id": "C88", "title": "A chat asks the same on all ranks and prints what the model replies", "statement": "All processes of a chat give the same dialogs to the model and end together; each message of the user up to the first 'bye' is asked once, with the system prompt and the messages and answers so far; and what is printed while a reply is generated is the text of the reply.", "quantifier": "every system prompt, every sequence of inputs, every model, every decoder and every generated sequence", "why_tests_cant": "The program is interactive and has no tests; agreement of the ranks and completeness of the printed text concern all inputs and all token boundaries.", "anchors": ["recipes/chatbot/program.py:Program.run", "recipes/chatbot/program.py:Program._run_non_interactive", "recipes/chatbot/program.py:MessagePrintHook.__call__"]}
{"id": "C89", "title": "Self-supervised speech training reads equal pieces of its recordings within the limits", "statement": "Every batch has one row per recording; the rows are contiguous pieces of their recordings and all as long as the least of the maximum length and of the recordings' lengths; batches do not exceed the configured number of elements; every part of a longer recording can be drawn; with normalize_audio the waveforms are normalised; and a resumed training reads what an uninterrupted one reads.", "quantifier": "every batch of recordings of any lengths, every random generator and seed, every limit and every point of interruption", "why_tests_cant": "Cropping is random; lengths, draws and interruption points are unbounded, and a silently ignored option or an unreachable sample does not fail any run.", "anchors": ["recipes/wav2vec2/ssl/data/preprocessing.py:AudioCropper.crop_audios_in_batch", "recipes/wav2vec2/ssl/data/preprocessing.py:add_audio_decoding", "recipes/wav2vec2/ssl/data/batch_utils.py:add_length_batching", "recipes/wav2vec2/ssl/data/dataset.py:Wav2Vec2SslDataset.create_reader", "recipes/wav2vec2/asr/data/preprocessing.py:add_layernorm"]}
{"id": "C90", "title": "What learns during the fine-tuning of a speech recogniser depends on the step alone", "statement": "In the first freeze_encoder_for_n_steps steps the frontend, the encoder and the masker do not learn; afterwards everything but the feature extractor does. This holds for a step whether the process has run from the first step or was resumed anywhere before.", "quantifier": "every number of frozen steps, every step at which a process begins, every later step and every parameter of the model", "why_tests_cant": "The trainable set is the result of a history of calls with an internal flag; it must agree for all combinations of frozen steps and points of resumption.", "anchors": ["recipes/wav2vec2/asr/recipe.py:Wav2Vec2AsrTrainUnit.set_step_nr", "recipes/wav2vec2/asr/recipe.py:Wav2Vec2AsrRecipe.prepare_model", "src/fairseq2/nn/utils/module.py:freeze_parameters"]}
{"id": "C91", "title": "Relative positions are scored by the distance of query and key", "statement": "In attention with relative positional encodings the positional score of a query and a key is the product of the query with the encoding of the distance between them, for all sequences up to the maximum length, and longer sequences are refused; with clipped distances (Shaw) every pair uses the embedding of its distance, or of the nearest limit, also if the queries are the last of the keys.", "quantifier": "every number of queries and keys, every maximum length, all limits of the distances, every encoding and product", "why_tests_cant": "The scores are computed by padding and reshaping a matrix so that rows slide; an index error depends on the lengths, which are unbounded.", "anchors": ["src/fairseq2/models/transformer/sdpa/relative.py:RelativePositionSDPA._shift_bd", "src/fairseq2/models/transformer/sdpa/relative.py:RelativePositionalEncoding.forward", "src/fairseq2/models/transformer/sdpa/shaw.py:ShawRelativePositionSDPA._get_relative_indices"]}
{"id": "C92", "title": "Chunked local attention is windowed attention", "statement": "The audio encoder of Gemma3n attends chunk by chunk; its output for an element is the attention of the element's query over the valid keys between max_past_horizon elements before and max_future_horizon elements after it, with the encoding of their distance. The chunk size, the padding of the last chunk and what lies outside of the window have no effect, and the output is as long as the input.", "quantifier": "every sequence and mask, every chunk size and horizon, every element that has a valid key in its window", "why_tests_cant": "Chunks, contexts, masks and the relative shift are index arithmetic in lengths, chunk size and horizons, all unbounded; one wrong boundary shows for some combinations only.", "anchors": ["src/fairseq2/models/gemma3n/audio/sdpa.py:Gemma3nConformerSDPA.forward", "src/fairseq2/models/gemma3n/audio/sdpa.py:Gemma3nConformerSDPA._extract_block_context", "src/fairseq2/models/gemma3n/audio/sdpa.py:Gemma3nConformerSDPA._relative_shift", "src/fairseq2/models/gemma3n/audio/sdpa.py:Gemma3nConformerSDPA._create_local_causal_valid_mask"]}
{"id": "C93", "title": "Loading Parquet fragments yields exactly the selected rows and columns, traceable to their source", "statement": "A loaded fragment has, in their order, the rows that satisfy the filter, with the requested columns of the file and of the partition under their configured names; whether the filter is applied while reading or afterwards makes no difference; the trace columns identify each row; requested columns that do not exist are an error; min_batch_size and non_deterministic_read do what they say.", "quantifier": "every fragment, partition, row groups, list of columns, filter and combination of options", "why_tests_cant": "Schemas, filters and row groups are unbounded, and the code takes different paths for different combinations of filter, columns and traces that have to agree.", "anchors": ["src/fairseq2/data/parquet/fragment_loading/builder.py:SafeFragment.load", "src/fairseq2/data/parquet/fragment_loading/builder.py:ParquetFragmentLoader.apply", "src/fairseq2/data/parquet/fragment_loading/config.py:NamedColumns", "src/fairseq2/data/parquet/utils.py:add_fragments_trace", "src/fairseq2/data/parquet/utils.py:add_partitioning_values", "src/fairseq2/data/parquet/utils.py:rename_table_columns"]}
{"id": "C94", "title": "Filters of Arrow tables judge each row by itself, and layouts keep the data", "statement": "The filters by string length, by range and by length of lists keep exactly the rows whose values are all within the bounds, in order, whatever the other rows are; hence a table and its parts are filtered alike. Normalising the offsets of an array of lists changes no list; nesting and repeating arrays give the lists they promise.", "quantifier": "every table, column, bounds, and every slice of an array with any nulls", "why_tests_cant": "Nulls and empty lists meet three-valued logic and a shortcut over the whole table; whether a row stays must not depend on any of the unboundedly many other rows.", "anchors": ["src/fairseq2/data/parquet/arrow_transform.py:filter_strings_by_length", "src/fairseq2/data/parquet/arrow_transform.py:filter_list_by_range", "src/fairseq2/data/parquet/arrow_transform.py:filter_list_with_min_max_length", "src/fairseq2/data/parquet/arrow_transform.py:_fix_list_offset", "src/fairseq2/data/parquet/arrow_transform.py:simple_array_to_nested", "src/fairseq2/data/parquet/arrow_transform.py:repeat_list_column"]}
{"id": "C95", "title": "Every parameter is trained in exactly one group, the first that selects it", "statement": "The groups passed to an optimizer hold every parameter of the model exactly once, in the first configured group that selects its name, with that group's settings, and in a last group with the default settings if none does. There is one group per configuration, so that lists of learning rates with one value per configured group are accepted, and a parameter's name selects that parameter.", "quantifier": "every model's parameter names, all lists of groups and patterns, every list of values", "why_tests_cant": "Patterns and names are unbounded and overlap; which group a parameter gets depends on all earlier groups.", "anchors": ["src/fairseq2/recipe/optim.py:prepare_parameter_groups", "src/fairseq2/recipe/optim.py:maybe_raise_param_group_length_error", "src/fairseq2/recipe/internal/lr_schedulers.py:_MyleLRFactory.create"]}
{"id": "C96", "title": "Gemma3n layers that share keys and values use those of the last layer of their type, and decoding step by step sees what a whole pass sees", "statement": "The layers configured to share keys and values attend to those of the last earlier layer of their own type, local or global, that projects its own, for every number of layers and shared layers; the embedding of a layer is added to all versions of the hidden state but the active one; an element sees the same keys in a local layer whether it is decoded alone or in a pass over the whole sequence.", "quantifier": "every number of layers and shared layers, every active version, every window, length and position", "why_tests_cant": "Configurations are unbounded in depth, and the window matters only for sequences longer than any short test.", "anchors": ["src/fairseq2/models/gemma3n/config.py:is_global_layer", "src/fairseq2/models/gemma3n/config.py:get_kv_projection_role", "src/fairseq2/models/gemma3n/decoder.py:Gemma3nDecoder.forward", "src/fairseq2/models/gemma3n/decoder_layer.py:Gemma3nDecoderLayer.forward", "src/fairseq2/models/gemma3n/factory.py:create_gemma3n_decoder_layer", "src/fairseq2/models/transformer/attention_bias.py:maybe_get_attention_bias_tensor"]}
{"id": "C97", "title": "Training begins with the intended parameters on every rank", "statement": "When the first step begins, every rank holds the parameters of the last complete checkpoint if there is one, else those of the pretrained model that is named, else those that rank 0 has drawn, whatever the kind of data parallelism, the shape of the gangs, the family's support for meta initialisation and the checkpoints that are there. A reference model, and a model that is created or loaded for all ranks, is equal on all ranks. The wrapper's reshard_after_forward means the same with both versions of FSDP.", "quantifier": "every model section, family, kind of data parallelism, shape of the gangs, list of checkpoints and rank", "why_tests_cant": "The combinations of section, family, parallelism and checkpoints are many, they need several processes, and a wrong shard raises no error.", "anchors": ["src/fairseq2/models/family.py:StandardModelFamily.create_new_model", "src/fairseq2/models/family.py:StandardModelFamily.load_model", "src/fairseq2/recipe/internal/train_model.py:_StandardTrainModelBootstrapper.bootstrap", "src/fairseq2/recipe/internal/data_parallel.py:_FSDPModelWrapper.wrap", "src/fairseq2/nn/ddp.py:to_ddp", "src/fairseq2/nn/fsdp/unified.py:to_fsdp", "src/fairseq2/nn/fsdp/fsdp1.py:to_fsdp1", "src/fairseq2/nn/fsdp/fsdp2.py:to_fsdp2", "src/fairseq2/recipe/internal/reference_model.py:_LastReferenceModelPreparer.prepare"]}
{"id": "C98", "title": "The quantizer of speech replaces vectors by the entries it scores best, and w2v-BERT predicts these entries from its last layers", "statement": "Each vector is replaced by the entries with the best scores, one of each codebook, in order, also in training, where the scores have noise; w2v-BERT's targets are the numbers of these entries, of as many codebooks as configured. The sampling temperature falls with the number of updates from the maximum to the minimum and never rises. What w2v-BERT contrasts is the output of the layers before those configured for masked prediction, and its prediction is from the output of all layers.", "quantifier": "every number of codebooks, entries and layers, all scores, noise and entries, every history of passes", "why_tests_cant": "Scores and noise are arbitrary, the flat layout of codebooks matters for every size, and the temperature depends on the whole history.", "anchors": ["src/fairseq2/models/wav2vec2/vector_quantizer.py:GumbelWav2Vec2VectorQuantizer", "src/fairseq2/models/w2vbert/model.py:W2VBertModel.forward", "src/fairseq2/models/w2vbert/model.py:W2VBertModel._get_target_indices", "src/fairseq2/models/transformer/encoder.py:StandardTransformerEncoder.forward"]}
{"id": "C99", "title": "The names of saved checkpoints lead to the right steps and describe their models", "statement": "Given a directory of checkpoints, every saved step can be loaded by its own name, the name of the last checkpoint leads to the step with the largest number, the name of the best to the one with the best score, the later one if several share it, and the numbered best names to all steps with scores in that order; steps without a score are not among them, and a score that is not a number is an error. The names describe the model with the configuration it was trained with.", "quantifier": "every content and order of the directory, all scores, every history of runs and saves in the directory", "why_tests_cant": "Directories are listed in any order, contain anything and grow over many runs.", "anchors": ["src/fairseq2/checkpoint/model_metadata.py:StandardModelMetadataDumper", "src/fairseq2/checkpoint/model_metadata.py:StandardModelMetadataLoader", "src/fairseq2/recipe/internal/train_model.py:_TrainModelMetadataSaver"]}
{"id": "C100", "title": "Every process finds the documented default device, and processes of a host find different GPUs", "statement": "The default device is that of FAIRSEQ2_DEVICE if set; otherwise, with CUDA, the single device of CUDA_VISIBLE_DEVICES if it names one, or the device at the index LOCAL_RANK; otherwise the CPU. A variable that is not a device or not a rank, and a rank that exceeds the number of devices, is an error. A CUDA device that is detected exists, and processes with different local ranks on a host never use the same GPU.", "quantifier": "all values of the environment variables, every number and naming of devices, all pairs of local ranks", "why_tests_cant": "The environment combines three variables of any value with any host, and that no two processes share a GPU is a property of all pairs of them.", "anchors": ["src/fairseq2/device.py:detect_default_device", "src/fairseq2/device.py:_DefaultDeviceDetector", "src/fairseq2/utils/env.py:get_local_rank"]}
