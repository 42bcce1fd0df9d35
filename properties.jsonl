{"id": "C01", "title": "split_list partitions the list", "statement": "For num_parts >= 1, the parts split_list(a, 1..num_parts, num_parts), taken in order, concatenate to exactly a: every position is returned by exactly one part, order is kept, the returned index array locates the returned elements, and any two parts differ in length by at most one.", "quantifier": "every list a (any length, duplicates allowed), every num_parts >= 1, every part index 1..num_parts", "why_tests_cant": "a job array processes each part on a different machine; one lost or repeated element for one (length, num_parts) pair is silent, and the pairs are unbounded", "anchors": ["hyperion/utils/list_utils.py:split_list"]}
{"id": "C02", "title": "split_list_group_by_key never splits a key and loses nothing", "statement": "For num_parts >= 1 the index sets returned for parts 1..num_parts are pairwise disjoint and cover every position; two positions with the same key are always returned by the same part; each part lists its keys in increasing order and, inside a key, positions in increasing order.", "quantifier": "every non-empty list, every key list of the same length, every num_parts >= 1", "why_tests_cant": "grouping is decided by floor arithmetic on the number of distinct keys, so every (multiplicity profile, num_parts) is a separate case", "anchors": ["hyperion/utils/list_utils.py:split_list_group_by_key"]}
{"id": "C03", "title": "ismember / intersect answer membership exactly", "statement": "ismember(a,b) returns true at position i iff a[i] occurs in b, and then the location is the lowest index of a[i] in b; intersect(a,b) returns the strictly increasing list of the common values together with, for each, its lowest index in a and in b.", "quantifier": "every pair of lists", "why_tests_cant": "all list filters, merges and score alignments are built on it; a wrong location mis-attributes a score without any error", "anchors": ["hyperion/utils/list_utils.py:ismember", "hyperion/utils/list_utils.py:intersect"]}
{"id": "C04", "title": "Part boundaries computed in floating point are the integer ones", "statement": "The boundary floor(idx*n/num_parts) that split_list evaluates in binary64 equals the exact integer quotient whenever idx*n + num_parts <= 2^53, so the partition property C01 holds for the float code and not only for an idealised integer version.", "quantifier": "all n, idx, num_parts with idx*n + num_parts <= 2^53", "why_tests_cant": "a rounding that crosses an integer would lose or repeat one item for one specific triple of numbers; no sampling covers 2^53 of them", "anchors": ["hyperion/utils/list_utils.py:split_list", "hyperion/utils/list_utils.py:split_list_group_by_key"]}
{"id": "C05", "title": "Script-list operations never mix rows", "statement": "After any sequence of sort, shuffle, filter, filter_paths, filter_index, split and merge on script lists, each row (key, path, offset, range) of the result is a row of one of the inputs, whole: a key is never paired with the path, offset or range of another row. sort and shuffle return a permutation of the rows, sort orders them by key.", "quantifier": "every history of operations on lists of any length, every permutation the random generator may produce", "why_tests_cant": "the four columns are stored as four arrays indexed separately; a single missed re-indexing pairs a key with the features of another recording", "anchors": ["hyperion/utils/scp_list.py:SCPList.sort", "hyperion/utils/scp_list.py:SCPList.shuffle", "hyperion/utils/scp_list.py:SCPList.filter", "hyperion/utils/scp_list.py:SCPList.filter_paths", "hyperion/utils/scp_list.py:SCPList.filter_index", "hyperion/utils/scp_list.py:SCPList.split", "hyperion/utils/scp_list.py:SCPList.merge"]}
{"id": "C06", "title": "Lookup by key is never stale", "statement": "Whatever sequence of lookups, membership tests, sorts, shuffles and path-prefix additions was performed before, scp[key], scp.get_index(key) and key in scp answer from the current contents of the list (for a repeated key, its last row), and raise/return false exactly for absent keys.", "quantifier": "every interleaving of queries and updates, every list", "why_tests_cant": "the key->position dictionary is cached lazily; a stale cache shows only for particular orders of calls", "anchors": ["hyperion/utils/scp_list.py:SCPList.get_index", "hyperion/utils/scp_list.py:SCPList.__contains__", "hyperion/utils/scp_list.py:SCPList.__getitem__", "hyperion/utils/scp_list.py:SCPList._create_dict"]}
{"id": "C07", "title": "Script files round-trip through disk", "statement": "Loading the file written by save gives back the same list: same keys, paths, offsets and row ranges, for keys without the separator, paths without separator, \"[\" or the offset separator and without trailing white space, and ranges not all equal to (0,0).", "quantifier": "every such list, of any length, with any non-negative offsets and ranges", "why_tests_cant": "the format is ad-hoc text with four optional fields; each combination of field values is a different parse", "anchors": ["hyperion/utils/scp_list.py:SCPList.save", "hyperion/utils/scp_list.py:SCPList.load", "hyperion/utils/scp_list.py:SCPList.parse_script"]}
{"id": "C08", "title": "filter keeps exactly the requested keys", "statement": "filter(keys) returns, in the original order, exactly the rows whose key is in keys, and fails iff some requested key is absent; filter(keys, keep=False) returns exactly the rows whose key is not in keys and never fails; the two results together are a permutation of the list. The same holds for filter_paths with paths, and for filter_index with positions.", "quantifier": "every list, every requested key list (duplicates allowed)", "why_tests_cant": "the negative form is computed by set difference followed by a membership assertion; which rows survive depends on duplicates and order", "anchors": ["hyperion/utils/scp_list.py:SCPList.filter", "hyperion/utils/scp_list.py:SCPList.filter_paths", "hyperion/utils/scp_list.py:SCPList.filter_index"]}
{"id": "C09", "title": "Splitting a script list and merging the parts back loses nothing", "statement": "Merging the parts 1..num_parts obtained by split (with or without grouping by key) gives a list with exactly the original rows; without grouping it is the original list, with grouping it is the original list stably sorted by key.", "quantifier": "every list whose optional columns are present or absent, every num_parts >= 1", "why_tests_cant": "parallel jobs split by part index and merge later; the number of (list, num_parts) combinations is unbounded", "anchors": ["hyperion/utils/scp_list.py:SCPList.split", "hyperion/utils/scp_list.py:SCPList.merge"]}
{"id": "C10", "title": "Write specifiers parse as documented", "statement": "WSpecifier.create maps each documented form (plain path, h5:, ark:, scp:, h5,scp:, scp,h5:, ark,scp:, scp,ark:, with options b,t,f,nf,p) to the documented output type, archive path, script path, text/binary and flush flags, independently of the order of the two output kinds; any other string is rejected with an error.", "quantifier": "every string", "why_tests_cant": "the parser is a small hand-written language; only a proof quantifies over all strings and all option orders", "anchors": ["hyperion/io/rw_specifiers.py:WSpecifier.create"]}
{"id": "C11", "title": "Read specifiers parse as documented", "statement": "RSpecifier.create maps every documented form to the documented input type, path, permissive flag; modifiers may appear in any order; unknown modifiers and contradictory types are rejected.", "quantifier": "every string", "why_tests_cant": "same as C10; in addition the class documents Kaldi modifiers (o, no, s, ns, cs, ncs, b, t, p, np, bg)", "anchors": ["hyperion/io/rw_specifiers.py:RSpecifier.create"]}
{"id": "C12", "title": "Kaldi tokens and 32-bit integers round-trip", "statement": "Reading the bytes produced by write_token / write_int32 returns the same token / integer and leaves the stream positioned on the first byte after them, whatever follows.", "quantifier": "every token without white space, every integer in [-2^31, 2^31), every continuation of the stream", "why_tests_cant": "these are the framing primitives of every archive: an error of one byte desynchronises all later records", "anchors": ["hyperion/utils/kaldi_io_funcs.py:write_token", "hyperion/utils/kaldi_io_funcs.py:read_token", "hyperion/utils/kaldi_io_funcs.py:write_int32", "hyperion/utils/kaldi_io_funcs.py:read_int32"]}
{"id": "C13", "title": "peek does not depend on buffering", "statement": "peek(binary, f, n) returns the next n bytes of the stream (or what is left of it) and does not move the read position, however the underlying buffered file happens to split its buffer.", "quantifier": "every stream content, every n, every buffer state of the underlying file", "why_tests_cant": "whether the buffer holds enough bytes depends on the position modulo the buffer size, so failures are position dependent", "anchors": ["hyperion/utils/kaldi_io_funcs.py:peek"]}
{"id": "C14", "title": "Binary matrices and vectors round-trip", "statement": "Reading what write produced for a float/double matrix or vector returns the same shape, type and elements bit for bit, and leaves the stream on the byte after the record.", "quantifier": "every matrix of every size including zero rows or columns (dimensions < 2^31), every stream continuation", "why_tests_cant": "all sizes, both element types, and record sequences of any length", "anchors": ["hyperion/utils/kaldi_matrix.py:KaldiMatrix.write", "hyperion/utils/kaldi_matrix.py:KaldiMatrix.read"]}
{"id": "C15", "title": "Reading a row range equals slicing the full matrix", "statement": "read(..., row_offset=r, num_rows=n) of a stored matrix returns rows r..r+n-1 (rows r.. if n = 0) of what read() returns; in sequential mode the stream is left at the end of the record, whatever the range.", "quantifier": "every stored matrix (uncompressed and the three compressed formats), every valid row_offset and num_rows", "why_tests_cant": "the position arithmetic differs per format (row-major, column-major with headers); an off-by-one only shows for some shapes", "anchors": ["hyperion/utils/kaldi_matrix.py:KaldiMatrix.read", "hyperion/utils/kaldi_matrix.py:KaldiCompressedMatrix.read", "hyperion/utils/kaldi_matrix.py:KaldiCompressedMatrix._get_read_info"]}
{"id": "C16", "title": "Shape queries agree with reads", "statement": "read_shape returns exactly the shape of the matrix read would return at the same position, and in sequential mode leaves the stream at the same place.", "quantifier": "every stored matrix/vector of each format, binary", "why_tests_cant": "the batch generators trust the shape to choose row ranges", "anchors": ["hyperion/utils/kaldi_matrix.py:KaldiMatrix.read_shape", "hyperion/utils/kaldi_matrix.py:KaldiCompressedMatrix.read_shape"]}
{"id": "C17", "title": "Compressed matrices: bounded error and range", "statement": "Compressing a matrix with the 2-byte and 1-byte auto methods and expanding it gives, for every entry, a value within the matrix range and at most half a quantisation step (plus the documented 0.001 truncation slack) away from the original; the minimum maps to the minimum.", "quantifier": "every matrix of rational entries, every method", "why_tests_cant": "error bounds quantify over all real inputs", "anchors": ["hyperion/utils/kaldi_matrix.py:KaldiCompressedMatrix.compress", "hyperion/utils/kaldi_matrix.py:KaldiCompressedMatrix.to_ndarray"]}
{"id": "C18", "title": "Per-column headers are strictly increasing and fit 16 bits", "statement": "For the speech-feature method the four stored percentiles of each column are strictly increasing unsigned 16-bit numbers, for every matrix, so expansion never divides by zero or folds the order of values: expanding is monotone in the stored byte.", "quantifier": "every column of every matrix (any number of rows)", "why_tests_cant": "the header is patched by a chain of min/max; ties and saturation at 65535 are the corner cases", "anchors": ["hyperion/utils/kaldi_matrix.py:KaldiCompressedMatrix._compute_column_header", "hyperion/utils/kaldi_matrix.py:KaldiCompressedMatrix._char_to_float"]}
{"id": "C19", "title": "Archives: sequential read returns what was written", "statement": "Writing any sequence of (key, matrix) records to an ark file and reading it sequentially returns the same sequence, whatever the grouping of writes and the number of records requested per read call.", "quantifier": "every list of records, every batching of the reader", "why_tests_cant": "unbounded record counts and record boundaries", "anchors": ["hyperion/io/ark_data_writer.py:ArkDataWriter.write", "hyperion/io/ark_data_reader.py:SequentialArkFileDataReader.read"]}
{"id": "C20", "title": "Archives: random access through the script returns what was written", "statement": "After writing records with distinct keys to an ark with its scp, reading any list of keys in any order, through the scp, returns the matrices written under those keys; an absent key is an error, or an empty matrix in permissive mode.", "quantifier": "every list of records, every list of requested keys", "why_tests_cant": "the scp stores byte offsets; they must be right for every preceding record length", "anchors": ["hyperion/io/ark_data_writer.py:ArkDataWriter.write", "hyperion/io/ark_data_reader.py:RandomAccessArkDataReader.read"]}
{"id": "C21", "title": "Sequential script reader returns each listed record in list order", "statement": "Reading an scp sequentially returns, for every line in order, the matrix stored at that line's path and offset, for every order of lines and every mixture of archive files.", "quantifier": "every scp over every set of archives", "why_tests_cant": "the reader keeps one open file and decides when to seek; wrong decisions only show for particular line orders (e.g. offset 0 revisited)", "anchors": ["hyperion/io/ark_data_reader.py:SequentialArkScriptDataReader.read", "hyperion/io/ark_data_reader.py:SequentialArkDataReader._open_archive"]}
{"id": "C22", "title": "Row ranges in scripts compose with requested row ranges", "statement": "When a script line restricts a record to rows [a, a+b) and the caller asks for row_offset r and num_rows n of it, the rows returned are rows r..r+n-1 of the restricted record and never rows outside [a, a+b).", "quantifier": "every script range, every requested range", "why_tests_cant": "the combination has five cases over four numbers with 0 meaning \"to the end\"", "anchors": ["hyperion/io/data_reader.py:DataReader._combine_ranges", "hyperion/io/data_reader.py:DataReader._apply_range_to_shape"]}
{"id": "C23", "title": "HDF5 round trip and row ranges", "statement": "Datasets written by H5DataWriter are returned by the random-access and sequential H5 readers under their keys; a row range returns the corresponding slice; a part split visits each dataset in exactly one part.", "quantifier": "every set of keys and matrices, every range, every number of parts", "why_tests_cant": "all histories of writes and all ranges", "anchors": ["hyperion/io/h5_data_writer.py:H5DataWriter.write", "hyperion/io/h5_data_reader.py"]}
{"id": "C24", "title": "Trial lists: merge is set union", "statement": "Merging trial lists gives the sorted union of model and segment names, and a (model, segment) pair is a trial of the result iff it is a trial of one of the inputs; the result does not depend on the order of the inputs.", "quantifier": "every collection of trial lists with distinct names in each list", "why_tests_cant": "matrices are re-indexed through location tables; all overlaps of name sets must be right", "anchors": ["hyperion/utils/trial_ndx.py:TrialNdx.merge", "hyperion/utils/trial_key.py:TrialKey.merge"]}
{"id": "C25", "title": "Trial lists: filter and split select exactly the sub-matrix", "statement": "filter(models, segs) keeps, for the requested names in the requested order, exactly the trials of the original list (complement names when keep is false) and fails iff a requested name is missing; the parts of split cover every trial exactly once and merging them gives back the same trials.", "quantifier": "every trial list, requested names, numbers of model and segment parts", "why_tests_cant": "see C24", "anchors": ["hyperion/utils/trial_ndx.py:TrialNdx.filter", "hyperion/utils/trial_ndx.py:TrialNdx.split", "hyperion/utils/trial_key.py:TrialKey.filter", "hyperion/utils/trial_key.py:TrialKey.split", "hyperion/utils/trial_scores.py:TrialScores.filter", "hyperion/utils/trial_scores.py:TrialScores.split"]}
{"id": "C26", "title": "Sorting trials, keys and scores keeps every pair", "statement": "sort orders model and segment names increasingly and, for every pair of names, the mask / target label / score / condition attached to the pair is unchanged.", "quantifier": "every trial object with distinct names", "why_tests_cant": "each matrix must be permuted on both axes", "anchors": ["hyperion/utils/trial_ndx.py:TrialNdx.sort", "hyperion/utils/trial_key.py:TrialKey.sort", "hyperion/utils/trial_scores.py:TrialScores.sort"]}
{"id": "C27", "title": "Text trial files round-trip", "statement": "Saving trials or keys as text and loading them back preserves exactly the set of (model, segment[, target/nontarget]) trials; models and segments without any trial disappear and the rest are sorted.", "quantifier": "every trial list / key with names free of blanks", "why_tests_cant": "all masks of all sizes", "anchors": ["hyperion/utils/trial_ndx.py:TrialNdx.save_txt", "hyperion/utils/trial_ndx.py:TrialNdx.load_txt", "hyperion/utils/trial_key.py:TrialKey.save_txt", "hyperion/utils/trial_key.py:TrialKey.load_txt"]}
{"id": "C28", "title": "Keys stored as HDF5 keep target and non-target labels", "statement": "The signed trial mask saved in HDF5 decodes to the same target and non-target masks.", "quantifier": "every pair of target and non-target masks of the same shape", "why_tests_cant": "two boolean matrices are packed in one signed matrix; overlap is the corner case", "anchors": ["hyperion/utils/trial_key.py:TrialKey.save_h5", "hyperion/utils/trial_key.py:TrialKey.load_h5", "hyperion/utils/trial_key.py:TrialKey.validate"]}
{"id": "C29", "title": "Score merge and alignment keep each trial's score", "statement": "Merging score matrices with disjoint trials gives every trial the score it had in its input; aligning scores with a trial list gives, for each listed trial, the score the system produced for that pair, marks exactly the listed-and-present trials, and fails on missing ones when asked to.", "quantifier": "every collection of score matrices, every trial list", "why_tests_cant": "a mis-indexed or contaminated score changes error rates silently", "anchors": ["hyperion/utils/trial_scores.py:TrialScores.merge", "hyperion/utils/trial_scores.py:TrialScores.align_with_ndx", "hyperion/utils/trial_scores.py:TrialScores.set_missing_to_value"]}
{"id": "C30", "title": "Target / non-target extraction is exact", "statement": "get_tar_non returns exactly the multiset of scores of target trials and of non-target trials of the key, no more and no less.", "quantifier": "every score matrix and key with the same name lists", "why_tests_cant": "all masks", "anchors": ["hyperion/utils/trial_scores.py:TrialScores.get_tar_non"]}
{"id": "C31", "title": "Cross-validation folds partition the data", "statement": "FoldList.create assigns every segment to exactly one fold in 0..num_folds-1; segments of the same group and class are in the same fold; with enough groups no fold is empty; the fold sizes in groups differ by at most one inside each balance class; get_fold returns disjoint train and test parts that cover everything.", "quantifier": "every segment list, every grouping and balancing labels, every shuffle outcome, every num_folds >= 1", "why_tests_cant": "leakage of a speaker from train to test is exactly the event tests on toy lists miss", "anchors": ["hyperion/utils/fold_list.py:FoldList.create", "hyperion/utils/fold_list.py:FoldList.get_fold_idx"]}
{"id": "C32", "title": "Train/val/eval lists partition the data", "statement": "TrainValEvalList.create assigns every segment to exactly one part, groups inside a class stay together, and get_part_idx masks of the parts are disjoint and cover the list.", "quantifier": "every list, grouping, proportion vector and shuffle outcome", "why_tests_cant": "see C31", "anchors": ["hyperion/utils/train_val_eval_list.py:TrainValEvalList.create", "hyperion/utils/train_val_eval_list.py:TrainValEvalList.get_part_idx"]}
{"id": "C33", "title": "Segment to frame masks", "statement": "to_bin_vad marks a frame iff it lies in one of the segments of the file (both end frames included, clipped to the recording), regardless of the order or overlap of the segments.", "quantifier": "every segment list and number of frames", "why_tests_cant": "all overlaps and clippings", "anchors": ["hyperion/utils/segment_list.py:SegmentList.to_bin_vad"]}
{"id": "C34", "title": "Merging adjacent segments keeps the labelled time", "statement": "RTTM.merge_adjacent_segments replaces every maximal run of rows that continue each other (same file, type and name, start not after the end of the previous row plus the margin) by one row from the start of the first to the end of the last; without nested segments no labelled time is lost, and with a margin of at most 0 none is added. ExtSegmentList.merge_adjacent_segments cuts the list, in order, into the longest possible groups of at most max_segments neighbours with the same file and name, gives every segment the joined ids of its group as extended id, and keeps the name of every segment when the joined ids are distinct.", "quantifier": "every segment list, every max_segments, every gap threshold", "why_tests_cant": "loops over runs of equal labels with look-back", "anchors": ["hyperion/utils/ext_segment_list.py:ExtSegmentList.merge_adjacent_segments", "hyperion/utils/rttm.py:RTTM.merge_adjacent_segments"]}
{"id": "C35", "title": "RTTM overlap elimination produces non-overlapping segments", "statement": "eliminate_overlaps divides each overlapping pair of consecutive segments of the same file and type at the middle of the overlap, changes no other boundary and no label, and afterwards no two consecutive segments of the same file and type overlap.", "quantifier": "every RTTM ordered by onset", "why_tests_cant": "all overlap patterns including nesting and chains", "anchors": ["hyperion/utils/rttm.py:RTTM.eliminate_overlaps"]}
{"id": "C36", "title": "Isotonic regression (PAV) is correct", "statement": "pavx returns a non-decreasing vector that is constant on blocks, each block value is the mean of the inputs of the block, block widths sum to the length, and the vector minimises the squared error among all non-decreasing vectors.", "quantifier": "every input vector", "why_tests_cant": "optimality quantifies over all competitor vectors", "anchors": ["hyperion/metrics/utils.py:pavx"]}
{"id": "C37", "title": "Detection costs count errors as thresholding would", "statement": "The ROC points of compute_roc start at (0,1), end at (1,0), are monotone, contain the (miss, false alarm) pair of every threshold and, when no score is repeated, only such pairs (with ties between a target and a non-target some points belong to no threshold). compute_min_dcf returns the smallest cost over all thresholds and an operating point that has it. compute_act_dcf with strictly increasing priors counts exactly the targets below the log-odds threshold as misses and the non-targets at or above it as false alarms, i.e. the Bayes decisions (with a repeated prior, which its order check accepts, the counts are wrong). fast_eval_dcf_eer agrees with the separate functions; effective_prior yields the prior of the equivalent unit-cost problem.", "quantifier": "every pair of non-empty score vectors, every increasing prior list in (0,1), both values of normalize", "why_tests_cant": "the implementation counts by ranks in a joint sort and minimises over a hull; agreement with thresholding is for all thresholds", "anchors": ["hyperion/metrics/roc.py:compute_roc", "hyperion/metrics/dcf.py:compute_act_dcf", "hyperion/metrics/dcf.py:compute_min_dcf", "hyperion/metrics/dcf.py:fast_eval_dcf_eer", "hyperion/metrics/utils.py:effective_prior"]}
{"id": "C38", "title": "ROC convex hull, EER and break-even point", "statement": "compute_rocch returns a strictly convex polyline from (0,1) to (1,0), monotone in both coordinates, every vertex is the operating point of a threshold and no operating point lies below the line of an edge; compute_eer is the unique point of that polyline with equal rates, between 0 and 0.5, and no threshold has both rates below it; compute_prbep is the analogous number of errors. Empty score lists are errors. filter_roc and compute_area_under_rocch never return a value.", "quantifier": "every pair of non-empty score vectors, every threshold", "why_tests_cant": "convexity and dominance quantify over all thresholds", "anchors": ["hyperion/metrics/roc.py:compute_rocch", "hyperion/metrics/roc.py:rocch2eer", "hyperion/metrics/eer.py:compute_eer", "hyperion/metrics/eer.py:compute_prbep", "hyperion/metrics/roc.py:filter_roc", "hyperion/metrics/roc.py:compute_area_under_rocch"]}
{"id": "C39", "title": "Epoch metric averages", "statement": "After any sequence of batch updates following a reset, the reported value of each metric equals the sum of value*samples divided by the total number of samples.", "quantifier": "every history of updates and resets", "why_tests_cant": "the code uses a recursive formula; equivalence must hold for every history", "anchors": ["hyperion/torch/utils/metric_acc.py:MetricAcc"]}
{"id": "C40", "title": "Reduce-on-plateau state machine", "statement": "With warmup_steps > 0, for every sequence of metric values the learning rate never increases after warm-up, never goes below its minimum, is reduced exactly when more than `patience` consecutive non-improving epochs have been observed outside the cool-down, and each reduction multiplies it by the factor (or clamps at the minimum); factor >= 1 is rejected. With warmup_steps = 0 the first batch raises ZeroDivisionError.", "quantifier": "every history of validation metrics, patience, cooldown, mode and threshold mode", "why_tests_cant": "the behaviour depends on the entire history", "anchors": ["hyperion/torch/lr_schedulers/red_lr_on_plateau.py:ReduceLROnPlateau"]}
{"id": "C41", "title": "Warm-up and scheduled learning rates stay in range", "statement": "With warmup_steps > 0, right after batch k of the warm-up the rate of every group is on the line from its minimum to its initial value; for exponential and cosine schedules it stays in [min, initial] at every step (for cosine with restarts: when gamma^k*initial >= min), follows the documented formula at every epoch, restarts at epochs 1 + T + T*m + ..., and is non-increasing within a period (cosine: from epoch 1). The default warmup_steps = 0 fails on the first batch, cosine epoch 0 gets a smaller rate than epoch 1, and AdamCosineLR cannot be constructed.", "quantifier": "every step number, history of epochs and batches, and parameter setting", "why_tests_cant": "all steps, all settings, restarts", "anchors": ["hyperion/torch/lr_schedulers/lr_scheduler.py:LRScheduler", "hyperion/torch/lr_schedulers/exp_lr.py:ExponentialLR", "hyperion/torch/lr_schedulers/cos_lr.py:CosineLR", "hyperion/torch/lr_schedulers/factory.py:LRSchedulerFactory"]}
{"id": "C42", "title": "Training resumes from the last completed epoch after a crash", "statement": "If training is interrupted at any points outside the writing of a checkpoint file, any number of times, and restarted with load_last_checkpoint, the state restored is exactly the state at the end of the last completed epoch, training continues with the following epoch, no epoch is skipped or lost, and the final model, optimizer, loss and scheduler equal those of an uninterrupted run. A kill during the write of a checkpoint makes every later restart fail, and checkpoints of an older experiment with higher epoch numbers are taken for the last epoch.", "quantifier": "every crash point in every epoch, any number of crashes and restarts, any epoch function", "why_tests_cant": "crash points are unbounded; tests never kill the process at each instruction", "anchors": ["hyperion/torch/torch_trainer.py:TorchTrainer.fit", "hyperion/torch/torch_trainer.py:TorchTrainer.load_last_checkpoint", "hyperion/torch/torch_trainer.py:TorchTrainer.save_checkpoint"]}
{"id": "C43", "title": "Agglomerative clustering flat cuts are partitions", "statement": "For every merge table, a flat cut with k clusters (1<=k<=items) labels every item with one of exactly k used labels, two items share a label exactly when one of the first n-k merges puts them under one node, and the cut with fewer clusters is coarser; asking for more clusters than items gives singletons, for none an IndexError. A threshold cut joins exactly the merges that pass the threshold when the heights are monotone (it does not otherwise). Fitting log-likelihood ratios gives linkage non-negative distances in the reverse order of the scores.", "quantifier": "every merge history, every k, every threshold", "why_tests_cant": "all merge trees", "anchors": ["hyperion/clustering/ahc.py:AHC"]}
{"id": "C44", "title": "Batch generation stays inside the recordings and goes through them in order", "statement": "With limits in order and no pruning (or pruning in the settings that refresh the lengths), the V1 batch generator never fails; every sub-sequence it reads lies inside its recording with a length between the limits (or the whole recording if shorter, random method); the recordings are visited in turn, an epoch has the announced number of batches and then the list is reshuffled as a permutation. With the sequential method the sub-sequences of a recording follow each other without gaps from row 0, a recording is read at most as often as planned, and with constant-length sub-sequences a pass covers the whole recording.", "quantifier": "every list of recordings and lengths, min/max lengths, overlap, batch size, number of batches and epochs, every random generator", "why_tests_cant": "all random draws, all lengths and all histories", "anchors": ["hyperion/generators/sequence_batch_generator_v1.py SequenceBatchGeneratorV1"]}
{"id": "C45", "title": "Class splitting respects its limits", "statement": "VectorClassReader: pruning keeps, in order, exactly min(n, max) rows of every class with at least the minimum and none of the others (first/last modes keep the documented end); sequential splitting replaces each class above the maximum by overlapping windows of its rows that cover it, each at most the maximum, numbered in order; random splitting draws sub-classes of exactly the maximum of distinct rows of one class, provided the buffer it allocates is large enough (it is for one class, not in general: overflow ValueError, or a class silently lost); class ids are equal exactly for rows of one class and are the ranks of the class names.", "quantifier": "every utterance-to-class list, every setting, every random draw", "why_tests_cant": "all class size profiles and draws", "anchors": ["hyperion/helpers/vector_class_reader.py:VectorClassReader._filter_by_spc", "hyperion/helpers/vector_class_reader.py:VectorClassReader._split_classes", "hyperion/helpers/vector_class_reader.py:VectorClassReader.read"]}
{"id": "C46", "title": "Short-time mean/variance normalisation: the three implementations agree with the definition", "statement": "MeanVarianceNorm.normalize (cumulative sums), normalize_conv and normalize_slow return at every frame the globally normalised value minus the mean of the frames that exist between i-left and i+right, divided by their standard deviation floored at sqrt(1e-5); without contexts the output has zero mean and unit variance; offsets and positive scalings of the features do not change the output.", "quantifier": "every signal, left and right context (present or absent), norm_mean/norm_var", "why_tests_cant": "boundary windows for all lengths", "anchors": ["hyperion/feats/feature_normalization.py:MeanVarianceNorm.normalize_cumsum", "hyperion/feats/feature_normalization.py:MeanVarianceNorm.normalize_conv", "hyperion/feats/feature_normalization.py:MeanVarianceNorm.normalize_slow"]}
{"id": "C47", "title": "Vectorised symmetric and triangular matrices round-trip", "statement": "vec2symmat(symmat2vec(A)) = A for symmetric A and vec2trimat(trimat2vec(A)) = A for triangular A; the vector has d(d+1)/2 entries.", "quantifier": "every dimension and matrix", "why_tests_cant": "all dimensions", "anchors": ["hyperion/utils/math.py:symmat2vec", "hyperion/utils/math.py:vec2symmat", "hyperion/utils/math.py:trimat2vec", "hyperion/utils/math.py:vec2trimat"]}
{"id": "C48", "title": "Padding to 3-D keeps every frame", "statement": "to3D_by_seq places frame t of sequence i at (i,t) with weight 1 and zeros with weight 0 elsewhere, a sequence longer than the given maximum is a ValueError; to3D_by_class gathers exactly the vectors of each non-negative class in order (vectors with negative class ids are dropped).", "quantifier": "every list of sequences, every max length", "why_tests_cant": "all lengths", "anchors": ["hyperion/utils/tensors.py:to3D_by_seq", "hyperion/utils/tensors.py:to3D_by_class"]}
{"id": "C49", "title": "Concurrent consumers of a shared iterator see each item once", "statement": "For every thread schedule, the items obtained by the threads pulling from a ThreadSafeIter are exactly the items of the underlying iterator, each delivered once.", "quantifier": "every number of threads and every interleaving", "why_tests_cant": "schedules are unbounded", "anchors": ["hyperion/utils/multithreading.py:ThreadSafeIter"]}
{"id": "C50", "title": "Score normalisation: values and invariances", "statement": "Z-norm, T-norm and S-norm give each score (x - mean)/max(floor, deviation) with the mean and deviation of exactly the cohort scores the mask keeps (not a number iff it keeps none), S-norm being (z+t)/sqrt 2; positive affine changes of scores and cohort above the floor, cohort order, and exchanging enrolment with test do not change the result; the normalised cohort has mean 0 and deviation 1. Adaptive S-norm uses the nbest best-scoring cohort members after the discarded ones, and equals S-norm when that is the whole cohort. Masked entries of the cohort arrays passed in are overwritten with 0 and nothing else.", "quantifier": "every score matrix, cohort, mask, floor, nbest, discard", "why_tests_cant": "algebraic law over all matrices", "anchors": ["hyperion/score_norm/s_norm.py", "hyperion/score_norm/t_norm.py", "hyperion/score_norm/z_norm.py", "hyperion/score_norm/adapt_s_norm.py"]}
{"id": "C51", "title": "Compressed matrices survive the HDF5 attribute encoding", "statement": "For every well-formed compressed matrix, the coded values and attributes that get_data_attrs returns rebuild, through build_from_data_attrs, the identical compressed matrix; and restricting the coded values to a row range before rebuilding gives the matrix whose decoded rows are that row range of the full decoding.", "quantifier": "every well-formed compressed matrix (all three formats) and every row range", "why_tests_cant": "unbounded sizes, all byte contents", "anchors": ["hyperion/utils/kaldi_matrix.py:KaldiCompressedMatrix.get_data_attrs", "hyperion/utils/kaldi_matrix.py:KaldiCompressedMatrix.build_from_data_attrs", "hyperion/io/h5_data_reader.py:_read_h5_data"]}
{"id": "C52", "title": "Transforming scores touches exactly the valid trials", "statement": "transform(f) replaces the scores of the valid trials, in order, by f of their vector, leaves every other cell, the names and the mask unchanged, and refuses a vector of another length.", "quantifier": "every score object and function", "why_tests_cant": "all masks and sizes", "anchors": ["hyperion/utils/trial_scores.py:TrialScores.transform"]}
{"id": "C53", "title": "Selecting, splitting and merging segment lists", "statement": "filter(keys) keeps exactly the segments of the listed keys (or exactly the others with keep=False) and reports an unknown key; split by file puts every segment in exactly one part and never divides a file; merge concatenates; indexing by file returns the segments of that file.", "quantifier": "every segment list, key list and number of parts", "why_tests_cant": "the result depends on key multiplicities and on whether a file has one or several segments", "anchors": ["hyperion/utils/segment_list.py:SegmentList"]}
{"id": "C54", "title": "Speaker names of segments and conversion of RTTM to segment lists", "statement": "get_files_seg_names returns for each segment the distinct names of the labelled rows of its file that contain its start or its end, equal to the simple (slow) version; to_segment_list yields one segment per row with the same file and times.", "quantifier": "every RTTM and segment list", "why_tests_cant": "the fast version caches the rows of the previous file, so the answer depends on the order of the segments", "anchors": ["hyperion/utils/rttm.py:RTTM.get_segment_names_from_timestamps", "hyperion/utils/rttm.py:RTTM.to_segment_list"]}
{"id": "C55", "title": "Score to log-likelihood-ratio mapping preserves the ranking", "statement": "opt_loglr with the default method returns one finite log-likelihood ratio for each score and a larger score always gets a strictly larger one; with method raw values can be infinite but the order never contradicts that of the scores.", "quantifier": "every pair of non-empty score vectors, with or without ties", "why_tests_cant": "the order statement is about all pairs after isotonic regression and un-sorting", "anchors": ["hyperion/metrics/utils.py:opt_loglr"]}
{"id": "C56", "title": "Cllr", "statement": "compute_cllr is positive and equals the Cllr of Brummer and du Preez for the NEGATED non-target scores: lowering a non-target score, which improves the detector and the true Cllr, makes the returned value worse.", "quantifier": "every pair of score vectors", "why_tests_cant": "a monotonicity statement over all real scores", "anchors": ["hyperion/metrics/cllr.py:compute_cllr", "hyperion/utils/math.py:neglogsigmoid"]}
{"id": "C57", "title": "Training log of epochs", "statement": "An uninterrupted training leaves in train.log one row per epoch, in order. After a restart with load_last_checkpoint the log holds only the epochs run by the last process (the rows of the earlier epochs are lost), and building the trainer with cur_epoch > 0 to append makes fit raise AttributeError.", "quantifier": "every history of interrupted trainings", "why_tests_cant": "the loss depends on the history of restarts", "anchors": ["hyperion/torch/torch_trainer.py:TorchTrainer._default_loggers", "hyperion/torch/loggers/csv_logger.py:CSVLogger"]}
{"id": "C58", "title": "One-hot encoding", "statement": "int2onehot of a list of class ids has one row per id whose only 1 is at the id; without num_classes the number of columns is the largest id + 1; ids outside the range are an IndexError.", "quantifier": "every list of ids, every number of classes", "why_tests_cant": "all lists", "anchors": ["hyperion/utils/math.py:int2onehot"]}
{"id": "C59", "title": "Generator queue: nothing lost or duplicated, bounded size", "statement": "With GeneratorQueue threads over a thread-safe generator, under every schedule each produced item is in exactly one of: received by the consumer, in the queue, held by a worker; the queue never holds more than max_queue_size + workers - 1 items (and can); with one worker the consumer receives the items in order. A finite generator stops the queue with items undelivered.", "quantifier": "every number of workers, queue size, item list and interleaving", "why_tests_cant": "schedules are unbounded", "anchors": ["hyperion/utils/queues.py:GeneratorQueue"]}
{"id": "C60", "title": "Utt2Info tables: look-up, selection, splitting", "statement": "After any sequence of look-ups, sorts and shuffles get_index returns the position of the last row of a key (KeyError iff absent); t[key] is the info of a key that occurs once; filter keeps exactly the rows of the given keys in the order asked, or removes exactly those (result sorted by key); filter_info keeps or removes exactly the rows with the given info values, order kept; filter_index removes exactly the given positions; split gives parts that together are the table, sizes within 1, and with grouping no info value is in two parts.", "quantifier": "every table, every request, every history", "why_tests_cant": "all histories and sizes", "anchors": ["hyperion/utils/utt2info.py:Utt2Info"]}
{"id": "C61", "title": "Class balancing of the batch generator", "statement": "With class_weight='balanced', a class with fewer than m = ceil(largest class / max_class_imbalance) recordings gets exactly m rows, its recordings repeated equally often up to one; the other classes are unchanged, no recording is lost, and no class ends more than max_class_imbalance times larger than another.", "quantifier": "every list of recordings and classes, every integer imbalance >= 1", "why_tests_cant": "all class distributions", "anchors": ["hyperion/generators/sequence_batch_generator_v1.py _balance_class_weight, _balance_class_weight_helper"]}
{"id": "C62", "title": "K-means: assignments, losses, stopping", "statement": "KMeans.predict gives every row its closest centroid (first in a tie) and the squared distance. fit returns for any data with a row and any positive number of clusters; the returned assignment belongs to the returned centroids, the losses are average squared errors that never increase (even if clusters become empty), and fit stops before the last epoch only at the first relative improvement below rtol. Every centroid is the mean of a group of rows or the origin. Clusters may be left empty and seeds repeat although there are enough different points; a zero loss disables the stopping test.", "quantifier": "every data set, dimension, number of clusters, tolerance and number of epochs", "why_tests_cant": "the descent must hold at every iteration for all data", "anchors": ["hyperion/clustering/kmeans.py:KMeans.fit", "hyperion/clustering/kmeans.py:KMeans.predict", "hyperion/clustering/kmeans.py:KMeans._choose_seeds"]}
{"id": "C63", "title": "Softmax, log-sum-exp and sigmoids", "statement": "softmax of a non-empty vector is exp(r_i)/sum exp(r_j): positive, sums to 1, unchanged by adding a constant, keeps the order. logsumexp is at least the true value and at most 1e-20 above, and moves with an added constant. sigmoid and logsigmoid differ from the true functions by at most exp(-100) (not at all from -100 on); sigmoid is monotone with values in [0,1).", "quantifier": "every vector of reals", "why_tests_cant": "all real inputs", "anchors": ["hyperion/utils/math.py:softmax", "hyperion/utils/math.py:logsumexp", "hyperion/utils/math.py:logsigmoid", "hyperion/utils/math.py:sigmoid"]}
{"id": "C64", "title": "Confusion matrices count every sample once, in the row of its true label and the column of its predicted label", "statement": "With given distinct labels, entry (i, j) of the confusion matrix is the total weight of the samples whose true label is the i-th and whose predicted label is the j-th label. Without labels, the labels are all those occurring in either list, and the entries add up to the total weight. Normalising divides each row by its sum (rows sum to one; rows without samples become nan). The cross-label variant (training labels differ from test labels) has a row per test label and a column per training label with the same meaning, for labels 0, 1, 2, ...; not for other integers, not for strings, and it changes the arrays passed by the caller.", "quantifier": "all label lists (any length, repeated samples), label sets, weights", "why_tests_cant": "Quantifies over every pair of label lists and every label set.", "anchors": ["hyperion/metrics/confusion_matrix.py: compute_confusion_matrix, compute_xlabel_confusion_matrix"]}
{"id": "C65", "title": "Whitening gives the identity covariance; PCA keeps the most variance possible", "statement": "Fitting CentWhiten on data and transforming the same data gives zero mean and identity covariance in all dimensions (more samples than dimensions, positive definite covariance; otherwise LinAlgError); with given statistics C the matrix T satisfies T'CT = I with one column per positive eigenvalue. With too few samples T is merely orthogonal. PCA gives orthonormal directions, zero mean, a diagonal covariance with the largest eigenvalues in descending order, a first row without negative entries, and no other orthonormal projection to the same dimension keeps more variance; asking for too many dimensions is an AssertionError. A vector T never works.", "quantifier": "all data matrices of any size, every result of the eigen- and Cholesky solvers that meets their specification", "why_tests_cant": "The claim is about all real matrices and optimality over all projections.", "anchors": ["hyperion/transforms/cent_whiten.py: CentWhiten.fit, predict", "hyperion/transforms/pca.py: PCA.fit, predict", "hyperion/pdfs/core/normal.py: Normal.accum_suff_stats, Mstep, Sigma"]}
{"id": "C66", "title": "Discriminant analysis: scatter matrices and optimal projection", "statement": "SbSw.fit returns the mean of the class means, their covariance, and the average of the class covariances; with classes of equal size the two matrices add up to the total covariance. LDA fitted on data makes the average within-class covariance of the transformed data the identity and the class means centred and uncorrelated with descending variances, and no projection with identity within-class covariance spreads the class means more. NDA does the same with given scatter matrices. Asking for too many dimensions is an AssertionError.", "quantifier": "all data matrices and labelings, every solver result that meets the generalised eigenproblem specification", "why_tests_cant": "Optimality over all projections, all data.", "anchors": ["hyperion/transforms/sb_sw.py: SbSw.fit, normalize", "hyperion/transforms/lda.py: LDA.fit", "hyperion/transforms/nda.py: NDA.fit"]}
{"id": "C67", "title": "Projection, length and variance normalisation", "statement": "NAP with orthonormal directions removes exactly their span: the result is orthogonal to them, a second application changes nothing, vectors orthogonal to the directions are kept, and squared lengths split accordingly (fit always fails). Length normalisation multiplies each row by a non-negative factor (positive for non-zero rows), the squared length is at most the dimension. MVN with its own statistics gives zero mean and unit variance in every component that varies, and is invertible there.", "quantifier": "all data matrices", "why_tests_cant": "All real matrices.", "anchors": ["hyperion/transforms/nap.py: NAP", "hyperion/transforms/lnorm.py: LNorm.predict", "hyperion/transforms/mvn.py: MVN"]}
{"id": "C68", "title": "Saving and loading (lists of) transforms", "statement": "Saving a transform or a (nested) list of transforms succeeds exactly if no two stored parameter paths collide; loading a saved file gives back every class, every parameter (in saving precision) and the order of the list, so that applying the loaded list computes the same function with the rounded parameters. Not kept: update flags and, for members of a named list, the name, which gets the prefix once more at each load. An object with an unset parameter can be saved but not loaded.", "quantifier": "all transforms and nested lists of them, all names, all parameter values", "why_tests_cant": "nesting and names are unbounded; collisions depend on the whole set of names", "anchors": ["hyperion/hyp_model.py:save,save_params_from_dict,load_params_to_dict", "hyperion/transforms/transform_list.py:TransformList", "hyperion/transforms/cent_whiten.py:CentWhiten.load_params"]}
{"id": "C69", "title": "The Gaussianizer maps each value to the Normal quantile of its rank", "statement": "Training keeps per column a sorted sub-sample of min(n, max_vectors) values including the smallest and the largest; a value v is mapped to the Normal quantile of (k+1)/(m+2) with k the number of kept values of the column below v. The lookup never leaves the table, the probability is inside (0,1), the map is monotone and separates two values exactly if a kept value lies between them. With the default max_vectors=None training fails.", "quantifier": "all data matrices, all max_vectors >= 2, all values to transform", "why_tests_cant": "ranks and table sizes unbounded; off-by-one errors in the table only show at extreme values", "anchors": ["hyperion/transforms/gaussianizer.py:Gaussianizer.fit,predict"]}
{"id": "C70", "title": "NormalDiagCov: densities, statistics and maximum-likelihood training", "statement": "After any history of construction (from mean and precision or natural parameters), M-steps and property reads, log_prob (natural and standard form) is the log-density of the Normal distribution with the current mean and precision, and cached values are those of the current precision. Statistics do not depend on the batch size; elbo is the weighted sum of log-densities; fit gives the weighted mean and the floored weighted variance, and no parameters with variances not below the floor have a larger likelihood. With update_mu=False the variance is wrong.", "quantifier": "all dimensions, data, weights, batch sizes, floors and histories", "why_tests_cant": "optimality over all parameters and agreement of cached values over all histories cannot be tested", "anchors": ["hyperion/pdfs/core/exp_family.py:ExpFamily", "hyperion/pdfs/core/normal_diag_cov.py:NormalDiagCov"]}
{"id": "C71", "title": "GMMDiagCov: mixture densities, posteriors and EM training", "statement": "log_prob (both forms) is the log-density of the mixture (up to 1e-20) and compute_pz gives the posterior probabilities, positive and adding up to 1, after any history; the E-step statistics do not depend on the batch size; the M-step gives the posterior-weighted means, floored variances and weights; an iteration never decreases the log-likelihood of the data; the reported value is the log-likelihood minus the posterior entropies. Splitting preserves total weight and mean. The weights learned in training are never used by the object.", "quantifier": "all numbers of components, dimensions, data, sample weights, batch sizes and histories", "why_tests_cant": "monotonicity of EM and independence from batching hold over all data sets; stale caches show only after particular histories", "anchors": ["hyperion/pdfs/mixtures/exp_family_mixture.py:ExpFamilyMixture", "hyperion/pdfs/mixtures/gmm_diag_cov.py:GMMDiagCov"]}
{"id": "C72", "title": "Segment and sliding-window statistics of a mixture are those of exactly the rows of the segment or window", "statement": "accum_suff_stats_segments gives for (start,end) the statistics of rows start..end inclusive; accum_suff_stats_segments_prob weighs every row by its probability, whatever the batch size, and agrees with hard segments for 0/1 probabilities; accum_suff_stats_sorttime gives for window i the statistics of rows [i*shift, i*shift+length), for all and only the windows that fit. It raises when exactly one window fits, and the batched form raises whenever rows remain after the last shift.", "quantifier": "all data, weights, segment lists, frame lengths and shifts, batch sizes", "why_tests_cant": "index arithmetic of strided cumulative sums must be right for all lengths and shifts", "anchors": ["hyperion/pdfs/mixtures/exp_family_mixture.py:accum_suff_stats_segments,accum_suff_stats_segments_prob,accum_suff_stats_sorttime"]}
{"id": "C73", "title": "Linear algebra helpers: Cholesky, log-determinant, inverses and covariance flooring", "statement": "logdet_pdmat and invert_pdmat succeed exactly on positive definite symmetric matrices (LinAlgError otherwise); the log-determinant returned is ln det A, the returned functions multiply by the inverse from the requested side, the returned inverse is the inverse and the Cholesky factor is the unique upper triangular R with positive diagonal and R'R = A. invert_trimat does the same for lower/upper triangular matrices and raises if a diagonal element is zero. fullcov_varfloor returns a covariance that is in no direction below the floor or below S, equals S when S is nowhere below the floor, and along each generalised eigenvector raises the variance ratio to 1 exactly when it was below; fullcov_varfloor_from_cholS returns the Cholesky factor (upper or lower as asked) of that matrix.", "quantifier": "all dimensions, all symmetric / triangular / positive semidefinite matrices, all floors given as matrix, factor or scalar, all call flags", "why_tests_cant": "Positive definiteness and the matrix inequalities range over all vectors and all matrices of every size; tests sample a few matrices.", "anchors": ["hyperion/utils/math.py:logdet_pdmat", "hyperion/utils/math.py:invert_pdmat", "hyperion/utils/math.py:invert_trimat", "hyperion/utils/math.py:fullcov_varfloor", "hyperion/utils/math.py:fullcov_varfloor_from_cholS"]}
{"id": "C74", "title": "Full-rank PLDA statistics and scores", "statement": "compute_stats_soft/hard return for each class the weighted count, the weighted sum and the pooled second moment of its observations; center_stats gives the statistics of the centred observations. llr_1vs1 returns for every pair the log likelihood ratio of \"same class\" against \"different classes\" under the model x = y + noise; the matrix is transposed when the sides are swapped. llr_NvsM_book returns that ratio for sets of observations, with any class sizes; by-the-book scoring of singletons is llr_1vs1; vavg scores the (optionally length normalised) averages and savg averages the scores.", "quantifier": "all dimensions, all positive definite B and W, all means, all observations, weights and class assignments", "why_tests_cant": "The ratio is an identity between integrals over a continuous variable that must hold for all parameters; tests compare a few numbers with stored ones.", "anchors": ["hyperion/pdfs/plda/plda_base.py:compute_stats_soft", "hyperion/pdfs/plda/plda_base.py:compute_stats_hard", "hyperion/pdfs/plda/plda_base.py:center_stats", "hyperion/pdfs/plda/frplda.py:llr_1vs1", "hyperion/pdfs/plda/frplda.py:llr_NvsM_book", "hyperion/pdfs/plda/plda_base.py:llr_NvsM_savg", "hyperion/pdfs/plda/plda_base.py:llr_NvsM_vavg"]}
{"id": "C75", "title": "Full-rank PLDA training: exact posteriors, tight ELBO, monotone EM where W is fixed", "statement": "compute_py_g_x returns the exact posterior mean and covariance of each class variable and its log density at zero, whether it loops over distinct integer counts or over classes. The ELBO of Estep equals the log evidence of the training data. With update_W=False, and the mean updated whenever B is, every M step succeeds, keeps the model valid and does not decrease the log evidence, so the ELBOs reported by fit are nondecreasing. With the default configuration, or with B updated and the mean fixed, the ELBO can decrease (counterexamples).", "quantifier": "all data, class sizes, dimensions, models and numbers of epochs", "why_tests_cant": "Monotonicity is an inequality over all data sets and parameters; a run on one data set proves nothing about another.", "anchors": ["hyperion/pdfs/plda/frplda.py:compute_py_g_x", "hyperion/pdfs/plda/frplda.py:Estep", "hyperion/pdfs/plda/frplda.py:elbo", "hyperion/pdfs/plda/frplda.py:MstepML", "hyperion/pdfs/plda/plda_base.py:fit"]}
{"id": "C76", "title": "Simplified PLDA: scores, posteriors, ELBO, EM, sampling", "statement": "llr_1vs1 returns for every pair of vectors the log likelihood ratio of \"same class\" against \"different classes\" under x = mu + yV + noise with precision W. When the mean is zero or every class has weight one, compute_py_g_x returns the exact posterior of each class variable, the ELBO equals the log evidence, one epoch (ML and minimum divergence steps, any update_* flags for which the steps are consistent) does not decrease the log evidence, so the ELBOs reported by fit are nondecreasing; with W fixed, training cannot fail. Samples drawn given y are Gaussian with mean mu + yV and precision W. For classes of several vectors and a nonzero mean, the posterior returned is wrong (counterexample).", "quantifier": "all data, class sizes, dimensions, ranks, models, numbers of epochs", "why_tests_cant": "Identities and inequalities over all parameters and data; a test only compares a few numbers.", "anchors": ["hyperion/pdfs/plda/splda.py:compute_py_g_x", "hyperion/pdfs/plda/splda.py:Estep", "hyperion/pdfs/plda/splda.py:elbo", "hyperion/pdfs/plda/splda.py:MstepML", "hyperion/pdfs/plda/splda.py:MstepMD", "hyperion/pdfs/plda/splda.py:llr_1vs1", "hyperion/pdfs/plda/splda.py:sample", "hyperion/pdfs/plda/plda_base.py:fit"]}
{"id": "C77", "title": "PLDA with a channel factor: the auxiliary matrices integrate it out", "statement": "For every model with positive D, llr_1vs1, compute_py_g_x and elbo give the likelihood ratios, posteriors (mean zero or class weights one) and log evidence under the model in which the channel variable z is integrated out; log_probx_g_yz and log_probx_g_y are the conditional log densities. sample does not draw from the model (counterexample).", "quantifier": "all dimensions, ranks, models, data", "why_tests_cant": "Matrix identities (Woodbury, Sylvester) and integrals for all parameters.", "anchors": ["hyperion/pdfs/plda/plda.py:compute_aux", "hyperion/pdfs/plda/plda.py:compute_py_g_x", "hyperion/pdfs/plda/plda.py:elbo", "hyperion/pdfs/plda/plda.py:llr_1vs1", "hyperion/pdfs/plda/plda.py:log_probx_g_yz", "hyperion/pdfs/plda/plda.py:log_probx_g_y", "hyperion/pdfs/plda/plda.py:sample"]}
{"id": "C78", "title": "Full-rank PLDA: initialisation, model averaging, sampling", "statement": "initialize sets the mean to the mean of the class averages, B to the inverse of the covariance of the class averages and W to the inverse of the covariance of the observations around the average of their class, and fails with LinAlgError exactly if one of the two covariances is not positive definite. weighted_avg_model with weights in [0,1] never fails on valid models, gives a valid model, and averages the means and the covariances (not the precisions). sample draws class variables with mean mu and precision B and, given them, vectors with precision W.", "quantifier": "all dimensions, data, class sizes, models and weights", "why_tests_cant": "Matrix identities for all data and models; positive definiteness of every convex combination.", "anchors": ["hyperion/pdfs/plda/frplda.py:initialize", "hyperion/pdfs/plda/frplda.py:weighted_avg_params", "hyperion/pdfs/plda/frplda.py:weighted_avg_model", "hyperion/pdfs/plda/frplda.py:sample"]}
{"id": "C79", "title": "Short-time transforms: framing, energies, inverse", "statement": "stft/strft/st_logE produce frame i exactly for those i with i*shift + length <= number of samples and raise ValueError if the signal is shorter than length - shift; frame i is the transform of the (windowed) samples i*shift .. i*shift+length-1; the log energy is that of these samples. istft of the stft gives back every sample at which the overlapped squared windows do not add up to zero, and zero there: with no window and shift <= length it is the signal cut to whole frames, with a window starting at 0 the first sample is lost.", "quantifier": "all signals, frame lengths, shifts, windows and invertible transforms", "why_tests_cant": "Quantifies over all signals and windows; overlap-add is a sum over a data-dependent number of frames.", "anchors": ["hyperion/feats/stft.py:stft", "hyperion/feats/stft.py:strft", "hyperion/feats/stft.py:istft", "hyperion/feats/stft.py:istrft", "hyperion/feats/stft.py:st_logE"]}
{"id": "C80", "title": "Energy VAD, waveform filters and frame selection", "statement": "The DC removal and pre-emphasis filters with carried state give the same output on a stream cut in any way; they satisfy their recurrences; a constant offset decays by 0.999 per sample. With snip_edges False the number of frames is the number of samples over the shift, rounded, and the waveform is mirrored at both edges. With no frame context a frame is speech iff its log energy exceeds threshold + scale*mean, for every frame; if threshold < (1-scale)*mean some frame is speech. FrameSelector keeps exactly the frames whose decision is true, cutting the longer of the two to the shorter if they differ by at most the tolerance, else raises. Refuted: any context raises NameError; the decisions on a waveform depend on the previous call when the DC filter is on; integer decisions index instead of selecting; filter_args drops all arguments.", "quantifier": "all waveforms, configurations, cuts of the stream, decision vectors", "why_tests_cant": "Quantifies over all streams and all ways of cutting them; the wrong cases are silent.", "anchors": ["hyperion/feats/energy_vad.py:EnergyVAD", "hyperion/feats/frame_selector.py:FrameSelector", "hyperion/feats/mfcc.py:MFCC.compute"]}
{"id": "C81", "title": "Filter banks", "statement": "lin2mel and mel2lin are inverse of each other and increasing. mel_kaldi: weights in [0,1], filter k covers exactly the bins whose mel frequency is strictly between points k and k+2 of the points evenly spaced in mel, the weights of every bin between the first and last center add up to 1, bin 0 has weight 0. linear and mel_etsi: with cutoffs in [0, fs/2] and even transform length no index is out of range and every filter is a triangle with peak 1 over the bins nearest to the points. Normalised filters sum to 1. Refuted: negative high_freq is not an offset from Nyquist (all weights 0); the bin frequencies are j*fs/(N-1) instead of j*fs/N; an odd transform length raises IndexError; a narrow filter becomes nan with norm_filters.", "quantifier": "all numbers of filters, transform lengths, sampling and cutoff frequencies", "why_tests_cant": "Real-valued parameters; partition of unity at every bin of every bank.", "anchors": ["hyperion/feats/filter_banks.py:FilterBankFactory"]}
{"id": "C82", "title": "MFCC pipeline: formula, stages, flags, aliasing", "statement": "From the waveform, row i of the output is the floored energy of frame i followed by the liftered cepstra of the log filter-bank outputs of the (squared) magnitude spectrum of the windowed frame, for exactly the frames that fit. Stopping at the log filter bank (with use_energy) or at the magnitudes (filters without weight at bin 0, or no energy) and continuing from there is the same as the whole pipeline. A pair of input and output steps either always works or always raises UnboundLocalError, as tabulated. The flags return what the pipeline without energy would return at that step (output step after the magnitudes); the caller array is not modified unless both steps are FFT or both FFT_MAG. All windows are in [0,1] and symmetric. Refuted: continuing from FFT makes the energy its absolute value; continuing from LOG_SPEC adds 1e-10 to every magnitude; continuing from LOGFB without energy raises; with both steps FFT the caller array is overwritten, and so is the array return_fft gives back; two calls on one waveform without reset() differ.", "quantifier": "all waveforms, spectra, configurations, transforms, input and output steps, flags", "why_tests_cant": "Quantifies over all configurations and inputs; two-stage computation must agree on every array.", "anchors": ["hyperion/feats/mfcc.py:MFCC.compute", "hyperion/feats/mfcc.py:MFCC.make_lifter", "hyperion/feats/feature_windows.py:FeatureWindowFactory.create"]}
{"id": "C83", "title": "Gaussian back-end: scores are Gaussian log densities, posteriors are Bayes, training is optimal", "statement": "For every trained or constructed LinearGBE the llk scores are the Gaussian log densities of the classes, the linear scores have the same differences between classes, and the normalised scores of both kinds are the logs of the Bayes posteriors and sum to one. fit gives means and a precision matrix that maximise the (class-balanced, prior-penalised) log likelihood over everything it may update, keeps what it may not update, follows the closed MAP formulas, treats labels as indicators (IndexError for a label that is no class), never fails with a prior of positive weight, and without one fails exactly when some direction has no within-class spread. The predictive scores are the Student-t log densities only up to a class-dependent error.", "quantifier": "all data sets, weights, priors, configurations, dimensions, numbers of classes, histories of construction and training", "why_tests_cant": "Optimality ranges over all competing parameters; correctness of scores over all inputs and models.", "anchors": ["hyperion/classifiers/linear_gbe.py:LinearGBE.fit", "hyperion/classifiers/linear_gbe.py:LinearGBE.predict", "hyperion/classifiers/linear_gbe.py:LinearGBE.eval_predictive", "hyperion/utils/math.py:softmax", "hyperion/utils/math.py:int2onehot"]}
{"id": "C84", "title": "Q-scoring: scores are likelihood ratios of Gaussian posteriors, training multiplies posteriors", "statement": "The score of an observation (mean and variance) against a class is the log of the integral of the product of both posteriors over the prior (completing the square for every value of the hidden variable); normalised scores are class posteriors. fit gives each class the mean of the product of the posteriors of its observations (to the power of their weights) and, with balanced classes, the average of the class precisions as shared precision; with posteriors narrower than the prior everything stays defined. A prior weight cannot be used with a new object (TypeError) and without balancing the prior is dropped from the shared precision.", "quantifier": "all observations, weights, priors, dimensions and classes", "why_tests_cant": "Identities over all real inputs and all values of the hidden variable.", "anchors": ["hyperion/classifiers/q_scoring_homo_gbe.py:QScoringHomoGBE.predict", "hyperion/classifiers/q_scoring_homo_gbe.py:QScoringHomoGBE.fit", "hyperion/classifiers/q_scoring_homo_gbe.py:QScoringHomoGBE._load_prior"]}
{"id": "C85", "title": "Gaussian calibration gives log likelihood ratios and its training is maximum likelihood", "statement": "The calibrated score is the log ratio of the two class densities with shared variance, so with the prior log odds it gives the Bayes posterior of the target class. Training on labelled, weighted scores gives the class means, the pooled within-class variance and the share of the target class, which maximise the likelihood of scores and labels over all means, variances and priors. An untrained object raises. Two defects: unlabelled scores shrink the variance, and a stored calibration cannot be loaded.", "quantifier": "all scores, labels, weights, parameters and competing parameters", "why_tests_cant": "Optimality over all real parameters; identity for all scores.", "anchors": ["hyperion/calibration/gauss_calibration.py:GaussCalibration.fit", "hyperion/calibration/gauss_calibration.py:GaussCalibration.predict", "hyperion/calibration/gauss_calibration.py:GaussCalibration.load_params"]}
{"id": "C86", "title": "Logistic regression wrapper: prior-weighted training, scores are likelihood ratios", "statement": "Training passes the data of the caller to the optimiser with weights that give every class its prior as total weight, equally over its samples, times the weights of the caller. With unit bias scaling the default scores of the binary classifier are the posterior log odds of the trained model less the prior log odds, post and log-post are its posterior and its logarithm; the multinomial classifier with a list of priors gives the decision function less the log priors and the softmax posteriors. Stored classifiers score as the original. Defects are stated for other bias scalings, the regularisation of the binary class, missing or dictionary priors, one-against-rest training with priors, and the posteriors of two-class models.", "quantifier": "all data, labels, weights, priors, optimiser results and test points", "why_tests_cant": "Must hold for every solution the optimiser may return and all inputs.", "anchors": ["hyperion/classifiers/logistic_regression.py:LogisticRegression.fit", "hyperion/classifiers/logistic_regression.py:LogisticRegression.predict", "hyperion/classifiers/binary_logistic_regression.py:BinaryLogisticRegression.predict", "hyperion/classifiers/binary_logistic_regression.py:BinaryLogisticRegression.__init__"]}
{"id": "C87", "title": "Temporal pooling gives the statistics of the kept frames only", "statement": "Weighted pooling over time gives the weighted mean, sum, standard deviation and log variance of the frames; frames of weight zero (padding) and the order of frames do not matter; without any weight the result is undefined. Masked max pooling gives the largest kept value in Theano; in TensorFlow any masked frame raises the result to at least 0. Pooling of frame posteriors gives the product of the frame likelihoods with a standard normal prior, in each input and output format, and the prior for no frames. Dictionary pooling (LDE) gives, per component, the mean deviation weighted by responsibilities that are positive and sum to one.", "quantifier": "all sequences, weights, masks, formats, component parameters", "why_tests_cant": "Must hold for every sequence length, padding and order.", "anchors": ["hyperion/keras/layers/pooling.py:GlobalWeightedAveragePooling1D", "hyperion/keras/layers/pooling.py:GlobalWeightedMeanStdPooling1D", "hyperion/keras/layers/pooling.py:GlobalMaskedMaxPooling1D", "hyperion/keras/layers/pooling.py:GlobalNormalDiagCovPostStdPriorPooling1D", "hyperion/keras/layers/pooling.py:LDE1D"]}
{"id": "C88", "title": "Probabilistic Keras layers and losses compute the divergences, likelihoods and samples they name", "statement": "The KL layers give the divergence between the normal distributions described by the parameters in any format, scaled as documented and floored at min_kl; with beta 1 it is zero exactly for equal distributions. The normal loss is the negative log likelihood; categorical losses are the log loss and the error probability of the true class. Samplers draw from the described normal, with the announced shape and order for the plain sampler. Format conversion keeps the distribution. The Q-score of a class is the log normaliser of the product of class and input posteriors over the prior. Defects are stated for the Bernoulli loss, the KL layer with two distributions and the tied sampler shape.", "quantifier": "all parameters, formats, noise values, targets and sequence lengths", "why_tests_cant": "Real-valued identities over all parameters.", "anchors": ["hyperion/keras/layers/losses.py:KLDivNormalVsStdNormal", "hyperion/keras/layers/losses.py:KLDivNormalVsDiagNormal", "hyperion/keras/losses.py:nllk_bernoulli", "hyperion/keras/layers/sampling.py:NormalDiagCovSampler", "hyperion/keras/layers/sampling.py:TiedNormalDiagCovSampler", "hyperion/keras/layers/scoring.py:CatQScoringDiagNormalHomoPostStdPrior"]}
{"id": "C89", "title": "Embeddings of long sequences extracted in chunks are those of the whole sequence", "statement": "predict_embed evaluates the encoder on overlapping chunks. With no left context and an encoder whose outputs depend on their own block of frames and at most right_context frames after it, the pooled frames are exactly those of the whole sequence between the begin and end contexts, for every sequence length, chunk length and downsampling, so the embedding does not depend on the chunking. In general every pooled frame is an output of the encoder at a stated position. Defects: with a left context all chunks but the first are shifted by it; sequences shorter than the end context keep masked frames; the uncertainty variant skips short sequences.", "quantifier": "all sequences, chunk lengths, contexts, downsampling factors, encoders and pooling networks", "why_tests_cant": "Chunk boundaries for every length and context; any network.", "anchors": ["hyperion/keras/embed/seq_embed.py:SeqEmbed.predict_embed", "hyperion/keras/embed/seq_embed_lde.py:SeqEmbedLDE.predict_embed", "hyperion/keras/embed/seq_q_embed.py:SeqQEmbed.predict_embed"]}
{"id": "C90", "title": "Trial scores belong to the vectors of their model and segment", "statement": "Evaluating a trial list with the one-against-one scripts gives, for every model of the list and every test segment, the score of the vector enrolled under that model name and of the vector of that segment, after the same preprocessing, whatever the order of the enrolment list; it succeeds when each model has exactly one enrolment and the vectors agree in dimension. Segmenting the test side gives exactly the trials (model, extended segment) whose file was to be tested. The cosine score is the dimension times the cosine up to the regularisation of the lengths. Evaluation in parts, against cohorts on the test side, with several enrolments, and tracking of a single file never succeed.", "quantifier": "all trial lists, enrolment lists, vectors, preprocessings, scorers and segmentations", "why_tests_cant": "Alignment of rows for arbitrary lists in any order; failures that hold for every input.", "anchors": ["hyperion/utils/trial_ndx.py:TrialNdx.parse_eval_set", "hyperion/utils/trial_ndx.py:TrialNdx.apply_segmentation_to_test", "hyperion/helpers/trial_data_reader.py:TrialDataReader", "hyperion/helpers/tracking_data_reader.py:TrackingDataReader", "hyperion/io/data_reader.py:_squeeze", "hyperion/bin/eval-cos-1vs1.py", "hyperion/bin/eval-plda-1vs1.py", "hyperion/bin/eval-plda-nvs1.py"]}
{"id": "C91", "title": "Conversion of scores to the evaluation table keeps every score", "statement": "The converter writes a header with the models and one line per requested test segment, in the requested order and with its full name, holding for every model the score of that model and segment, or -100 when there is none. With extensions but no test list it fails. The score normalization script never runs.", "quantifier": "all score objects, test lists, class lists and number formats", "why_tests_cant": "Reordering, missing segments and models for every list.", "anchors": ["hyperion/bin/scores2lre_format.py:convert", "hyperion/bin/eval-score-norm.py"]}
{"id": "C92", "title": "Audio readers deliver the samples of each file or segment once, in order and by name", "statement": "A segment of a recording with n samples and sampling frequency fs holds the scaled samples from floor(tbeg fs) up to min(n, floor(tend fs)), in order; a segment that starts after the end is refused. For every sequence of read sizes the sequential reader delivers each of its items once and in order, the iterator stops exactly after the last one, and reading by name gives the same data when names are distinct and refuses unknown names. The parts of a reader partition the files, or the segments when their names are distinct, with sizes that differ by at most one. Open-ended segments, .w64 files, segment objects, read(0) with segments and repeated segment names do not work as documented.", "quantifier": "all scripts, segment tables, recordings, read schedules and numbers of parts", "why_tests_cant": "Boundaries for arbitrary rational times and rates; every schedule of reads; every partition.", "anchors": ["hyperion/io/audio_reader.py:AudioReader", "hyperion/io/audio_reader.py:SequentialAudioReader", "hyperion/io/audio_reader.py:RandomAccessAudioReader"]}
{"id": "C93", "title": "Copying and merging archives keeps every record", "statement": "Copying features writes to the output exactly the records of the inputs, one input after the other, whatever the chunk size and whenever the readers notice their end: the archive is the one written in a single call. Splitting while merging is refused. Merging HDF5 files gives a file that holds exactly the datasets of all the files under their names in the saving precision, for every chunk size, and fails if two files share a name; without a chunk size an empty file stops it.", "quantifier": "all inputs, chunk sizes, writers and HDF5 files", "why_tests_cant": "Equality of archives for every chunking and every collision of names.", "anchors": ["hyperion/io/copy_feats.py:CopyFeats", "hyperion/io/h5_merger.py:H5Merger", "hyperion/io/hyp_data_writer.py:HypDataWriter"]}
{"id": "C94", "title": "A full-covariance Gaussian evaluates its density and fits by maximum likelihood", "statement": "log_prob, from natural or standard parameters, is the logarithm of the Gaussian density, and the two parametrisations convert into each other without loss; a precision that is not positive definite is refused. The accumulated statistics are the weighted sums of those of the samples and their elbo is the log-likelihood of the data. fit sets the weighted mean and the inverse of the weighted covariance, which no other mean and positive definite precision beat, and reports the log-likelihood at the result; singular data are refused. With a fixed mean the covariance is wrong, statistics are not whitened by norm_suff_stats, and saved objects cannot be loaded.", "quantifier": "all dimensions, samples, non-negative weights, means and positive definite precisions", "why_tests_cant": "Optimality ranges over all positive definite matrices; the identities over all real matrices.", "anchors": ["hyperion/pdfs/core/normal.py:Normal", "hyperion/pdfs/core/exp_family.py:ExpFamily"]}
{"id": "C95", "title": "A full-covariance mixture evaluates its density and its EM does not lose likelihood", "statement": "log_prob is the logarithm of the mixture density to within 1e-20, from natural and standard parameters alike, and the responsibilities are the posterior probabilities. Statistics of batches add up to those of the whole data. An iteration sets each mean to the posterior-weighted mean and each covariance to the posterior-weighted one floored by var_floor times their average, and does not decrease the log-likelihood if every covariance is above the floor after the estimation or was before; the floored covariance is the best one above the floor. The mixture weights are never re-estimated and get_config fails.", "quantifier": "all mixtures, data, non-negative weights and floors", "why_tests_cant": "Monotonicity of EM for every state and data set, over all matrices.", "anchors": ["hyperion/pdfs/mixtures/gmm.py:GMM", "hyperion/pdfs/mixtures/exp_family_mixture.py:ExpFamilyMixture"]}
{"id": "C96", "title": "Speech marks and frame decisions convert into each other", "statement": "Running all parts of segments-to-bin-vad writes one record per file with segments, and of rttm-to-bin-vad one per file of the table, each once; a record has the number of frames of the table and is 1 exactly in the frames of the segments of the file, or everywhere for a file without marks. h5vad2nist and arkvad2nist write consecutive intervals from 0 to the number of frames, speech and non-speech alternating, but every boundary one frame early. Without the table of numbers of frames nothing can be written.", "quantifier": "all segment lists, RTTM files, tables, frame shifts, numbers of parts and binary decision vectors", "why_tests_cant": "Holds for every list of marks and every split into parts.", "anchors": ["hyperion/bin/segments-to-bin-vad.py:segments_to_bin_vad", "hyperion/bin/rttm-to-bin-vad.py:rttm_to_bin_vad", "hyperion/bin/h5vad2nist.py:bin2intervals", "hyperion/bin/arkvad2nist.py:bin2intervals"]}
{"id": "C97", "title": "The class-balanced batch generator delivers valid, labelled, grouped batches", "statement": "Every batch has batch_size pieces of utterances of the list not shorter than prune_min_length; each piece lies inside its utterance and has a length between the given (or found) limits, capped by the utterance; its label is the one-hot of its class in the given order (or the sorted order); num_egs_per_utt consecutive pieces come from one utterance and num_egs_per_class consecutive utterances from one class. read returns even with classes without utterances if the random numbers reach every class. An epoch has the least number of batches that covers iters_per_epoch pieces per utterance, and step and epoch count the reads. But the second epoch repeats the first exactly, and return_utt1hot fails.", "quantifier": "all lists of utterances and classes, configurations, random generators and numbers of reads", "why_tests_cant": "Holds for every random sequence and every number of reads; termination of the rejection loop needs fairness.", "anchors": ["hyperion/generators/sequence_batch_generator_v2.py:SequenceBatchGeneratorV2"]}
{"id": "C98", "title": "Accuracy metrics are weighted fractions of right decisions, and fully connected networks compose their layers", "statement": "Categorical accuracy is the weighted fraction of samples whose predicted class is the target, between 0 and 1, 1 exactly when all samples of positive weight are right, and does not depend on the scale of the weights; 'sum' and 'none' are the weighted number and the flags. FCNetV1 and FFNetV1 compute normalisation, projection, activation and dropout of each layer in order, then the output layer, and give output_units numbers; inputs of another size raise. Activations are found by name. But binary accuracy fails with its default reduction, and several options of the networks always raise.", "quantifier": "all inputs, targets, weights, configurations and layer functions", "why_tests_cant": "Must hold for every batch, every weight vector and every depth.", "anchors": ["hyperion/torch/metrics/accuracy_functional.py", "hyperion/torch/archs/fcnet.py:FCNetV1", "hyperion/torch/archs/ffnet.py:FFNetV1", "hyperion/torch/archs/tdnn.py", "hyperion/torch/archs/etdnn.py", "hyperion/torch/helpers/activation_factory.py:ActivationFactory"]}
{"id": "C99", "title": "Evaluating a classifier gives each class its own output for each test segment", "statement": "For every class list, test list, vector file and classifier that works row by row, the scores written by the evaluation scripts attach to (class on line k, segment) the k-th output of the classifier for the (transformed) vector of that segment; all pairs are scored, and the file of score vectors, converted in any record order, gives the same scores. A classifier with another number of classes, a missing vector or a repeated name is rejected. If the class list numbers the classes by their lines, the output trained with the data of a class is its score; with other numbers the outputs go to the wrong classes. Evaluation in several parts always fails.", "quantifier": "all lists, files, transforms, classifiers and training lists", "why_tests_cant": "Must hold for every pair of lists and every permutation of the records.", "anchors": ["hyperion/helpers/classif_trial_data_reader.py:ClassifTrialDataReader", "hyperion/helpers/vector_reader.py:VectorReader", "hyperion/io/hyp_data_reader.py:HypDataReader.read", "hyperion/bin/eval-linear-gbe.py", "hyperion/bin/eval-logistic-regression.py", "hyperion/bin/eval-linear-svmc.py", "hyperion/bin/vectors2scores.py", "hyperion/bin/eval-2class-performance.py"]}
{"id": "C100", "title": "The sequence reader delivers planned pieces, each at most once in an epoch", "statement": "For every list of sequences and every configuration of SequenceReader: a read at the start or after the last batch begins a new epoch over a reordering of the sequences. Reading whole sequences, or one random piece per sequence, an epoch of num_batches reads succeeds and gives the long enough sequences in order (for whole sequences, unless one has exactly min_seq_length frames). In the other modes each batch has batch_size pieces, each piece is a planned one, inside its sequence, of between min_seq_length and max_seq_length frames, the pieces of a sequence come in order and none twice, and the planned pieces cover the sequence but for a short tail; if all sequences have the same number of pieces no read fails, otherwise one can. SequenceClassReader labels each piece with the one-hot row of the class of its file.", "quantifier": "all lists of sequences, configurations, shuffles and read histories", "why_tests_cant": "Epochs of any length over any list; failures depend on the distribution of lengths.", "anchors": ["hyperion/helpers/sequence_reader.py:SequenceReader", "hyperion/helpers/sequence_class_reader.py:SequenceClassReader"]}
{"id": "C101", "title": "The training log has one row per epoch, readable back, after every epoch", "statement": "For every separator other than the quote and line characters, every log path in a directory, every first epoch number and every sequence of epoch logs whose names include those of the first: after the calls of TorchTrainer.fit the log file, read with the csv module, is a header followed by one row per epoch so far, in order, with the epoch counted from 1 and the values under their names, whatever characters names and values contain; other files are untouched. This holds after every epoch, so a crash loses no finished epoch. An epoch lacking a name raises. Progress lines come at batches 0, i, 2i, ... with the right counts and remaining time; times below 31 days are shown exactly; a list of loggers behaves as each logger alone.", "quantifier": "all logs, paths, separators, epoch counts, batch sizes, intervals and times", "why_tests_cant": "Any number of epochs and any characters in names; a crash can come after any epoch.", "anchors": ["hyperion/torch/loggers/csv_logger.py:CSVLogger", "hyperion/torch/loggers/prog_logger.py:ProgLogger", "hyperion/torch/loggers/loggers.py:LoggerList", "hyperion/torch/torch_trainer.py:TorchTrainer.fit"]}
{"id": "C102", "title": "Every option given on the command line reaches the constructor", "statement": "For every configurable class of the list, every prefix, every set of other options in the script and every command line: after add_argparse_args, parse_args and filter_args, the constructor accepts the dictionary and receives exactly the options of its section, each under its parameter name with the value of its last occurrence on the command line, or its default (negated for no_norm_mean). A command line is refused exactly when it has an unknown option or a value its type refuses. Any number of classes with different plain prefixes share one parser without mixing. The options for which this fails are named.", "quantifier": "all classes with add_argparse_args/filter_args, prefixes, other sections of the parser, command lines", "why_tests_cant": "Arbitrary command lines and combinations of classes and prefixes in one script.", "anchors": ["hyperion/feats/energy_vad.py:EnergyVAD.filter_args", "hyperion/feats/feature_normalization.py:MeanVarianceNorm.filter_args", "hyperion/io/data_rw_factory.py:DataWriterFactory.filter_args", "hyperion/helpers/vector_class_reader.py:VectorClassReader.filter_args", "hyperion/torch/helpers/optimizer_factory.py:OptimizerFactory.filter_args", "hyperion/keras/helpers/optimizer_factory.py:OptimizerFactory.filter_args", "hyperion/transforms/cent_whiten.py:CentWhiten.add_argparse_args", "hyperion/utils/misc.py:str2bool"]}
{"id": "C103", "title": "Converting between archives, HDF5 files and scripts keeps every record", "statement": "CopyFeats, given any list of inputs (Kaldi archives, HDF5 files, scripts of either), any chunk size >= 0 and an output specifier, writes what one write call with all the records, in order, would write. Without compression the output, read again, delivers exactly the records of the inputs, each once: in order for an archive, by name for an HDF5 file. The scripts of parts 1..P hold together every line once, in order. Merging and splitting at once, splitting an archive file, a script-only output and two records of the same key into HDF5 are refused; a negative chunk size silently copies nothing.", "quantifier": "all inputs, formats, chunk sizes, parts and later reading patterns", "why_tests_cant": "Any mixture of formats, chunking and order of reads of files of any size.", "anchors": ["hyperion/io/copy_feats.py:CopyFeats.__init__", "hyperion/io/data_rw_factory.py:SequentialDataReaderFactory.create", "hyperion/io/data_rw_factory.py:DataWriterFactory.create", "hyperion/bin/copy-feats.py"]}
{"id": "C104", "title": "Keras checkpoint and learning-rate callbacks keep the right model and rate", "statement": "With the callbacks of create_callbacks, after any training the file model.best holds the model of the first epoch with the best value of the monitored metric (greater is better for names with acc or starting with fmeasure, less otherwise; missing and NaN values do not count) and no other file is written; with save_all_epochs each epoch has its own file with the model of that epoch. With a dictionary of steps the rate in an epoch is that of the last step since the run began. The list has early stopping, steps and reduction of the rate exactly when they are asked for. The requested monitor mode is not honoured, restarts forget the best value and earlier steps, steps and increase factors of the command line do not work", "quantifier": "all sequences of models and metric values (with NaN, infinities and missing entries), options and starting epochs", "why_tests_cant": "The file after a run depends on every metric value of an arbitrarily long history.", "anchors": ["hyperion/keras/callbacks/checkpointers.py:HypModelCheckpoint", "hyperion/keras/callbacks/lr_schedulers.py:LearningRateSteps", "hyperion/keras/helpers/callbacks_factory.py:CallbacksFactory.create_callbacks"]}
{"id": "C105", "title": "Product pooling layers give the posterior of all the frames", "statement": "For every sequence of frames with non-negative weights, the diagonal product pooling layers return the mean and log-variance of the normal distribution whose density is proportional to the prior times, for each frame to the power of its weight, its likelihood (StdPrior, ConstCov2, 3, 4) or its posterior over the prior (StdPrior2, CommonCov, ConstCov); the order of frames and frames of weight zero do not matter. CommonCov and ConstCov break when a variance is above one, StdPrior3 is not a posterior, and two-dimensional weights fail or mix dimensions in all layers but StdPrior", "quantifier": "all numbers of frames, weights, inputs and trained parameters", "why_tests_cant": "The result combines arbitrarily many real-valued frames.", "anchors": ["hyperion/keras/layers/pooling.py:GlobalProdRenormDiagNormalStdPrior", "hyperion/keras/layers/pooling.py:GlobalProdRenormDiagNormalStdPrior2", "hyperion/keras/layers/pooling.py:GlobalProdRenormDiagNormalConstCovStdPrior"]}
{"id": "C106", "title": "Full-covariance Gaussian objective, sampler and pooling agree on one distribution", "statement": "For every mean, log-variances and chol with ones in its diagonal (which the Triu constraint ensures), the objective normal is minus the log-density of the Gaussian with covariance chol^T diag(exp(logvar)) chol; the sampler with format logvar+chol draws from that Gaussian and the objective of a sample depends only on the drawn numbers; the full-covariance pooling layer never fails and returns the posterior of a standard normal prior given all the weighted frames; the KL objectives are cross-entropy minus entropy divided by beta, and non-negative for beta 1. The formats var+chol and std+chol draw from another distribution, and MultConstCovStdPrior returns a mean that does not match its covariance", "quantifier": "all dimensions, means, log-variances, chol matrices, frames and weights", "why_tests_cant": "Identities of real matrices of any size.", "anchors": ["hyperion/keras/objectives.py:normal", "hyperion/keras/objectives.py:kl_normal_vs_diag_normal", "hyperion/keras/layers/sampling.py:NormalSampler", "hyperion/keras/layers/pooling.py:GlobalProdRenormNormalConstCovStdPrior", "hyperion/keras/layers/cov.py:MultConstCovStdPrior", "hyperion/keras/constraints.py:Triu"]}
{"id": "C107", "title": "Tied-covariance mixtures: EM never lowers the likelihood and pools one variance", "statement": "For a GMMTiedDiagCov made by its constructors, getters and M-steps, log_prob (both methods) is the log-density of the mixture whose components share one diagonal precision, the responsibilities are the posterior probabilities, the M-step sets each mean to its posterior-weighted mean and the shared variance to the count-weighted average of the (floored) component variances, that choice maximises the expected log-likelihood over all means and shared variances when the floor is inactive, and the log-likelihood of the data does not decrease; splitting keeps the weights summing to one; initialize with clusters gives weights that add up to one and the average squared distance to the centres. Natural parameters with different precisions, counts below min_N, empty components and initialize with one component and data behave differently from what the API suggests", "quantifier": "all numbers of components, dimensions, data sets, sample weights, batch sizes and histories of updates", "why_tests_cant": "Inequalities over all real data and all parameters; EM monotonicity is a theorem of analysis.", "anchors": ["hyperion/pdfs/mixtures/gmm_tied_diag_cov.py:GMMTiedDiagCov", "hyperion/pdfs/mixtures/gmm_diag_cov.py:GMMDiagCov", "hyperion/pdfs/mixtures/exp_family_mixture.py:ExpFamilyMixture"]}
{"id": "C108", "title": "Written audio is what the script says, at every moment, and reads back", "statement": "After any sequence of write calls of AudioWriter, also when one fails half way, the script lists in order exactly the recordings that were completed and each line names a file that exists; the file of a key holds the last waveform written under a key with that file name, and nothing else on the disk changes; with distinct file names the script loads in the audio readers to the keys in order and each key reads back its samples (exactly for integer samples in PCM_16 and wav_scale 2**15) and its sampling frequency. Keys that differ only in / and - share a file; PCM_32, FLOAT and DOUBLE come back scaled; 8-bit and 24-bit subtypes always fail", "quantifier": "all directories, formats, keys, waveforms, frequencies and sequences of calls, and all points of failure", "why_tests_cant": "Quantifies over histories and points of failure and over all keys.", "anchors": ["hyperion/io/audio_writer.py:AudioWriter", "hyperion/io/audio_reader.py:AudioReader", "hyperion/io/audio_reader.py:RandomAccessAudioReader", "hyperion/utils/scp_list.py:SCPList.load"]}
{"id": "C109", "title": "Keras losses evaluated per sample and the evidence lower bound of the variational autoencoder", "statement": "Evaluating a loss in batches gives every sample exactly its own value, whatever the batch size. The total over several outputs is the sum of their losses with the weights given for them by name or position, and inconsistent dictionaries and lists are rejected. With weights per time step a sample gets the weighted mean over its steps. elbo returns for each sample the mean, over the evaluations and draws made for that sample, of the log density of the sample under the decoded Gaussian minus the divergence of the posterior from the standard normal, the divergence replaced by min_kl when it is smaller; the divergence is not negative and 0 only for the prior. Weights per sample have no effect; Bernoulli decoders give another number; the Gaussian decoder cannot give means and saved models cannot be loaded", "quantifier": "all networks, samples, draws, batch sizes and numbers of draws and evaluations", "why_tests_cant": "The batches and draws are combined by index arithmetic for arbitrary sizes.", "anchors": ["hyperion/keras/keras_utils.py:weighted_objective_per_sample,make_eval_function,make_batches,_eval_loop,eval_loss", "hyperion/keras/vae/vae.py:VAE.elbo,VAE._build_loss,VAE.decode_z,VAE.load"]}
{"id": "C110", "title": "Transforms with uncertainty propagation", "statement": "A row holds a mean and variances. With a square T, predict of CentWhitenUP centres the means and multiplies them by T, and turns the variances into the variances of the coordinates after T: they are the mean and the variances of the transformed sample, for every sample with that mean and that diagonal covariance. fit depends on the means only and whitens them. LNormUP scales the whitened mean by some s > 0 and the variances by s^2, and the squared length becomes |m|^2/(|m|^2+1e-10) < 1. Other shapes of T and odd widths are rejected, except a T with one column. The variances of the caller's array are overwritten, and LNorm gives a longer vector; LinearGBEUP always fails because it slices with the result of a true division", "quantifier": "all inputs, means, transforms and sizes", "why_tests_cant": "Exact identities over all matrices; aliasing with the argument is invisible to a test that looks at the result.", "anchors": ["hyperion/transforms/cent_whiten_up.py:CentWhitenUP.predict,CentWhitenUP.fit", "hyperion/transforms/lnorm_up.py:LNormUP.predict", "hyperion/classifiers/linear_gbe_up.py:LinearGBEUP.eval_linear,LinearGBEUP.fit"]}
{"id": "C111", "title": "The old Kaldi reader and the conversion of its lists to HDF5", "statement": "KaldiDataReader reads back every matrix and vector the current writer writes, from a file of its own or, given path:offset, from inside an archive, and text matrices in any layout whose last row carries the closing bracket. Reading a list in pieces of any sizes gives each key once, in order, with its matrix, and eof is true exactly at the end; reading by name does not move the cursor and unknown keys are rejected. ark2hyp writes one dataset per key, named key + field, whatever the chunk size. The offsets of scripts are dropped, so archives written by the library cannot be read through their scripts; reading the rest of a list leaves the cursor at the number of records read; ark2hyp loops forever with chunks of 0", "quantifier": "all matrices, files, lists, sequences of calls and chunk sizes", "why_tests_cant": "Call sequences and sizes are unbounded; the format must round-trip for every matrix.", "anchors": ["hyperion/io/kaldi_data_reader.py:KaldiDataReader", "hyperion/bin/ark2hyp.py:ark2hyp"]}
{"id": "C112", "title": "Sparse posteriors keep the largest components, renormalised", "statement": "to_sparse keeps exactly num different components of each frame, none smaller than a dropped one, whose posteriors are divided by their sum: they are non negative and sum to one. No other set of num components has a larger mass, and the kept mass is at least num/K of the whole. to_dense puts them back in their columns with zeros elsewhere; the result sums to one and is 2(1 - kept mass) away from the posteriors in total absolute difference, and nothing is lost with num = K. num = 0 or above K raises ValueError; a row of zeros gives nan", "quantifier": "all matrices of posteriors, numbers of components and orders argsort may choose among equal values", "why_tests_cant": "The dimension and the values are unbounded, and the optimality ranges over every subset of components.", "anchors": ["hyperion/bin/compute-gmm-post.py:to_sparse", "hyperion/bin/compute-gmm-post.py:to_dense"]}
{"id": "C113", "title": "The small Keras layers compute the functions they are named after", "statement": "DCT gives the first coefficients of the transform of its input for every size, direction and normalization; with the orthonormal one the inverse layer gives the input back, the transform of the inverse gives the coefficients back, and the energy is kept. Liftering with at most Q + 1 coefficients has weights between 1 and 1 + Q/2 and is undone by its inverse. NegSoftplus is the log of the sigmoid, Swish tends to the rectifier within 1/(e beta), the log layers undo the exponential. CreateMask gives 1 on the frames and 0 on the padding. ExpTaylor has coefficients 1/(1!2!...k!) instead of 1/k!, exceeds the exponential near 0 and is worse at order 2 than at order 1 on negative inputs; four layers cannot be used at all", "quantifier": "all inputs, sizes, orders, numbers of units and parameters", "why_tests_cant": "Orthogonality of the transform for every size and bounds over all reals cannot be settled by samples.", "anchors": ["hyperion/keras/layers/feats.py:DCT", "hyperion/keras/layers/feats.py:Liftering", "hyperion/keras/layers/feats.py:MelFB", "hyperion/keras/layers/core.py:ExpTaylor", "hyperion/keras/layers/core.py:Bias", "hyperion/keras/layers/core.py:NegSoftplus", "hyperion/keras/layers/advanced_activations.py:Swish", "hyperion/keras/layers/masking.py:CreateMask", "hyperion/keras/layers/tensor_manipulation.py:ExpandAndTile"]}
{"id": "C114", "title": "The linear support vector classifier evaluates what was trained", "statement": "With the default bias scaling the scores of LinearSVMC are the decision function of the trained machine, for every solver, data and weights. Saving and loading any number of times keeps every prediction if the scaling is one or the biases are zero; otherwise each save and load multiplies the bias by the scaling. bin-post is in (0,1) and its log odds are the score; cat-post is positive, sums to one, and does not change with a common shift of the scores; cat-logpost is its log. bin-logpost is minus the log of bin-post, and the cat-post of a two-class machine is 1 for every sample", "quantifier": "all solvers, data, weights, coefficients, numbers of saves and loads and evaluation types", "why_tests_cant": "The statement ranges over every trained machine, every score and any number of saves.", "anchors": ["hyperion/classifiers/linear_svmc.py:LinearSVMC"]}
{"id": "C115", "title": "A chain of training scripts leaves the whole preprocessing in the last file", "statement": "When the scripts that train transforms run one after the other with default options, each with the output of the one before as --preproc-file, the last file holds the list of all trained transforms in order; each was fitted to data that went through exactly the transforms before it as they are stored; loading the file and applying it is applying them in turn. The chain runs to the end whenever the fits succeed and the names are distinct, have no slash and are not \"config\". A run whose name and one of whose parameter names are already in the list fails; with --no-append-tlist the file holds the new transform alone; with --no-save-tlist it cannot be the preprocessing of another script; train-lda.py stops before doing anything", "quantifier": "all chains of runs of any length, all transforms, names, fits and data", "why_tests_cant": "Chains are unbounded, and every run reads what the one before wrote.", "anchors": ["hyperion/bin/train-mvn.py:train_mvn", "hyperion/bin/train-pca.py:train_pca", "hyperion/bin/train-nda.py:train_nda", "hyperion/bin/train-lda.py", "hyperion/bin/train-cw.py:train_cw", "hyperion/bin/train-cw-up.py:train_cw", "hyperion/bin/train-gaussianizer.py:train_gauss", "hyperion/transforms/transform_list.py:TransformList"]}
{"id": "C116", "title": "Trial scoring with a tied VAE is the likelihood ratio of its posteriors", "statement": "eval_llr_1vs1 with the method 'qscr' gives, for every pair of vectors, the log of the ratio between sharing the speaker variable or not: log q(y|x1) + log q(y|x2) is at every y the score plus log p(y) plus the log-density of the normalised product of the two posteriors over the prior. It does not depend on which side is enrollment; a vector whose posterior is the prior scores zero. 'cand' is Candidate's formula log q(0|x1) + log q(0|x2) - log q(0|x1,x2) - log p(0), and agrees with 'qscr' when the encoder pools by product. eval_llr_Nvs1 by 'vavg' scores the mean of the vectors of each class, and with one vector per class it is eval_llr_1vs1.", "quantifier": "all encoders, numbers and dimensions of vectors, posteriors whose product can be normalised, and speaker variables y", "why_tests_cant": "The identity is between functions on R^d, for every encoder.", "anchors": ["hyperion/keras/vae/tied_vae_qyqz.py:TiedVAE_qYqZ.eval_llr_1vs1", "hyperion/keras/vae/tied_vae_qyqz.py:TiedVAE_qYqZ.eval_llr_1vs1_qscr", "hyperion/keras/vae/tied_vae_qyqz.py:TiedVAE_qYqZ.eval_llr_1vs1_cand", "hyperion/keras/vae/tied_vae_qyqz.py:TiedVAE_qYqZ.eval_llr_Nvs1", "hyperion/keras/vae/tied_vae_qy.py:TiedVAE_qY"]}
{"id": "C117", "title": "A training epoch of the PLDA with a channel factor minimises the expected residuals", "statement": "With a mean of zero, the statistics of the E step are the expectations, under the posterior of the speaker factor given its class and of the channel factor given the speaker factor and the observation, of the statistics of the complete data. The maximum likelihood step leaves what is not to be updated as it was, gives a mean and factor matrices that, among all those the update flags allow, minimise every diagonal entry of the expected outer products of the residuals of the data, and new precisions whose inverses are the minimal mean squared residuals, floored. The minimum divergence step is a change of the factors that leaves the model of the data given them as it is, and after which the posterior of the speaker factor has, on the average over the classes, mean zero and covariance one, and that of the channel factor the same over the observations, uncorrelated with the speaker factor.", "quantifier": "all families of weighted observations, dimensions, parameters with positive precisions and update flags", "why_tests_cant": "The posteriors and the minimum range over all data and all competing parameters.", "anchors": ["hyperion/pdfs/plda/plda.py:PLDA.Estep", "hyperion/pdfs/plda/plda.py:PLDA.MstepML", "hyperion/pdfs/plda/plda.py:PLDA.MstepMD"]}
