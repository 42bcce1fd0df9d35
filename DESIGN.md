# Formal model of jsalt2019-diadet/hyperion in Rocq (Coq 8.16.1)

Nothing in /repo is run. The model is written by reading the source; every definition
cites the file and lines it models. All theorems are about the model.

## Layout

`rocq/theories/<Area>.v` holds only executable definitions (the model),
`<Area>Spec.v` (where needed) the independent specification vocabulary,
`<Area>Proofs.v` lemmas, `<Area>Props.v` only property theorems, each closed by
`exact lemma` with `Print Assumptions` below it and a non-vacuity `Example` beside it.

Conventions: exceptions are values (`Err e`); numpy arrays are lists; a numpy 2-D array
is a list of rows; random generators are oracles (a permutation / a drawn index passed as
an argument, so theorems quantify over every outcome); float data that is only copied is
an abstract type or raw bytes; float data that is compared or averaged is `Z`/`Q`/`R`
(exact arithmetic; rounding is not modelled, except in C04 where binary64 rounding is the
subject and Flocq is used).

## Plan per property

| id | model | proof |
|----|-------|-------|
| C01,C02,C03 | list_utils.py functions over lists | arithmetic of floor quotients, list induction |
| C04 | Flocq binary64 round-to-nearest-even of the boundary expression | rounding monotonicity + error bound |
| C05,C06,C08,C09 | SCPList as record of columns + cache; operations as steps | invariant over operation histories |
| C07 | save/load/parse_script on strings | string induction; refutations for excluded inputs |
| C10,C11 | rw_specifiers parsers on strings | case analysis; refutations of documented forms the code rejects |
| C12-C16 | byte streams as lists of bytes with a position; kaldi_io_funcs and kaldi_matrix | codec lemmas |
| C17,C18 | quantisation over Q/Z | arithmetic |
| C19-C22 | ark writer, readers on a file-system map | induction over records |
| C23 | HDF5 file as ordered map key -> rows | induction |
| C24-C30 | trial objects as names + matrix | pointwise specification by name |
| C31,C32 | fold assignment with permutation oracle | arithmetic of rounded boundaries |
| C33-C35 | segment tables | list induction |
| C36-C38 | PAV, ROC, DCF on Q | invariants, optimality |
| C39-C41 | state machines over Q/R | induction over histories |
| C42 | checkpoint store + crash points | refinement to uninterrupted run |
| C43 | merge tree | union-find style induction |
| C44 | SequenceBatchGeneratorV1: state machine over requests, random generator as oracle | state invariants, ghost history per recording; _refuted theorems for the settings outside |
| C45 | VectorClassReader with random oracle | invariants |
| C46-C48 | array functions | list induction |
| C49 | threads as interleaving of atomic steps | invariant |
| C50 | Q arithmetic | field |
| C51 | get_data_attrs / build_from_data_attrs on bytes | transposition lemmas |
| C52 | TrialScores.transform over the mask | pointwise reasoning on sel/fill |
| C53 | SegmentList.filter/split/merge/__getitem__ over lists of rows with rational times | permutation of located rows, C02 for the split |
| C55 | opt_loglr: PAV posteriors in Q, logs in R extended with infinities | block means in (0,1), ranks |
| C56 | compute_cllr in R | monotonicity of ln, exp |
| C57 | CSV log as list of rows next to the checkpoint store | same invariant as C42 |
| C54 | RTTM names (slow and cached loop), to_segment_list | loop invariant: cache equals filter of the current file |
| C58 | int2onehot as set_items on a zero matrix | index lemmas |
| C59 | workers and consumer of GeneratorQueue as interleaved atomic steps | invariant: multiset of items; workers between check and put |
| C60 | Utt2Info rows + cached dictionary | invariant over histories; C01, C02 for splits |
| C61 | class balancing (bincount, tile) | counting lemmas |
| C62 | KMeans over exact rationals | class sums, mean minimises squared error, induction over epochs |
| C63 | softmax, logsumexp, sigmoids over the reals | real analysis |
| C64 | confusion_matrix.py with sklearn's counting | tallies; sums; counterexamples |
| C65 | CentWhiten and PCA on mathcomp matrices over a real closed field, solvers by specification | matrix algebra, Ky Fan's inequality |
| C66 | SbSw, LDA, NDA, same setting | generalised eigenproblem, Ky Fan |
| C67 | NAP, LNorm, MVN, same setting | matrix algebra |
| C68 | ModelIO.v: HypModel.save/load, TransformList names, the h5 file as a list of paths; ModelIOProps.v: induction over the transform tree; a file is a configuration plus non-colliding paths |
| C69 | Gaussianizer.v: sort, linspace index, binary search, table; GaussianizerProps.v: binary search = number of smaller elements (loop invariant), strict monotonicity of the rounded linspace |
| C70 | NormalDiag.v: object with caches as a state machine, batch loops; NormalDiagProps.v: invariant over histories, ML optimality from ln t <= t-1 |
| C71 | GmmDiag.v: object with cached properties, E-step batch loop, M-step, fit, split; GmmDiagProps.v: invariant over histories, Jensen inequality and weighted ML per component for EM monotonicity, bisimulation of two runs for the ignored weights |
| C72 | GmmSegs.v: segment loop, soft segments, strided cumulative sums; GmmSegsProps.v: prefix-sum differences are window sums, loop invariants over batches |
| C73 | utils/math.py linear algebra on mathcomp matrices over a real closed field (LinAlg.v) | Cholesky by induction on the dimension with Schur complements; flooring via the eigendecomposition that an SVD of a semidefinite matrix is (LinAlgProps.v) |
| C74 | plda_base.py statistics and scores, frplda.py scores (Frplda.v) | completing the square with Cholesky factors; uniqueness of the Gaussian factorisation (GaussLa.v, FrpldaProps.v) |
| C75 | frplda.py compute_py_g_x, Estep, elbo, MstepML and the fit loop (Frplda.v) | loop invariant over the groups of equal counts; expectations of quadratics as finite sums, Gibbs inequality and ML of mean and precision; counterexamples computed in dimensions 1 and 2 (FrpldaEm.v, FrpldaCex.v) |
| C76 | splda.py (Splda.v) | completing the square; quadratic optimum of the augmented regression, ML precision, change of variable for the minimum divergence step (SpldaProps.v, SpldaEm.v, PldaProps.v) |
| C77 | plda.py compute_aux, posteriors, ELBO, scores, densities, sample (Splda.v) | Woodbury and Sylvester identities, reduction to C76 (PldaProps.v) |
| C78 | frplda.py initialize, weighted_avg_model, sample (Frplda.v) | expansion of the within-class scatter, convexity of positive definite matrices, change of variable by the Cholesky factor (FrpldaMore.v) |
| C79 | stft.py (Feats.v) | overlap-add invariant over the frames, pointwise (FeatsProps.v) |
| C80 | energy_vad.py, frame_selector.py, waveform preparation (Feats.v) | induction on the stream, recurrences, mean argument (FeatsVad.v) |
| C81 | filter_banks.py (FilterBank.v) | triangles over increasing points, rounding to the nearest bin (Flocq), (FilterBankProps.v) |
| C82 | mfcc.py, feature_windows.py (Mfcc.v) | unfolding of the stages, algebra of first columns, C79 for the frames (MfccProps.v) |
| C83 | classifiers/linear_gbe.py, softmax and int2onehot of utils/math.py (Gbe.v) | completing the square, Gaussian ML lemma of GaussLa, softmax shift invariance (GbeProps.v, GbeFit.v) |
| C84 | classifiers/q_scoring_homo_gbe.py (QScoring.v) | coordinatewise completion of squares (QScoringProps.v) |
| C85 | calibration/gauss_calibration.py (Calib.v) | moment decomposition and ln t <= t - 1 (CalibProps.v) |
| C86 | classifiers/logistic_regression.py, binary_logistic_regression.py (Logit.v); the optimiser of scikit-learn is an arbitrary function | computation with softmax and sigmoid identities (LogitProps.v) |
| C87 | keras/layers/pooling.py, keras/backend_addons (Pool.v) | sums over weighted frames, permutation and padding lemmas (PoolProps.v) |
| C88 | keras/layers/losses.py, sampling.py, scoring.py, keras/losses.py (KLoss.v); noise is given | Gaussian integrals by coefficients, ln t <= t - 1 (KLossProps.v) |
| C89 | keras/embed/seq_embed.py, seq_embed_lde.py, seq_q_embed.py predict_embed (Embed.v); encoder and pooling are arbitrary functions | loop invariant over the chunks (EmbedProps.v) |
| C90 | trial_ndx.py parse_eval_set and apply_segmentation_to_test, trial_data_reader.py, tracking_data_reader.py, data_reader.py _squeeze, eval-cos-1vs1.py, eval-plda-1vs1.py, eval-plda-nvs1.py (TrialEval.v); reader, preprocessing and scorer are arbitrary functions | alignment of the lists by positions (TrialEvalProps.v); Cauchy-Schwarz for the cosine (LreProps.v) |
| C91 | scores2lre_format.py, eval-score-norm.py (TrialEval.v); number format and splitext arbitrary | equality with the specified text (LreProps.v) |
| C92 | audio_reader.py (Audio.v); sf.read, pipes, splitext and the scale are arbitrary functions; times rational | induction on the read schedule with the cursor invariant; slices by positions; C01/C02 for the parts (AudioProps.v) |
| C93 | copy_feats.py, h5_merger.py, hyp_data_reader/writer.py (Audio.v) over the writers of Ark.v and H5.v | append laws of the writers, induction on chunks (AudioProps.v) |
| C94 | pdfs/core/normal.py with exp_family.py (NormalFull.v) on mathcomp matrices over a real closed field | inner products of stacked statistics as traces, completion of the square, the lemma ln det P - tr PS <= -ln det S - n (NormalFullProps.v) |
| C95 | pdfs/mixtures/gmm.py with exp_family_mixture.py (NormalFull.v) | Jensen for the abstract logarithm, complementary slackness of the floor, C94 with posterior weights (GmmFullProps.v) |
| C96 | bin/segments-to-bin-vad.py, rttm-to-bin-vad.py, h5vad2nist.py, arkvad2nist.py (VadTools.v) | C33 and C53 per file and part, induction over the change points (VadToolsProps.v) |
| C97 | generators/sequence_batch_generator_v2.py (SeqGen2.v) over an arbitrary random generator; the rejection loop has fuel | induction over draws and reads, fairness for termination, invariants of the counters (SeqGen2Props.v) |
| C98 | torch/metrics/accuracy_functional.py, torch/archs/fcnet.py, ffnet.py, constructors of tdnn.py and etdnn.py, torch/helpers/activation_factory.py (TorchNets.v); layers are arbitrary functions of the right sizes | sums over indices, induction over the layers (TorchNetsProps.v) |
| C99 | helpers/classif_trial_data_reader.py, vector_reader.py, bin/eval-linear-gbe.py and its variants, vectors2scores.py, eval-2class-performance.py (ClassEval.v); predict is an arbitrary row-wise function | the text of the lists is parsed character by character; composition with the theorems on TrialScores and class numbers (ClassEvalProps.v) |
| C100 | helpers/sequence_reader.py, sequence_class_reader.py (SeqReader.v); a read returns the requests made to the file | invariants over the reads of an epoch; integer arithmetic for the plan of pieces; refuted cases computed (SeqReaderProps.v) |
| C101 | torch/loggers/csv_logger.py, prog_logger.py, loggers.py with the csv writer (TrainLog.v); values are texts, the clock is an argument | csv reader state machine as specification, inductions on characters, fields and epochs (TrainLogProps.v) |
| C102 | the add_argparse_args / filter_args / constructor triples of 33 classes as tables (OptTables.v), argparse registration and parsing, str2bool (Options.v) | tables checked by computation, general theorem by induction on the command line and on the registered options (OptionsProps.v) |
| C103 | CopyFeats.__init__ with the readers and writers the factories build (CopyFeats.v over RWSpec.v, Ark.v, H5.v, Scp.v) | each source delivers its records for any reading pattern (from C19, C21, C23); induction on the copy loop; reopening the output (CopyFeatsProps.v) |
| C104 | HypModelCheckpoint, LearningRateSteps, create_callbacks and its options (Callbacks.v) | induction on the epochs with the invariant that the file holds the first best so far; concrete counterexamples (CallbacksProps.v) |
| C105 | the eight diagonal GlobalProdRenorm layers, values and shapes (ProdPool.v) | completing the square; log-densities equal up to a constant; shape arithmetic (ProdPoolProps.v) |
| C106 | objectives.py (normal, diag_normal, KL), NormalSampler, Triu, GlobalProdRenormNormalConstCovStdPrior, MultConstCovStdPrior (GaussSample.v) | mathcomp matrices: roots of the covariance, Cholesky of the pooled covariance, completing the square (GaussSampleProps.v) |
| C107 | GMMTiedDiagCov (GmmTied.v) with the inherited methods of GmmDiag.v | invariants of histories, Jensen and optimality of the pooled variance (GmmTiedProps.v) |
| C108 | AudioWriter with soundfile as a store of integers or rationals (AudioOut.v); the readers of Audio.v and the parser of Scp.v | induction over calls with failures, paths and extensions as strings, the script as SCPList.save would write it (AudioOutProps.v) |
| C109 | keras_utils evaluation functions, VAE loss, elbo, decode_z, load (Vae.v) | induction on the batches with the invariant that the prefix of every output is final; regrouping of repeated rows; concrete counterexamples (VaeProps.v) |
| C110 | CentWhitenUP, LNormUP, LinearGBEUP (TransUP.v) | entrywise matrix identities on top of the covariance lemmas of C65; counterexamples by evaluation (TransUPProps.v) |
| C111 | KaldiDataReader, ark2hyp (KaldiOld.v) | byte-level decoding lemmas shared with C14; induction over the calls with the cursor as invariant; C07 for the script (KaldiOldProps.v) |
| C112 | to_sparse, to_dense (SparsePost.v) | any sorted permutation for argsort; the threshold argument for the optimality of the mass (SparsePostProps.v) |
| C113 | DCT, Liftering, elementwise layers, CreateMask, shapes (KLayers.v) | trigonometric sums in closed form (Dirichlet kernel) for orthogonality; mean value theorem and convexity bounds for the exponentials; induction (KLayersProps.v) |
| C114 | LinearSVMC fit, predict, save and load (Svm.v) | rows unfolded to the decision function; induction on the number of saves; softmax facts of C63 (SvmProps.v) |
| C115 | the scripts that train transforms, on top of ModelIO.v (TrainChain.v) | induction over the chain with the invariant that the file loads to the list of stored transforms; C68 for one save and load; slash-free names keep paths apart (TrainChainProps.v) |
| C116 | trial scoring of tied_vae_qyqz.py, diagonal posterior, in real arithmetic (TiedVae.v) | per coordinate completion of the square; normal densities of NormalDiagProps.v as specification; induction over dimensions and trials (TiedVaeProps.v) |
| C117 | Estep, MstepML and MstepMD of plda.py (PldaFit.v) | expectations of quadratic functions of Gaussians by their roots (as in GaussLa.v), nested over the two factors; completion of the square of the expected residual around the solution of the normal equations; change of variables (PldaFitProps.v, PldaMdProps.v) |

## Trusted base

* Coq 8.16.1's kernel (and coqchk for the recheck), the mathcomp libraries (no axioms of their own are used), the Coq standard library; Flocq
  for binary64 rounding in FloatSplit.v and FoldsFloat.v.
* No axiom, Variable or Hypothesis outside a section, no Admitted, no functor. Section variables become hypotheses of the theorems, visible in
  their statements after the section is closed.
* `Print Assumptions` stands below every theorem in the sources. Of the 429 theorems in MANIFEST.json listed when
  the table below was made (C01-C78 and some later ones), 354 are "Closed under the global context". The others use only the standard library's axioms of the real numbers and of classical logic, as follows:

* `ClassicalDedekindReals.sig_forall_dec`, `ClassicalDedekindReals.sig_not_dec`, `Classical_Prop.classic`, `FunctionalExtensionality.functional_extensionality_dep`: C04_float_boundaries_exact, C04_float_split_list, C04_float_split_list_group_by_key, C31_bound64_nearest, C37_act_dcf_bayes, C41_range, C41_no_error, C41_warmup, C41_exp, C41_cos_restarts, C41_cos_no_restarts, C41_cos_first_epoch_refuted, C41_cos_below_min_refuted, C41_cos_whole_epochs_refuted, C55_opt_loglr, C55_opt_loglr_raw, C56_cllr, C56_cllr_refuted, C63_softmax_order, C63_logsumexp, C63_logsumexp_shift, C63_empty, C63_logsigmoid, C63_sigmoid, C63_sigmoid_monotone, C70_parameters, C70_log_prob, C70_elbo, C70_fit, C70_fit_mean, C70_fit_fixed_mean_refuted, C70_norm_stats, C71_log_prob, C71_new_weights, C71_responsibilities, C71_estep, C71_mstep, C71_em_increases, C71_elbo, C71_update_pi_ignored_refuted, C71_stale_weights_refuted, C71_small_count_refuted, C71_fixed_mean_refuted, C71_split, C71_split_config_refuted, C72_segments, C72_windows, C72_one_window_refuted, C72_no_window, C72_windows_batched, C72_windows_batched_refuted, C72_prob.
* `ClassicalDedekindReals.sig_forall_dec`, `ClassicalDedekindReals.sig_not_dec`, `FunctionalExtensionality.functional_extensionality_dep`: C46_norm, C46_global, C46_invariance, C50_znorm, C50_tnorm, C50_snorm, C50_bounded, C50_affine, C50_shift, C50_cohort_order, C50_monotone, C50_standardises, C50_symmetric, C50_adapt, C50_adapt_whole_cohort, C50_adapt_constant_refuted, C50_adapt_mask_refuted, C63_softmax, C63_softmax_shift, C72_prob_segment.
* `ClassicalDedekindReals.sig_forall_dec`, `FunctionalExtensionality.functional_extensionality_dep`: C70_statistics, C70_statistics_in_place_refuted.
* `ClassicalDedekindReals.sig_forall_dec`: C70_empty_refuted.
* Of the 437 theorems added to MANIFEST.json since, the 90 in the files that do not build on Coq's reals or classical logic are closed under the global context. Those in the files
  AudioOutProps.v, AudioProps.v, CalibProps.v, ClassEvalProps.v, CopyFeatsProps.v, FeatsProps.v, FeatsVad.v, FilterBankProps.v, GaussSampleProps.v, GbeFit.v, GmmFit.v, GmmFullProps.v, GmmTiedProps.v, KLayersProps.v, KLossProps.v, KaldiOldProps.v, LogitProps.v, LreProps.v, MfccProps.v, NormalFullProps.v, PldaFitProps.v, PldaMdProps.v, PoolProps.v, ProdPoolProps.v, SparsePostProps.v, SvmProps.v, TiedVaeProps.v, TorchNetsProps.v, TrialEvalProps.v, VadToolsProps.v, VaeProps.v may use the same four axioms of the standard library and no others: build one of these files to see the answer of `Print Assumptions` to each theorem.

RInst.v (Coq's reals as a mathcomp real closed field, used to show that the hypothesis `is_log ln` of the PLDA and linear algebra theorems is met)
also uses `constructive_indefinite_description` (Coq.Logic.ClassicalEpsilon) in the lemma real_log_ok, which is not in MANIFEST.json.

Trusted besides: that the model says what the Python source and the documented behaviour of numpy, scipy, pandas, h5py, torch say. The model is
written by hand from the source.

### Modelled (hyperion/...; the lines are cited at each definition)

| Python | model | what is simplified |
|---|---|---|
| utils/list_utils.py | ListUtils.v, FloatSplit.v | split points on exact numbers, and binary64 for the boundary expression |
| utils/scp_list.py, utt2info.py, trial_ndx.py, trial_key.py, trial_scores.py, fold_list.py, train_val_eval_list.py, segment_list.py, ext_segment_list.py, rttm.py | Scp.v, Utt2Info.v, Trials.v, Folds.v, Segments.v (+ Mat.v, Str.v) | text files as strings, scores and times as exact numbers, HDF5 files of trial objects as their fields |
| io/rw_specifiers.py, data_rw_factory.py, ark_*, h5_*, utils/kaldi_io_funcs.py, kaldi_matrix.py | RWSpec.v, Bytes.v, Kaldi.v, KaldiCodec.v, Ark.v, H5.v | binary mode only; the file system is a map from paths to bytes |
| metrics/* | Metrics.v, Pav.v, OptLlr.v, Confusion.v, DcfReal.v | scores are exact rationals or reals |
| torch/lr_schedulers, torch/utils/metric_acc.py, torch_trainer.py, loggers/csv_logger.py | LrSched.v, Plateau.v, MetricAcc.v, Trainer.v | the network step is an abstract function of the state |
| clustering/ahc.py, kmeans.py; score_norm/*; feats/feature_normalization.py | Ahc.v, KMeans.v, ScoreNorm.v, FeatNorm.v | exact arithmetic; scipy's linkage is an argument |
| generators/sequence_batch_generator_v1.py, helpers/vector_class_reader.py | SeqGen.v, ClassReader.v | random generators are oracles |
| transforms/*, hyp_model.py | LinTrans.v, Gaussianizer.v, ModelIO.v | exact arithmetic; eigen-decompositions are relations; HDF5 files are maps |
| pdfs/core/*, pdfs/mixtures/*, pdfs/plda/* | NormalDiag.v, GmmDiag.v, GmmSegs.v, Frplda.v, Splda.v | exact arithmetic, logarithm as a function with the laws of the logarithm |
| utils/math.py, tensors.py, multithreading.py, queues.py | LinAlg.v, SymMat.v, MathFns.v, Tensors.v, Threads.v | exact arithmetic; thread schedules are arbitrary interleavings |
| classifiers/linear_gbe.py | Gbe.v | exact arithmetic, abstract log/exp/gammaln; save/load and argument parsing not modelled; linear_gbe_up.py not modelled (float slice indices: always TypeError) |
| classifiers/q_scoring_homo_gbe.py | QScoring.v | exact arithmetic; save/load not modelled |
| calibration/gauss_calibration.py | Calib.v | real arithmetic; storage only as the keys written and read |
| classifiers/logistic_regression.py, binary_logistic_regression.py | Logit.v | real arithmetic; the scikit-learn optimiser is an arbitrary function; argument parsing not modelled; list priors in stored files |
| keras/layers/pooling.py, keras/backend_addons max_with_mask | Pool.v | real arithmetic, one feature at a time; get_config, masks computation and GlobalMaskedAveragePooling1D (always raises) not modelled |
| keras/layers/losses.py, sampling.py, scoring.py (one class), keras/losses.py | KLoss.v | real arithmetic; noise is an argument; CatQScoringDiagNormalPostStdPrior (NameError) not modelled; Keras input checks only for the KL layer |
| feats/stft.py, feats/energy_vad.py, feats/frame_selector.py | Feats.v | real arithmetic; the FFT is an arbitrary pair of functions (inverse where stated); dither noise is an argument |
| feats/filter_banks.py | FilterBank.v | real arithmetic; rounding to the nearest even integer exact |
| feats/mfcc.py, feats/feature_windows.py | Mfcc.v | real arithmetic; argument parsing not modelled |
| keras/embed/seq_embed.py, seq_embed_lde.py, seq_q_embed.py (predict_embed) | Embed.v | exact division; encoder and pooling are arbitrary functions; a negative chunk shift is excluded; building and training of networks not modelled |
| utils/trial_ndx.py (parse_eval_set, apply_segmentation_to_test), helpers/trial_data_reader.py, helpers/tracking_data_reader.py, io/data_reader.py (_squeeze on vectors), bin/eval-cos-1vs1.py, eval-plda-1vs1.py, eval-plda-nvs1.py, scores2lre_format.py, eval-score-norm.py | TrialEval.v | files replaced by the objects they hold; reader, preprocessing, scorer and number format arbitrary; logging dropped |
| io/audio_reader.py, io/copy_feats.py, io/h5_merger.py | Audio.v | sf.read and shell pipes are arbitrary functions; exact rational times; argument parsing not modelled; CopyFeats over an arbitrary writer with the laws proved for the ark and HDF5 writers |
| pdfs/core/normal.py, pdfs/mixtures/gmm.py with exp_family.py, exp_family_mixture.py | NormalFull.v | exact arithmetic over a real closed field; abstract logarithm, exponential and svd; plotting, sampling, k-means initialisation, split_comp and load_from_kaldi not modelled |
| bin/segments-to-bin-vad.py, rttm-to-bin-vad.py, h5vad2nist.py, arkvad2nist.py (bin2intervals) | VadTools.v | exact rational times; writers replaced by the list of records; text output of the NIST files not modelled |
| generators/sequence_batch_generator_v2.py | SeqGen2.v | exact quotients; random generator arbitrary; reader replaced by the requests made to it; argument parsing not modelled |
| torch/metrics/accuracy_functional.py, torch/archs/fcnet.py, ffnet.py, tdnn.py and etdnn.py (constructors), torch/helpers/activation_factory.py | TorchNets.v | real numbers; evaluation mode, one row; the parameters and functions of the layers are arbitrary |
| helpers/classif_trial_data_reader.py, helpers/vector_reader.py (filter_args), io/hyp_data_reader.py (read), bin/eval-linear-gbe.py, eval-logistic-regression.py, eval-linear-svmc.py, vectors2scores.py, eval-2class-performance.py | ClassEval.v | score files replaced by the objects; vectors only; logging and timing dropped |
| helpers/sequence_reader.py, helpers/sequence_class_reader.py | SeqReader.v | the file is replaced by its requests; integer lengths; return_3d, normalisation, arguments not modelled |
| torch/loggers/csv_logger.py, prog_logger.py, loggers.py | TrainLog.v | csv.writer in the excel dialect modelled; values are texts; metric values of progress lines left out |
| add_argparse_args, filter_args and constructor signatures of 33 classes; utils/misc.py str2bool | Options.v, OptTables.v | argparse without abbreviations; tables extracted mechanically from the source; real numbers kept as text |
| io/copy_feats.py CopyFeats with the readers and writers of data_rw_factory.py | CopyFeats.v | output not among the inputs; binary archives |
| keras/callbacks/checkpointers.py, lr_schedulers.py, keras/helpers/callbacks_factory.py | Callbacks.v | metric values are NaN, infinities or rationals; keras CSVLogger, EarlyStopping, ReduceLROnPlateau only as parameters; str.format with {epoch:04d} and doubled braces only |
| keras/layers/pooling.py:425-1008 (diagonal GlobalProdRenorm layers) | ProdPool.v | real arithmetic; one feature at a time; shapes apart |
| keras/objectives.py:22-104, keras/layers/sampling.py:347-425, keras/layers/pooling.py:1049-1132, keras/layers/cov.py:141-190, keras/constraints.py:27-53 | GaussSample.v | exact arithmetic over a real closed field; one sample of the batch; Theano backend; bernoulli, *_3d and kl_normal_commonvar2 not modelled |
| pdfs/mixtures/gmm_tied_diag_cov.py:25-226 | GmmTied.v | exact real arithmetic; random splits (K other than 2), log_cdf and plots not modelled |
| io/audio_writer.py:22-116 | AudioOut.v | one channel; exact rationals for floats; values outside of an integer type and the lossy formats are parameters; sf.check_format and sf.default_subtype are parameters |
| keras/keras_utils.py:175-351, keras/vae/vae.py | Vae.v | vectors; the networks are functions of one sample, the draws are given; diagonal posterior, Bernoulli and diagonal decoders; quotients by 0 are None |
| transforms/cent_whiten_up.py, transforms/lnorm_up.py, classifiers/linear_gbe_up.py:44-107 | TransUP.v | exact arithmetic; mu and T fit the first half of the columns; float arrays |
| io/kaldi_data_reader.py, bin/ark2hyp.py:23-34 | KaldiOld.v | squeeze=False; counts not negative; a file is the bytes open or gzip.open gives; the parsing of one number is a parameter |
| bin/compute-gmm-post.py:31-45 | SparsePost.v | exact reals; argsort is any function giving a sorted order |
| keras/layers/feats.py, core.py (Bias, ExpTaylor, elementwise), advanced_activations.py (Swish, SwishBeta), masking.py, tensor_manipulation.py (shapes) | KLayers.v | exact reals; scipy's dct and idct by their documented formulas; no incoming mask; last axis only |
| classifiers/linear_svmc.py | Svm.v | exact reals; the scikit-learn solver is a parameter; only one of A and b given to the constructor is not modelled |
| bin/train-{mvn,pca,nda,lda,cw,cw-up,gaussianizer}.py | TrainChain.v | data, fits and applications abstract; --input-path not given |
| keras/vae/tied_vae_qyqz.py:213-428 | TiedVae.v | real arithmetic; diagonal posterior; the encoder is a parameter; ln of a non-positive precision not modelled |
| pdfs/plda/plda.py:200-371 | PldaFit.v | exact arithmetic over a real closed field |

### Not modelled

Floating point rounding (except C04, C31), memory and time; text mode of the Kaldi formats; keras/, deprec/, bin/, vb_pdfs/, nnet/, torch/archs,
torch/layers (networks), plotting, audio reading through external commands, and the functions named as not modelled in the notes of MANIFEST.json.
