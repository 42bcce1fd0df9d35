(** The tables of options, valid_args and constructor parameters of the configurable classes of hyperion, one per class; see Options.v. Defaults written as
    expressions are kept as text. *)
From Coq Require Import ZArith List Bool Ascii String.
From Verif Require Import Base Str Options.
Import ListNotations.
Open Scope list_scope. Open Scope string_scope. Open Scope Z_scope.

(** feats/energy_vad.py: EnergyVAD.__init__ (33-), filter_args (135-156), add_argparse_args (161-211) *)
Definition energy_vad : cls := mk_cls [
    mk_opt false "sample-frequency" "fs" Int (VInt (16000)) (None);
    mk_opt false "frame-length" "frame_length" Int (VInt (25)) (None);
    mk_opt false "frame-shift" "frame_shift" Int (VInt (10)) (None);
    mk_opt false "dither" "dither" Float (VInt (1)) (None);
    mk_opt false "snip-edges" "snip_edges" Str2Bool (VBool true) (None);
    mk_opt false "vad-energy-mean-scale" "vad_energy_mean_scale" Float (VFloat "0.5") (None);
    mk_opt false "vad-energy-threshold" "vad_energy_threshold" Float (VInt (5)) (None);
    mk_opt false "vad-frames-context" "vad_frames_context" Int (VInt (0)) (None);
    mk_opt false "vad-proportion-threshold" "vad_proportion_threshold" Float (VFloat "0.6") (None)]
  ["fs"; "frame_length"; "frame_shift"; "dither"; "snip_edges"; "vad_energy_mean_scale"; "vad_energy_threshold"; "vad_frames_context"; "vad_proportion_threshold"]
  ["fs"; "frame_length"; "frame_shift"; "dither"; "snip_edges"; "vad_energy_mean_scale"; "vad_energy_threshold"; "vad_frames_context"; "vad_proportion_threshold"] [].
(** feats/feature_normalization.py: MeanVarianceNorm.__init__ (28-), filter_args (210-236), add_argparse_args (241-271) *)
Definition mean_var_norm : cls := mk_cls [
    mk_opt false "no-norm-mean" "no_norm_mean" SetTrue (VBool false) (None);
    mk_opt false "norm-var" "norm_var" SetTrue (VBool false) (None);
    mk_opt false "left-context" "left_context" Int (VInt (300)) (None);
    mk_opt false "right-context" "right_context" Int (VInt (300)) (None)]
  ["no_norm_mean"; "norm_mean"; "norm_var"; "left_context"; "right_context"]
  ["norm_mean"; "norm_var"; "left_context"; "right_context"] [("no_norm_mean", "norm_mean")].
(** feats/frame_selector.py: FrameSelector.__init__ (21-), filter_args (55-74), add_argparse_args (79-96) *)
Definition frame_selector : cls := mk_cls [
    mk_opt false "tol-num-frames" "tol_num_frames" Int (VInt (3)) (None)]
  ["t"; "o"; "l"; "_"; "n"; "u"; "m"; "_"; "f"; "r"; "a"; "m"; "e"; "s"]
  ["tol_num_frames"] [].
(** feats/mfcc.py: MFCC.__init__ (97-), filter_args (342-366), add_argparse_args (371-458) *)
Definition mfcc : cls := mk_cls [
    mk_opt false "sample-frequency" "fs" Int (VInt (16000)) (None);
    mk_opt false "frame-length" "frame_length" Int (VInt (25)) (None);
    mk_opt false "frame-shift" "frame_shift" Int (VInt (10)) (None);
    mk_opt false "fft-length" "fft_length" Int (VInt (512)) (None);
    mk_opt false "remove-dc-offset" "remove_dc_offset" Str2Bool (VBool true) (None);
    mk_opt false "preemphasis-coeff" "preemph_coeff" Float (VFloat "0.97") (None);
    mk_opt false "window-type" "window_type" Text (VText "povey") (Some ["hamming"; "hanning"; "povey"; "rectangular"; "blackman"]);
    mk_opt false "use-fft2" "use_fft2" Str2Bool (VBool true) (None);
    mk_opt false "dither" "dither" Float (VInt (1)) (None);
    mk_opt false "fb-type" "fb_type" Text (VText "mel_kaldi") (Some ["mel_kaldi"; "mel_etsi"; "linear"]);
    mk_opt false "num-filters" "num_filters" Int (VInt (23)) (None);
    mk_opt false "low-freq" "low_freq" Float (VInt (20)) (None);
    mk_opt false "high-freq" "high_freq" Float (VInt (0)) (None);
    mk_opt false "norm-filters" "norm_filters" Str2Bool (VBool false) (None);
    mk_opt false "num-ceps" "num_ceps" Int (VInt (13)) (None);
    mk_opt false "snip-edges" "snip_edges" Str2Bool (VBool true) (None);
    mk_opt false "energy-floor" "energy_floor" Float (VInt (0)) (None);
    mk_opt false "raw-energy" "raw_energy" Str2Bool (VBool true) (None);
    mk_opt false "use-energy" "use_energy" Str2Bool (VBool true) (None);
    mk_opt false "cepstral-lifter" "cepstral_lifter" Float (VInt (22)) (None);
    mk_opt false "input-step" "input_step" Text (VText "wave") (Some ["wave"; "fft"; "fft_mag"; "log_spec"; "logfb"]);
    mk_opt false "output-step" "output_step" Text (VText "cepstrum") (Some ["fft"; "fft_mag"; "log_spec"; "logfb"; "cepstrum"])]
  ["fs"; "frame_length"; "frame_shift"; "fft_length"; "remove_dc_offset"; "preemph_coeff"; "window_type"; "blackman_coeff"; "use_fft2"; "dither"; "fb_type"; "low_freq"; "high_freq"; "num_filters"; "norm_filters"; "num_ceps"; "snip_edges"; "energy_floor"; "raw_energy"; "use_energy"; "cepstral_lifter"; "input_step"; "output_step"]
  ["fs"; "frame_length"; "frame_shift"; "fft_length"; "remove_dc_offset"; "preemph_coeff"; "window_type"; "use_fft2"; "dither"; "fb_type"; "low_freq"; "high_freq"; "num_filters"; "norm_filters"; "num_ceps"; "snip_edges"; "energy_floor"; "raw_energy"; "use_energy"; "cepstral_lifter"; "input_step"; "output_step"] [].
(** generators/sequence_batch_generator_v1.py: SequenceBatchGeneratorV1.__init__ (29-), filter_args (404-423), add_argparse_args (428-506) *)
Definition sbg_v1 : cls := mk_cls [
    mk_opt false "scp-sep" "scp_sep" Text (VText " ") (None);
    mk_opt false "path-prefix" "path_prefix" Text (VText "") (None);
    mk_opt false "batch-size" "batch_size" Int (VInt (128)) (None);
    mk_opt false "class-list" "class_list" Text (VNone) (None);
    mk_opt false "iters-per-epoch" "iters_per_epoch" AutoInt (VText "auto") (None);
    mk_opt false "gen-method" "gen_method" Lower (VText "random") (Some ["full_seqs"; "sequential"; "random"]);
    mk_opt false "min-seq-length" "min_seq_length" Int (VNone) (None);
    mk_opt false "max-seq-length" "max_seq_length" Int (VNone) (None);
    mk_opt false "seq-overlap" "seq_overlap" Int (VInt (0)) (None);
    mk_opt false "prune-min-length" "prune_min_length" Int (VInt (0)) (None);
    mk_opt false "class-weight" "class_weight" Lower (VNone) (Some ["balanced"; "unbalanced"]);
    mk_opt false "seq-weight" "seq_weight" Lower (VText "balanced") (Some ["balanced"; "unbalanced"]);
    mk_opt false "init-epoch" "init_epoch" Int (VInt (0)) (None);
    mk_opt false "sg-seed" "sg_seed" Int (VInt (1024)) (None);
    mk_opt false "part-idx" "part_idx" Int (VInt (1)) (None);
    mk_opt false "num-parts" "num_parts" Int (VInt (1)) (None)]
  ["scp_sep"; "path_prefix"; "batch_size"; "iters_per_epoch"; "gen_method"; "class_list"; "shuffle_seqs"; "min_seq_length"; "max_seq_length"; "seq_overlap"; "prune_min_length"; "class_weight"; "seq_weight"; "init_epoch"; "sg_seed"; "part_idx"; "num_parts"]
  ["rspecifier"; "key_file"; "class_list"; "path_prefix"; "batch_size"; "iters_per_epoch"; "gen_method"; "min_seq_length"; "max_seq_length"; "seq_overlap"; "prune_min_length"; "return_class"; "class_weight"; "max_class_imbalance"; "seq_weight"; "shuffle_seqs"; "transform"; "init_epoch"; "sg_seed"; "reset_rng"; "scp_sep"; "part_idx"; "num_parts"] [].
(** generators/sequence_batch_generator_v2.py: SequenceBatchGeneratorV2.__init__ (29-), filter_args (301-320), add_argparse_args (325-395) *)
Definition sbg_v2 : cls := mk_cls [
    mk_opt false "scp-sep" "scp_sep" Text (VText " ") (None);
    mk_opt false "path-prefix" "path_prefix" Text (VText "") (None);
    mk_opt false "batch-size" "batch_size" Int (VInt (128)) (None);
    mk_opt false "class-list" "class_list" Text (VNone) (None);
    mk_opt false "iters-per-epoch" "iters_per_epoch" AutoInt (VText "auto") (None);
    mk_opt false "num-egs-per-class" "num_egs_per_class" Int (VInt (1)) (None);
    mk_opt false "num-egs-per-utt" "num_egs_per_utt" Int (VInt (1)) (None);
    mk_opt false "min-seq-length" "min_seq_length" Int (VNone) (None);
    mk_opt false "max-seq-length" "max_seq_length" Int (VNone) (None);
    mk_opt false "prune-min-length" "prune_min_length" Int (VInt (0)) (None);
    mk_opt false "class-weight" "class_weight" Lower (VNone) (Some ["balanced"; "unbalanced"]);
    mk_opt false "init-epoch" "init_epoch" Int (VInt (0)) (None);
    mk_opt false "sg-seed" "sg_seed" Int (VInt (1024)) (None);
    mk_opt false "part-idx" "part_idx" Int (VInt (1)) (None);
    mk_opt false "num-parts" "num_parts" Int (VInt (1)) (None)]
  ["scp_sep"; "path_prefix"; "batch_size"; "iters_per_epoch"; "num_egs_per_class"; "num_egs_per_utt"; "class_list"; "shuffle_seqs"; "min_seq_length"; "max_seq_length"; "seq_overlap"; "prune_min_length"; "class_weight"; "init_epoch"; "sg_seed"; "part_idx"; "num_parts"]
  ["rspecifier"; "key_file"; "class_list"; "path_prefix"; "batch_size"; "iters_per_epoch"; "num_egs_per_class"; "num_egs_per_utt"; "min_seq_length"; "max_seq_length"; "prune_min_length"; "return_class"; "return_utt1hot"; "class_weight"; "shuffle_seqs"; "transform"; "init_epoch"; "sg_seed"; "reset_rng"; "scp_sep"; "part_idx"; "num_parts"] [].
(** generators/adapt_sequence_batch_generator.py: AdaptSequenceBatchGenerator.__init__ (30-), filter_args (400-413), add_argparse_args (418-431) *)
Definition sbg_adapt : cls := mk_cls [
    mk_opt false "scp-sep" "scp_sep" Text (VText " ") (None);
    mk_opt false "path-prefix" "path_prefix" Text (VText "") (None);
    mk_opt false "batch-size" "batch_size" Int (VInt (128)) (None);
    mk_opt false "class-list" "class_list" Text (VNone) (None);
    mk_opt false "iters-per-epoch" "iters_per_epoch" AutoInt (VText "auto") (None);
    mk_opt false "gen-method" "gen_method" Lower (VText "random") (Some ["full_seqs"; "sequential"; "random"]);
    mk_opt false "min-seq-length" "min_seq_length" Int (VNone) (None);
    mk_opt false "max-seq-length" "max_seq_length" Int (VNone) (None);
    mk_opt false "seq-overlap" "seq_overlap" Int (VInt (0)) (None);
    mk_opt false "prune-min-length" "prune_min_length" Int (VInt (0)) (None);
    mk_opt false "class-weight" "class_weight" Lower (VNone) (Some ["balanced"; "unbalanced"]);
    mk_opt false "seq-weight" "seq_weight" Lower (VText "balanced") (Some ["balanced"; "unbalanced"]);
    mk_opt false "init-epoch" "init_epoch" Int (VInt (0)) (None);
    mk_opt false "sg-seed" "sg_seed" Int (VInt (1024)) (None);
    mk_opt false "part-idx" "part_idx" Int (VInt (1)) (None);
    mk_opt false "num-parts" "num_parts" Int (VInt (1)) (None);
    mk_opt false "r-adapt" "r_adapt" Int (VInt (64)) (None)]
  ["scp_sep"; "path_prefix"; "batch_size"; "iters_per_epoch"; "gen_method"; "class_list"; "shuffle_seqs"; "min_seq_length"; "max_seq_length"; "seq_overlap"; "prune_min_length"; "class_weight"; "seq_weight"; "init_epoch"; "sg_seed"; "part_idx"; "num_parts"; "r_adapt"]
  ["rspecifier"; "key_file"; "key_file_adapt"; "r_adapt"; "class_list"; "path_prefix"; "batch_size"; "iters_per_epoch"; "gen_method"; "min_seq_length"; "max_seq_length"; "seq_overlap"; "prune_min_length"; "return_class"; "class_weight"; "seq_weight"; "shuffle_seqs"; "transform"; "init_epoch"; "sg_seed"; "reset_rng"; "scp_sep"; "part_idx"; "num_parts"] [].
(** helpers/classif_trial_data_reader.py: ClassifTrialDataReader.__init__ (28-), filter_args (59-66), add_argparse_args (70-84) *)
Definition classif_reader : cls := mk_cls [
    mk_opt false "v-field" "v_field" Text (VText "") (None);
    mk_opt false "seg-part-idx" "seg_idx" Int (VInt (1)) (None);
    mk_opt false "num-seg-parts" "num_seg_parts" Int (VInt (1)) (None)]
  ["v_field"; "seg_idx"; "num_seg_parts"]
  ["v_file"; "class2int_file"; "test_file"; "preproc"; "v_field"; "seg_idx"; "num_seg_parts"] [].
(** helpers/multi_test_trial_data_reader.py: MultiTestTrialDataReader.__init__ (28-), filter_args (70-80), add_argparse_args (84-110) *)
Definition multi_test_reader : cls := mk_cls [
    mk_opt false "tlist-sep" "tlist_sep" Text (VText " ") (None);
    mk_opt false "model-part-idx" "model_idx" Int (VInt (1)) (None);
    mk_opt false "num-model-parts" "num_model_parts" Int (VInt (1)) (None);
    mk_opt false "seg-part-idx" "seg_idx" Int (VInt (1)) (None);
    mk_opt false "num-seg-parts" "num_seg_parts" Int (VInt (1)) (None);
    mk_opt false "eval-set" "eval_set" Lower (VText "enroll-test") (Some ["enroll-test"; "enroll-coh"; "coh-test"; "coh-coh"])]
  ["tlist_sep"; "model_idx"; "num_model_parts"; "seg_idx"; "num_seg_parts"; "eval_set"]
  ["v_file"; "ndx_file"; "enroll_file"; "test_file"; "test_subseg2orig_file"; "preproc"; "tlist_sep"; "model_idx"; "num_model_parts"; "seg_idx"; "num_seg_parts"; "eval_set"] [].
(** helpers/sequence_reader.py: SequenceReader.__init__ (26-), filter_args (297-307), add_argparse_args (324-367) *)
Definition sequence_reader : cls := mk_cls [
    mk_opt false "scp-sep" "scp_sep" Text (VText "=") (None);
    mk_opt false "seq-field" "seq_field" Text (VText "") (None);
    mk_opt false "no-shuffle-seqs" "shuffle_seqs" SetFalse (VBool true) (None);
    mk_opt false "subsample" "subsample" Float (VInt (100)) (None);
    mk_opt false "min-seq-length" "min_seq_length" Int (VNone) (None);
    mk_opt false "max-seq-length" "max_seq_length" Int (VNone) (None);
    mk_opt false "seq-split-mode" "seq_split_mode" Lower (VText "random_slice") (Some ["sequential"; "random_slice"; "random_samples"; "random_slice_1seq"; "random_samples_1seq"]);
    mk_opt false "seq-split-overlap" "seq_split_overlap" Float (VInt (0)) (None);
    mk_opt false "seqr-seed" "seqr_seed" Int (VInt (1024)) (None);
    mk_opt false "part-idx" "part_idx" Int (VInt (1)) (None);
    mk_opt false "num-parts" "num_parts" Int (VInt (1)) (None)]
  ["scp_sep"; "seq_field"; "shuffle_seqs"; "subsample"; "min_seq_length"; "max_seq_length"; "seq_split_mode"; "seq_split_overlap"; "seqr_seed"; "part_idx"; "num_parts"]
  ["data_file"; "key_file"; "feat_norm"; "preproc"; "splicing"; "scp_sep"; "seq_field"; "batch_size"; "shuffle_seqs"; "subsample"; "min_seq_length"; "max_seq_length"; "seq_split_mode"; "seq_split_overlap"; "seqr_seed"; "reset_rng"; "part_idx"; "num_parts"] [].
(** helpers/sequence_reader.py: SequenceReader.__init__ (26-), filter_eval_args (372-379), add_argparse_eval_args (384-399) *)
Definition sequence_reader_eval : cls := mk_cls [
    mk_opt false "scp-sep" "scp_sep" Text (VText "=") (None);
    mk_opt false "seq-field" "seq_field" Text (VText "") (None);
    mk_opt false "part-idx" "part_idx" Int (VInt (1)) (None);
    mk_opt false "num-parts" "num_parts" Int (VInt (1)) (None)]
  ["scp_sep"; "seq_field"; "part_idx"; "num_parts"]
  ["data_file"; "key_file"; "feat_norm"; "preproc"; "splicing"; "scp_sep"; "seq_field"; "batch_size"; "shuffle_seqs"; "subsample"; "min_seq_length"; "max_seq_length"; "seq_split_mode"; "seq_split_overlap"; "seqr_seed"; "reset_rng"; "part_idx"; "num_parts"] [].
(** helpers/sequence_post_reader.py: SequencePostReader.__init__ (29-), filter_args (239-249), add_argparse_args (267-280) *)
Definition sequence_post_reader : cls := mk_cls [
    mk_opt false "scp-sep" "scp_sep" Text (VText "=") (None);
    mk_opt false "seq-field" "seq_field" Text (VText "") (None);
    mk_opt false "no-shuffle-seqs" "shuffle_seqs" SetFalse (VBool true) (None);
    mk_opt false "subsample" "subsample" Float (VInt (100)) (None);
    mk_opt false "min-seq-length" "min_seq_length" Int (VNone) (None);
    mk_opt false "max-seq-length" "max_seq_length" Int (VNone) (None);
    mk_opt false "seq-split-mode" "seq_split_mode" Lower (VText "random_slice") (Some ["sequential"; "random_slice"; "random_samples"; "random_slice_1seq"; "random_samples_1seq"]);
    mk_opt false "seq-split-overlap" "seq_split_overlap" Float (VInt (0)) (None);
    mk_opt false "seqr-seed" "seqr_seed" Int (VInt (1024)) (None);
    mk_opt false "part-idx" "part_idx" Int (VInt (1)) (None);
    mk_opt false "num-parts" "num_parts" Int (VInt (1)) (None);
    mk_opt false "num-comp" "num_comp" Int (VInt (2048)) (None)]
  ["scp_sep"; "seq_field"; "shuffle_seqs"; "subsample"; "min_seq_length"; "max_seq_length"; "seq_split_mode"; "seq_split_overlap"; "seqr_seed"; "part_idx"; "num_parts"; "num_comp"]
  ["data_file"; "key_file"; "post_file"; "num_comp"; "feat_norm"; "preproc"; "splicing"; "scp_sep"; "seq_field"; "batch_size"; "shuffle_seqs"; "subsample"; "min_seq_length"; "max_seq_length"; "seq_split_mode"; "seq_split_overlap"; "seqr_seed"; "reset_rng"; "part_idx"; "num_parts"] [].
(** helpers/tracking_data_reader.py: TrackingDataReader.__init__ (27-), filter_args (82-91), add_argparse_args (95-114) *)
Definition tracking_reader : cls := mk_cls [
    mk_opt false "tlist-sep" "tlist_sep" Text (VText " ") (None);
    mk_opt false "model-part-idx" "model_idx" Int (VInt (1)) (None);
    mk_opt false "num-model-parts" "num_model_parts" Int (VInt (1)) (None);
    mk_opt false "seg-part-idx" "seg_idx" Int (VInt (1)) (None);
    mk_opt false "num-seg-parts" "num_seg_parts" Int (VInt (1)) (None)]
  ["tlist_sep"; "model_idx"; "num_model_parts"; "seg_idx"; "num_seg_parts"]
  ["v_file"; "ndx_file"; "enroll_file"; "segments_file"; "preproc"; "tlist_sep"; "model_idx"; "num_model_parts"; "seg_idx"; "num_seg_parts"] [].
(** helpers/trial_data_reader.py: TrialDataReader.__init__ (28-), filter_args (67-77), add_argparse_args (81-107) *)
Definition trial_reader : cls := mk_cls [
    mk_opt false "tlist-sep" "tlist_sep" Text (VText " ") (None);
    mk_opt false "model-part-idx" "model_idx" Int (VInt (1)) (None);
    mk_opt false "num-model-parts" "num_model_parts" Int (VInt (1)) (None);
    mk_opt false "seg-part-idx" "seg_idx" Int (VInt (1)) (None);
    mk_opt false "num-seg-parts" "num_seg_parts" Int (VInt (1)) (None);
    mk_opt false "eval-set" "eval_set" Lower (VText "enroll-test") (Some ["enroll-test"; "enroll-coh"; "coh-test"; "coh-coh"])]
  ["tlist_sep"; "model_idx"; "num_model_parts"; "seg_idx"; "num_seg_parts"; "eval_set"]
  ["v_file"; "ndx_file"; "enroll_file"; "test_file"; "preproc"; "tlist_sep"; "model_idx"; "num_model_parts"; "seg_idx"; "num_seg_parts"; "eval_set"] [].
(** helpers/vector_class_reader.py: VectorClassReader.__init__ (28-), filter_args (207-218), add_argparse_args (222-263) *)
Definition vector_class_reader : cls := mk_cls [
    mk_opt false "vlist-sep" "vlist_sep" Text (VText " ") (None);
    mk_opt false "class2int-file" "class2int_file" Text (VNone) (None);
    mk_opt false "min-spc" "min_spc" Int (VInt (1)) (None);
    mk_opt false "max-spc" "max_spc" Int (VNone) (None);
    mk_opt false "spc-pruning-mode" "spc_pruning_mode" Text (VText "random") (Some ["random"; "first"; "last"]);
    mk_opt false "csplit-min-spc" "csplit_min_spc" Int (VNone) (None);
    mk_opt false "csplit-max-spc" "csplit_max_spc" Int (VNone) (None);
    mk_opt false "csplit-mode" "csplit_mode" Lower (VText "random") (Some ["sequential"; "random"; "random_1subclass"]);
    mk_opt false "csplit-overlap" "csplit_overlap" Float (VInt (0)) (None);
    mk_opt false "no-csplit-once" "csplit_once" SetFalse (VBool true) (None);
    mk_opt false "vcr-seed" "vcr_seed" Int (VInt (1024)) (None)]
  ["vlist_sep"; "class2int_file"; "min_spc"; "max_spc"; "spc_pruning_mode"; "csplit_min_spc"; "csplit_max_spc"; "csplit_mode"; "csplit_overlap"; "csplit_once"; "vcr_seed"]
  ["v_file"; "key_file"; "preproc"; "vlist_sep"; "class2int_file"; "min_spc"; "max_spc"; "spc_pruning_mode"; "csplit_min_spc"; "csplit_max_spc"; "csplit_mode"; "csplit_overlap"; "vcr_seed"; "csplit_once"] [].
(** helpers/vector_reader.py: VectorReader.__init__ (26-), filter_args (42-50), add_argparse_args (55-63) *)
Definition vector_reader : cls := mk_cls [
    mk_opt false "vlist-sep" "vlist_sep" Text (VText " ") (None)]
  ["v"; "l"; "i"; "s"; "t"; "_"; "s"; "e"; "p"]
  ["v_file"; "key_file"; "preproc"; "vlist_sep"] [].
(** io/audio_reader.py: SequentialAudioReader.__init__ (151-), filter_args (249-256), add_argparse_args (260-273) *)
Definition audio_reader : cls := mk_cls [
    mk_opt false "wav-scale" "wav_scale" Float (VFloat "2 ** 15") (None);
    mk_opt false "part-idx" "part_idx" Int (VInt (1)) (None);
    mk_opt false "num-parts" "num_parts" Int (VInt (1)) (None)]
  ["part_idx"; "num_parts"]
  ["file_path"; "segments_path"; "wav_scale"; "part_idx"; "num_parts"] [].
(** io/copy_feats.py: CopyFeats.__init__ (21-), filter_args (86-102), add_argparse_args (107-135) *)
Definition copy_feats : cls := mk_cls [
    mk_opt false "scp-sep" "scp_sep" Text (VText " ") (None);
    mk_opt false "path-prefix" "path_prefix" Text (VNone) (None);
    mk_opt false "part-idx" "part_idx" Int (VInt (1)) (None);
    mk_opt false "num-parts" "num_parts" Int (VInt (1)) (None);
    mk_opt true "compress" "compress" SetTrue (VBool false) (None);
    mk_opt true "compression-method" "compression_method" Text (VText "auto") (Some ["auto"; "speech-feat"; "2byte-auto"; "2byte-signed-integer"; "1byte-auto"; "1byte-unsigned-integer"; "1byte-0-1"])]
  ["scp_sep"; "path_prefix"; "part_idx"; "num_parts"]
  ["input_spec"; "output_spec"; "path_prefix"; "compress"; "compression_method"; "scp_sep"; "part_idx"; "num_parts"; "chunk_size"] [].
(** io/data_rw_factory.py: DataWriterFactory.create (39-), filter_args (61-68), add_argparse_args (73-85) *)
Definition writer_factory : cls := mk_cls [
    mk_opt false "scp-sep" "scp_sep" Text (VText " ") (None);
    mk_opt true "compress" "compress" SetTrue (VBool false) (None);
    mk_opt true "compression-method" "compression_method" Text (VText "auto") (Some ["auto"; "speech-feat"; "2byte-auto"; "2byte-signed-integer"; "1byte-auto"; "1byte-unsigned-integer"; "1byte-0-1"])]
  ["scp_sep"; "compress"; "compression_method"]
  ["wspecifier"; "compress"; "compression_method"; "scp_sep"] [].
(** io/data_rw_factory.py: SequentialDataReaderFactory.create (93-), filter_args (114-121), add_argparse_args (126-141) *)
Definition seq_reader_factory : cls := mk_cls [
    mk_opt false "scp-sep" "scp_sep" Text (VText " ") (None);
    mk_opt false "path-prefix" "path_prefix" Text (VNone) (None);
    mk_opt false "part-idx" "part_idx" Int (VInt (1)) (None);
    mk_opt false "num-parts" "num_parts" Int (VInt (1)) (None)]
  ["scp_sep"; "path_prefix"; "part_idx"; "num_parts"]
  ["rspecifier"; "path_prefix"; "scp_sep"; "part_idx"; "num_parts"] [].
(** io/data_rw_factory.py: RandomAccessDataReaderFactory.create (149-), filter_args (176-183), add_argparse_args (188-199) *)
Definition ra_reader_factory : cls := mk_cls [
    mk_opt false "scp-sep" "scp_sep" Text (VText " ") (None);
    mk_opt false "path-prefix" "path_prefix" Text (VNone) (None)]
  ["scp_sep"; "path_prefix"]
  ["rspecifier"; "path_prefix"; "transform"; "scp_sep"] [].
(** keras/embed/seq_embed.py: SeqEmbed.__init__ (29-), filter_args (342-350), add_argparse_args (355-372) *)
Definition seq_embed : cls := mk_cls [
    mk_opt false "pooling" "pooling" Text (VText "mean+std") (Some ["mean+std"; "mean+logvar"; "mean"]);
    mk_opt false "left-context" "left_context" Int (VInt (0)) (None);
    mk_opt false "right-context" "right_context" Int (VInt (0)) (None);
    mk_opt false "begin-context" "begin_context" Int (VNone) (None);
    mk_opt false "end-context" "end_context" Int (VNone) (None)]
  ["pooling"; "left_context"; "right_context"; "begin_context"; "end_context"]
  ["enc_net"; "pt_net"; "loss"; "pooling"; "left_context"; "right_context"; "begin_context"; "end_context"; "enc_downsampling"; "name"] [].
(** keras/embed/seq_embed_lde.py: SeqEmbedLDE.__init__ (30-), filter_args (367-375), add_argparse_args (380-401) *)
Definition seq_embed_lde : cls := mk_cls [
    mk_opt false "pooling" "pooling" Text (VText "lde") (Some ["mean+std"; "mean+logvar"; "mean"; "lde"]);
    mk_opt false "lde-num-comp" "num_comp" Int (VInt (64)) (None);
    mk_opt false "lde-order" "lde_order" Int (VInt (2)) (None);
    mk_opt false "left-context" "left_context" Int (VInt (0)) (None);
    mk_opt false "right-context" "right_context" Int (VInt (0)) (None);
    mk_opt false "begin-context" "begin_context" Int (VNone) (None);
    mk_opt false "end-context" "end_context" Int (VNone) (None)]
  ["pooling"; "num_comp"; "lde_order"; "left_context"; "right_context"; "begin_context"; "end_context"]
  ["enc_net"; "pt_net"; "loss"; "pooling"; "lde_net"; "num_comp"; "lde_order"; "left_context"; "right_context"; "begin_context"; "end_context"; "enc_downsampling"; "name"] [].
(** keras/embed/seq_q_embed.py: SeqQEmbed.__init__ (27-), filter_args (329-339), add_argparse_args (344-384) *)
Definition seq_q_embed : cls := mk_cls [
    mk_opt false "post-pdf" "post_pdf" Text (VText "diag_normal") (Some ["diag_normal"]);
    mk_opt false "pooling-input" "pooling_input" Text (VText "nat+logitvar") (Some ["nat+logitvar"; "nat+logprec-1"; "nat+logvar"; "nat+logprec"; "nat+var"; "nat+prec"; "nat+prec-1"; "mean+logitvar"; "mean+logprec-1"; "mean+logvar"; "mean+logprec"; "mean+var"; "mean+prec"; "mean+prec-1"]);
    mk_opt false "pooling-output" "pooling_output" Text (VText "nat+prec") (Some ["nat+logar"; "nat+logprec"; "nat+var"; "nat+prec"; "mean+logar"; "mean+logprec"; "mean+var"; "mean+prec"]);
    mk_opt false "min-var" "min_var" Float (VFloat "0.9") (None);
    mk_opt false "kl-weight" "kl_weight" Float (VInt (0)) (None);
    mk_opt false "frame-corr-penalty" "frame_corr_penalty" Float (VInt (1)) (None);
    mk_opt false "left-context" "left_context" Int (VInt (0)) (None);
    mk_opt false "right-context" "right_context" Int (VInt (0)) (None);
    mk_opt false "begin-context" "begin_context" Int (VNone) (None);
    mk_opt false "end-context" "end_context" Int (VNone) (None)]
  ["post_pdf"; "pooling_input"; "pooling_output"; "min_var"; "kl_weight"; "frame_corr_penalty"; "left_context"; "right_context"; "begin_context"; "end_context"]
  ["prepool_net"; "num_classes"; "score_net"; "post_pdf"; "pooling_input"; "pooling_output"; "left_context"; "right_context"; "begin_context"; "end_context"; "frame_corr_penalty"; "prepool_downsampling"; "min_var"; "kl_weight"; "name"] [].
(** keras/helpers/callbacks_factory.py: CallbacksFactory.create_callbacks (13-), filter_args (74-86), add_argparse_args (90-148) *)
Definition callbacks : cls := mk_cls [
    mk_opt false "monitor" "monitor" Text (VText "val_loss") (None);
    mk_opt false "lr-monitor" "lr_monitor" Text (VNone) (None);
    mk_opt false "monitor-mode" "monitor_mode" Text (VText "auto") (Some ["min"; "max"; "auto"]);
    mk_opt false "lr-monitor-mode" "lr_monitor_mode" Text (VText "auto") (Some ["min"; "max"; "auto"]);
    mk_opt false "patience" "patience" Int (VInt (100)) (None);
    mk_opt false "lr-patience" "lr_patience" Int (VInt (10)) (None);
    mk_opt false "lr-factor" "lr_factor" Float (VFloat "0.1") (None);
    mk_opt false "lr-red-factor" "lr_red_factor" Float (VNone) (None);
    mk_opt false "lr-inc-factor" "lr_inc_factor" Float (VNone) (None);
    mk_opt false "min-delta" "min_delta" Float (VFloat "0.0001") (None);
    mk_opt false "min-lr" "min_lr" Float (VFloat "1e-05") (None);
    mk_opt false "lr-steps" "lr_steps" Words (VNone) (None);
    mk_opt false "save-all-epochs" "save_all_epochs" SetTrue (VBool false) (None);
    mk_opt false "log-append" "log_append" SetTrue (VBool false) (None)]
  ["save_all_epochs"; "monitor_mode"; "lr_monitor_mode"; "monitor"; "patience"; "min_delta"; "lr_monitor"; "lr_steps"; "lr_patience"; "lr_factor"; "lr_red_factor"; "lr_inc_factor"; "min_lr"; "log_append"]
  ["model"; "file_path"; "save_all_epochs"; "monitor"; "monitor_mode"; "patience"; "min_delta"; "lr_steps"; "lr_monitor"; "lr_monitor_mode"; "lr_patience"; "lr_factor"; "lr_red_factor"; "lr_inc_factor"; "min_lr"; "log_append"] [].
(** keras/helpers/optimizer_factory.py: OptimizerFactory.create_optimizer (11-), filter_args (39-48), add_argparse_args (53-102) *)
Definition keras_optimizer : cls := mk_cls [
    mk_opt false "optimizer" "opt_type" Lower (VText "adam") (Some ["sgd"; "nsgd"; "rmsprop"; "adam"; "nadam"; "adamax"]);
    mk_opt false "lr" "lr" Float (VFloat "0.002") (None);
    mk_opt false "momentum" "momentum" Float (VFloat "0.6") (None);
    mk_opt false "lr-decay" "lr_decay" Float (VFloat "1e-06") (None);
    mk_opt false "rho" "rho" Float (VFloat "0.9") (None);
    mk_opt false "epsilon" "epsilon" Float (VFloat "1e-08") (None);
    mk_opt false "amsgrad" "amsgrad" SetTrue (VBool false) (None);
    mk_opt false "beta1" "beta_1" Float (VFloat "0.9") (None);
    mk_opt false "beta2" "beta_2" Float (VFloat "0.999") (None);
    mk_opt false "clipnorm" "clipnorm" Float (VInt (10)) (None);
    mk_opt false "clipvalue" "clipvalue" Float (VInt (100)) (None)]
  ["opt_type"; "lr"; "momentum"; "lr_decay"; "rho"; "epsilon"; "beta_1"; "beta_2"; "clipnorm"; "clipvalue"]
  ["opt_type"; "lr"; "momentum"; "lr_decay"; "rho"; "epsilon"; "beta_1"; "beta_2"; "clipnorm"; "clipvalue"; "amsgrad"] [].
(** keras/vae/tied_dvae_qy.py: TiedDVAE_QY.__init__ (29-), filter_args (321-331), add_argparse_args (336-376) *)
Definition tied_dvae : cls := mk_cls [
    mk_opt false "post-pdf" "post_pdf" Text (VText "diag_normal") (Some ["diag_normal"]);
    mk_opt false "pooling-input" "pooling_input" Text (VText "nat+logitvar") (Some ["nat+logitvar"; "nat+logprec-1"; "nat+logvar"; "nat+logprec"; "nat+var"; "nat+prec"; "nat+prec-1"; "mean+logitvar"; "mean+logprec-1"; "mean+logvar"; "mean+logprec"; "mean+var"; "mean+prec"; "mean+prec-1"]);
    mk_opt false "pooling-output" "pooling_output" Text (VText "mean+var") (Some ["nat+logar"; "nat+logprec"; "nat+var"; "nat+prec"; "mean+logar"; "mean+logprec"; "mean+var"; "mean+prec"]);
    mk_opt false "min-var" "min_var" Float (VFloat "0.9") (None);
    mk_opt false "kl-weight" "kl_weight" Float (VInt (0)) (None);
    mk_opt false "frame-corr-penalty" "frame_corr_penalty" Float (VInt (1)) (None);
    mk_opt false "left-context" "left_context" Int (VInt (0)) (None);
    mk_opt false "right-context" "right_context" Int (VInt (0)) (None);
    mk_opt false "begin-context" "begin_context" Int (VNone) (None);
    mk_opt false "end-context" "end_context" Int (VNone) (None)]
  ["post_pdf"; "pooling_input"; "pooling_output"; "min_var"; "kl_weight"; "frame_corr_penalty"; "left_context"; "right_context"; "begin_context"; "end_context"]
  ["qy_net"; "pt_net"; "loss"; "post_pdf"; "pooling_input"; "pooling_output"; "left_context"; "right_context"; "begin_context"; "end_context"; "frame_corr_penalty"; "prepool_downsampling"; "min_var"; "kl_weight"; "name"] [].
(** keras/vae/tied_sup_vae_qyqzgy.py: TiedSupVAE_QYQZgY.__init__ (31-), filter_args (493-508), add_argparse_args (513-583) *)
Definition tied_sup_vae : cls := mk_cls [
    mk_opt false "px-form" "px_form" Text (VText "normal_diag_cov") (Some ["normal_diag_cov"; "categorical"; "bernoulli"]);
    mk_opt false "pt-form" "pt_form" Text (VText "categorical") (Some ["categorical"; "bernoulli"]);
    mk_opt false "qy-form" "qy_form" Text (VText "normal_diag_cov") (Some ["normal_diag_cov"]);
    mk_opt false "qz-form" "qz_form" Text (VText "normal_diag_cov") (Some ["normal_diag_cov"]);
    mk_opt false "px-fmt" "px_fmt" Text (VText "mean+logvar") (Some ["mean+logvar"]);
    mk_opt false "qy-pool-in-fmt" "qy_pool_in_fmt" Text (VText "nat+logitvar") (Some ["nat+logitvar"; "nat+logprec-1"; "nat+logvar"; "nat+logprec"; "nat+var"; "nat+prec"; "nat+prec-1"; "mean+logitvar"; "mean+logprec-1"; "mean+logvar"; "mean+logprec"; "mean+var"; "mean+prec"; "mean+prec-1"]);
    mk_opt false "qy-pool-out-fmt" "qy_pool_out_fmt" Text (VText "mean+var") (Some ["nat+logvar"; "nat+logprec"; "nat+var"; "nat+prec"; "mean+logvar"; "mean+logprec"; "mean+var"; "mean+prec"]);
    mk_opt false "qz-fmt" "qz_fmt" Text (VText "nat+logitvar") (Some ["nat+logitvar"; "nat+logprec-1"; "nat+logvar"; "nat+logprec"; "nat+var"; "nat+prec"; "nat+prec-1"; "mean+logitvar"; "mean+logprec-1"; "mean+logvar"; "mean+logprec"; "mean+var"; "mean+prec"; "mean+prec-1"]);
    mk_opt false "qy-min-var" "qy_min_var" Float (VFloat "0.9") (None);
    mk_opt false "qz-min-var" "qz_min_var" Float (VFloat "0.1") (None);
    mk_opt false "pt-weight" "pt_weight" Float (VInt (1)) (None);
    mk_opt false "px-weight" "px_weight" Float (VInt (1)) (None);
    mk_opt false "kl-qy-weight" "kl_qy_weight" Float (VInt (1)) (None);
    mk_opt false "kl-qz-weight" "kl_qz_weight" Float (VInt (1)) (None);
    mk_opt false "frame-corr-penalty" "frame_corr_penalty" Float (VInt (1)) (None);
    mk_opt false "left-context" "left_context" Int (VInt (0)) (None);
    mk_opt false "right-context" "right_context" Int (VInt (0)) (None);
    mk_opt false "begin-context" "begin_context" Int (VNone) (None);
    mk_opt false "end-context" "end_context" Int (VNone) (None)]
  ["px_form"; "pt_form"; "qy_form"; "qz_form"; "px_fmt"; "qy_pool_in_fmt"; "qy_pool_out_fmt"; "qz_fmt"; "left_context"; "right_context"; "begin_context"; "end_context"; "qy_min_var"; "qz_min_var"; "px_weight"; "pt_weight"; "kl_qy_weight"; "kl_qz_weight"; "frame_corr_penalty"; "name"]
  ["px_net"; "qy_net"; "qz_net"; "pt_net"; "px_form"; "pt_form"; "qy_form"; "qz_form"; "px_fmt"; "pt_fmt"; "qy_pool_in_fmt"; "qy_pool_out_fmt"; "qz_fmt"; "left_context"; "right_context"; "begin_context"; "end_context"; "frame_corr_penalty"; "prepool_downsampling"; "qy_min_var"; "qz_min_var"; "px_weight"; "pt_weight"; "kl_qy_weight"; "kl_qz_weight"; "name"] [].
(** torch/helpers/optimizer_factory.py: OptimizerFactory.create (14-), filter_args (67-78), add_argparse_args (83-149) *)
Definition torch_optimizer : cls := mk_cls [
    mk_opt false "optimizer" "opt_type" Lower (VText "adam") (Some ["sgd"; "adam"; "adadelta"; "adagrad"; "sparse_adam"; "adamax"; "asgd"; "lbfgs"; "rmsprop"; "rprop"]);
    mk_opt false "lr" "lr" Float (VFloat "0.001") (None);
    mk_opt false "momentum" "momentum" Float (VFloat "0.6") (None);
    mk_opt false "beta1" "beta1" Float (VFloat "0.9") (None);
    mk_opt false "beta2" "beta2" Float (VFloat "0.99") (None);
    mk_opt false "rho" "rho" Float (VFloat "0.9") (None);
    mk_opt false "eps" "eps" Float (VFloat "1e-08") (None);
    mk_opt false "weight-decay" "weight_decay" Float (VFloat "1e-06") (None);
    mk_opt false "amsgrad" "amsgrad" SetTrue (VBool false) (None);
    mk_opt false "nesterov" "nesterov" SetTrue (VBool false) (None);
    mk_opt false "lambd" "lambd" Float (VFloat "0.0001") (None);
    mk_opt false "asgd-alpha" "asgd_alpha" Float (VFloat "0.75") (None);
    mk_opt false "t0" "t0" Float (VFloat "1000000.0") (None);
    mk_opt false "rmsprop-alpha" "rmsprop_alpha" Float (VFloat "0.99") (None);
    mk_opt false "centered" "centered" SetTrue (VBool false) (None);
    mk_opt false "lr-decay" "lr_decay" Float (VFloat "1e-06") (None);
    mk_opt false "init-acc-val" "init_acc_val" Float (VInt (0)) (None);
    mk_opt false "max-iter" "max_iter" Int (VInt (20)) (None)]
  ["opt_type"; "lr"; "momentum"; "beta1"; "beta2"; "rho"; "eps"; "weight_decay"; "amsgrad"; "nesterov"; "lambd"; "asgd_alpha"; "t0"; "rmsprop_alpha"; "centered"; "lr_decay"; "init_acc_val"; "max_iter"]
  ["params"; "opt_type"; "lr"; "momentum"; "beta1"; "beta2"; "rho"; "eps"; "weight_decay"; "amsgrad"; "nesterov"; "lambd"; "asgd_alpha"; "t0"; "rmsprop_alpha"; "centered"; "lr_decay"; "init_acc_val"; "max_iter"] [].
(** torch/lr_schedulers/factory.py: LRSchedulerFactory.create (17-), filter_args (56-69), add_argparse_args (74-152) *)
Definition lr_scheduler : cls := mk_cls [
    mk_opt false "lrsch-type" "lrsch_type" Lower (VText "none") (Some ["none"; "exp_lr"; "cos_lr"; "adamcos_lr"; "red_lr_on_plateau"]);
    mk_opt false "decay-rate" "decay_rate" Float (VFloat "1 / 100") (None);
    mk_opt false "decay-steps" "decay_steps" Int (VInt (100)) (None);
    mk_opt false "hold-steps" "hold_steps" Int (VInt (10)) (None);
    mk_opt false "t" "T" Int (VInt (10)) (None);
    mk_opt false "t-mul" "T_mul" Int (VInt (1)) (None);
    mk_opt false "gamma" "gamma" Float (VFloat "1 / 100") (None);
    mk_opt false "warm-restarts" "warm_restarts" SetTrue (VBool false) (None);
    mk_opt false "monitor" "monitor" Text (VText "val_loss") (None);
    mk_opt false "mode" "mode" Text (VText "min") (Some ["min"; "max"]);
    mk_opt false "factor" "factor" Float (VFloat "0.1") (None);
    mk_opt false "patience" "patience" Int (VInt (10)) (None);
    mk_opt false "threshold" "threshold" Float (VFloat "0.0001") (None);
    mk_opt false "threshold_mode" "threshold_mode" Text (VText "rel") (Some ["rel"; "abs"]);
    mk_opt false "cooldown" "cooldown" Int (VInt (0)) (None);
    mk_opt false "eps" "eps" Float (VFloat "1e-08") (None);
    mk_opt false "min-lr" "min_lr" Float (VInt (0)) (None);
    mk_opt false "warmup-steps" "warmup_steps" Int (VInt (0)) (None);
    mk_opt false "update-lr-on-batch" "update_lr_on_batch" SetTrue (VBool false) (None)]
  ["lrsch_type"; "decay_rate"; "decay_steps"; "hold_steps"; "T"; "T_mul"; "warm_restarts"; "gamma"; "monitor"; "mode"; "factor"; "patience"; "threshold"; "threshold_mode"; "cooldown"; "eps"; "min_lr"; "warmup_steps"; "update_lr_on_batch"]
  ["optimizer"; "lrsch_type"; "decay_rate"; "decay_steps"; "hold_steps"; "T"; "T_mul"; "warm_restarts"; "gamma"; "monitor"; "mode"; "factor"; "patience"; "threshold"; "threshold_mode"; "cooldown"; "eps"; "min_lr"; "warmup_steps"; "update_lr_on_batch"] [].
(** transforms/cent_whiten.py: CentWhiten.__init__ (21-), filter_args (113-121), add_argparse_args (126-142) *)
Definition cent_whiten : cls := mk_cls [
    mk_opt false "update-mu" "update_mu" Bool (VBool true) (None);
    mk_opt false "update-t" "update_T" Bool (VBool true) (None);
    mk_opt true "name" "name" Text (VText "lnorm") (None)]
  ["update_mu"; "update_T"; "name"]
  ["mu"; "T"; "update_mu"; "update_T"; "name"] [].
(** transforms/gaussianizer.py: Gaussianizer.__init__ (25-), filter_args (98-106), add_argparse_args (111-123) *)
Definition gaussianizer : cls := mk_cls [
    mk_opt false "max-vectors" "max_vectors" Int (VNone) (None);
    mk_opt true "name" "name" Text (VText "gauss") (None)]
  ["max_vectors"; "name"]
  ["max_vectors"; "r"; "name"] [].
(** transforms/pca.py: PCA.__init__ (22-), filter_args (109-117), add_argparse_args (121-139) *)
Definition pca : cls := mk_cls [
    mk_opt false "update-mu" "update_mu" Bool (VBool true) (None);
    mk_opt false "update-t" "update_T" Bool (VBool true) (None);
    mk_opt false "pca-dim" "pca_dim" Int (VNone) (None);
    mk_opt true "name" "name" Text (VText "pca") (None)]
  ["update_mu"; "update_T"; "name"; "pca_dim"]
  ["mu"; "T"; "update_mu"; "update_T"; "pca_dim"; "name"] [].