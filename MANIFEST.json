{
 "claims": [
  {
   "property": "C01",
   "status": "proved",
   "theorems": [
    "C01_CH_incremental_is_batch"
   ],
   "note": "exact arithmetic with inf and nan, finite features"
  },
  {
   "property": "C02",
   "status": "proved",
   "theorems": [
    "C02_WB_incremental_is_batch"
   ],
   "note": "exact arithmetic with inf and nan, finite features"
  },
  {
   "property": "C03",
   "status": "proved",
   "theorems": [
    "C03_DB_incremental_is_batch"
   ],
   "note": "exact arithmetic with inf and nan, finite features"
  },
  {
   "property": "C04",
   "status": "proved",
   "theorems": [
    "C04_XB_incremental_is_batch"
   ],
   "note": "exact arithmetic with inf and nan, finite features"
  },
  {
   "property": "C05",
   "status": "proved",
   "theorems": [
    "C05_GD43_incremental_is_batch"
   ],
   "note": "exact arithmetic with inf and nan, finite features"
  },
  {
   "property": "C06",
   "status": "proved",
   "theorems": [
    "C06_GD53_incremental_is_batch"
   ],
   "note": "exact arithmetic with inf and nan, finite features"
  },
  {
   "property": "C07",
   "status": "proved",
   "theorems": [
    "C07_PS_incremental_is_batch"
   ],
   "note": "exact arithmetic with inf and nan, finite features"
  },
  {
   "property": "C08",
   "status": "proved",
   "theorems": [
    "C08_rCIP_incremental_is_batch"
   ],
   "note": "exact arithmetic with inf and nan, finite features; at least one feature"
  },
  {
   "property": "C09",
   "status": "partial",
   "theorems": [
    "C09_cSIL_incremental_is_batch_refuted",
    "C09_cSIL_binary64_refuted",
    "C53_cSIL_streams"
   ],
   "note": "FALSE of the code: refuted in exact arithmetic and in binary64; C53 gives the value cSIL really returns on every stream"
  },
  {
   "property": "C10",
   "status": "partial",
   "theorems": [
    "C10_order_of_samples_partial",
    "C10_cSIL_order_of_samples_refuted"
   ],
   "note": "proved for the eight other classes; FALSE of cSIL (witness)"
  },
  {
   "property": "C100",
   "status": "proved",
   "theorems": [
    "C100_rCIP",
    "C100_PS",
    "C100_example"
   ],
   "note": "Arithmetic XR. Data in C100_example."
  },
  {
   "property": "C101",
   "status": "proved",
   "theorems": [
    "C101_batch",
    "C101_stream",
    "C101_example",
    "C101_exact",
    "C101_exact_example"
   ],
   "note": "C101_batch and C101_stream: arithmetic F64o, any_order, exp_range. C101_exact: arithmetic XR."
  },
  {
   "property": "C102",
   "status": "partial",
   "theorems": [
    "C102_XB",
    "C102_GD43",
    "C102_CH",
    "C102_WB",
    "C102_DB",
    "C102_example",
    "C102_GD53_refuted"
   ],
   "note": "Proved of CH, WB, DB, XB and GD43. FALSE of GD53: clusters -1, 1 | 10, 14 give 5/16, with a sample 0 in the first cluster 1/4 (C102_GD53_refuted). Arithmetic XR."
  },
  {
   "property": "C103",
   "status": "partial",
   "theorems": [
    "C103_exact",
    "C103_exact_example",
    "C103_batch",
    "C103_example",
    "C103_streams_kept",
    "C103_streams_two",
    "C103_streams_example",
    "C103_streams_refuted",
    "C103_fractions_refuted"
   ],
   "note": "Proved in exact arithmetic of batches and streams (C103_exact, arithmetic XR). In binary64: proved of batches of integers z with |z| * (number of samples) <= 2^53 (arithmetic F64o, any_order), and of streams when every feature is kept by the averages of its cluster (C103_streams_kept), as integers up to 2^53 with at most two samples in a cluster are (C103_streams_two). FALSE of streams, of integers too: the running mean of 15, 15, 15 is not 15 (C103_streams_refuted). FALSE of batches of fractions: 0.1, 0.1, 0.1 | 0 (C103_fractions_refuted)."
  },
  {
   "property": "C11",
   "status": "proved",
   "theorems": [
    "C11_label_names_are_irrelevant"
   ],
   "note": "every history of calls (failing ones included), every class, every arithmetic"
  },
  {
   "property": "C12",
   "status": "proved",
   "theorems": [
    "C12_batch_invariance"
   ],
   "note": "all nine classes; exact arithmetic, finite features"
  },
  {
   "property": "C13",
   "status": "partial",
   "theorems": [
    "C13_any_labels_in_batches_refuted",
    "C13_contiguous_labels_agree",
    "C13_other_labels_give_nan",
    "C13_PS_without_labels_in_range_raises"
   ],
   "note": "FALSE of the code: a batch whose labels are not exactly 0..k-1 returns nan (binary64 witness for six classes). Complete characterisation in exact arithmetic: labels 0..k-1 agree with the stream (cSIL apart, see C10), every other label set with at least two values gives nan in every class, except PS which raises ZeroDivisionError when no label is in range."
  },
  {
   "property": "C14",
   "status": "proved",
   "theorems": [
    "C14_zero_until_second_label",
    "C14_zero_stream",
    "C14_batch_single_label"
   ],
   "note": "every class, every arithmetic; first theorem needs no shape hypothesis"
  },
  {
   "property": "C15",
   "status": "proved",
   "theorems": [
    "C15_rejected_calls_have_no_effect"
   ],
   "note": "every class, every history before and after"
  },
  {
   "property": "C16",
   "status": "proved",
   "theorems": [
    "C16_used_objects_refuse_batches"
   ],
   "note": "every class, every history"
  },
  {
   "property": "C17",
   "status": "partial",
   "theorems": [
    "C17_refused_after_batch_refuted",
    "C17_four_classes_refuse_for_ever",
    "C17_five_classes_continue",
    "C17_five_classes_right_if_in_order"
   ],
   "note": "FALSE of the code for DB, GD43, GD53, PS, rCIP: they accept samples after a batch and number the stream's labels afresh (binary64 witness: a sample labelled 1 is merged into cluster 0). Exactly what they compute is proved for every batch and stream in exact arithmetic. CH, WB, XB, cSIL refuse every later call for ever, every arithmetic."
  },
  {
   "property": "C18",
   "status": "proved",
   "theorems": [
    "C18_rectangular_streams_never_raise"
   ],
   "note": "every class, every arithmetic; rCIP needs at least one feature and an inverse that never raises"
  },
  {
   "property": "C19",
   "status": "proved",
   "theorems": [
    "C19_returned_value_is_attribute",
    "C19_failing_call_keeps_value"
   ],
   "note": "every object, reachable or not"
  },
  {
   "property": "C20",
   "status": "proved",
   "theorems": [
    "C20_samples_counted_once"
   ],
   "note": "every class, every arithmetic"
  },
  {
   "property": "C21",
   "status": "partial",
   "theorems": [
    "C21_refuted",
    "C21_length_one_refuted",
    "C21_known_label_leaves_no_trace",
    "C21_new_label_leaves_only_its_label",
    "C21_next_new_label_is_refused",
    "C21_next_new_label_is_split"
   ],
   "note": "FALSE of the code: the label of a rejected sample stays in the label map (C21_refuted, every class). Proved for every arithmetic: a rejected sample with a known label leaves no trace; one with a new label leaves only that label, which nothing can observe until another new label arrives; then seven classes raise IndexError on a good sample and CH, WB split the new label over two clusters. Lengths where length one is involved leave traces of their own (C21_length_one_refuted)."
  },
  {
   "property": "C22",
   "status": "partial",
   "theorems": [
    "C22_refuted",
    "C22_wrong_length_raises_unless",
    "C22_one_number_is_every_coordinate"
   ],
   "note": "FALSE of the code: a sample of length 1 with a known label is broadcast. Proved for every arithmetic: that is the only exception, and (except in cSIL) the call is the same as with the number repeated d times."
  },
  {
   "property": "C23",
   "status": "proved",
   "theorems": [
    "C23_CH_formula",
    "C23_CH_formula_streams"
   ],
   "note": "exact arithmetic, finite features; batches with labels 0..k-1 and every stream at every prefix; hypothesis = exactly the data on which the published formula divides by no zero (C39 covers the rest)."
  },
  {
   "property": "C24",
   "status": "proved",
   "theorems": [
    "C24_WB_formula",
    "C24_WB_formula_streams"
   ],
   "note": "exact arithmetic, finite features; batches with labels 0..k-1 and every stream at every prefix; hypothesis = exactly the data on which the published formula divides by no zero (C39 covers the rest)."
  },
  {
   "property": "C25",
   "status": "proved",
   "theorems": [
    "C25_DB_formula",
    "C25_DB_formula_streams"
   ],
   "note": "exact arithmetic, finite features; batches with labels 0..k-1 and every stream at every prefix; hypothesis = exactly the data on which the published formula divides by no zero (C39 covers the rest)."
  },
  {
   "property": "C26",
   "status": "proved",
   "theorems": [
    "C26_XB_formula",
    "C26_XB_formula_streams"
   ],
   "note": "exact arithmetic, finite features; batches with labels 0..k-1 and every stream at every prefix; hypothesis = exactly the data on which the published formula divides by no zero (C39 covers the rest)."
  },
  {
   "property": "C27",
   "status": "proved",
   "theorems": [
    "C27_GD43_formula",
    "C27_GD43_formula_streams"
   ],
   "note": "exact arithmetic, finite features; batches with labels 0..k-1 and every stream at every prefix; hypothesis = exactly the data on which the published formula divides by no zero (C39 covers the rest)."
  },
  {
   "property": "C28",
   "status": "proved",
   "theorems": [
    "C28_GD53_formula",
    "C28_GD53_formula_streams"
   ],
   "note": "exact arithmetic, finite features; batches with labels 0..k-1 and every stream at every prefix; hypothesis = exactly the data on which the published formula divides by no zero (C39 covers the rest)."
  },
  {
   "property": "C29",
   "status": "proved",
   "theorems": [
    "C29_PS_formula",
    "C29_PS_formula_streams"
   ],
   "note": "exact arithmetic, finite features; batches with labels 0..k-1 and every stream at every prefix; hypothesis = exactly the data on which the published formula divides by no zero (C39 covers the rest)."
  },
  {
   "property": "C30",
   "status": "proved",
   "theorems": [
    "C30_cSIL_formula"
   ],
   "note": "exact arithmetic, finite features; batches with labels 0..k-1 (streams of cSIL: C53); hypothesis = exactly the data on which the published formula divides by no zero (C39 covers the rest)."
  },
  {
   "property": "C31",
   "status": "proved",
   "theorems": [
    "C31_rCIP_formula",
    "C31_rCIP_formula_streams"
   ],
   "note": "exact arithmetic, finite features; batches with labels 0..k-1 and every stream at every prefix; hypothesis = exactly the data on which the published formula divides by no zero (C39 covers the rest)."
  },
  {
   "property": "C32",
   "status": "proved",
   "theorems": [
    "C32_nonnegative"
   ],
   "note": "exact arithmetic; nan, +inf or a non-negative real, batch and streams."
  },
  {
   "property": "C33",
   "status": "proved",
   "theorems": [
    "C33_GD53_at_most_half"
   ],
   "note": "exact arithmetic; batch and streams."
  },
  {
   "property": "C34",
   "status": "partial",
   "theorems": [
    "C34_cSIL_bounds_partial",
    "C34_cSIL_streams_refuted"
   ],
   "note": "Proved of batches. FALSE of the code on streams: the incremental cSIL returns -71/16."
  },
  {
   "property": "C35",
   "status": "proved",
   "theorems": [
    "C35_PS_bounds"
   ],
   "note": "exact arithmetic; batch and streams."
  },
  {
   "property": "C36",
   "status": "partial",
   "theorems": [
    "C36_translation_batch",
    "C36_translation_streams_partial",
    "C36_cSIL_translation_refuted"
   ],
   "note": "Proved of all batches and of streams of the eight other classes. FALSE of cSIL's streams."
  },
  {
   "property": "C37",
   "status": "partial",
   "theorems": [
    "C37_units_batch",
    "C37_units_streams",
    "C37_GD43_law_batch",
    "C37_GD43_law_streams",
    "C37_GD43_units_refuted"
   ],
   "note": "exact arithmetic; proved for the seven classes named; FALSE for GD43 (witness), whose exact law is value divided by |u|; rCIP is not in the claim."
  },
  {
   "property": "C38",
   "status": "proved",
   "theorems": [
    "C38_CH_times_WB",
    "C38_total_scatter"
   ],
   "note": "exact arithmetic; batch and streams."
  },
  {
   "property": "C39",
   "status": "proved",
   "theorems": [
    "C39_case_analysis",
    "C39_case_analysis_cSIL_batch",
    "C39_case_analysis_cSIL_streams",
    "C39_second_sample"
   ],
   "note": "exact arithmetic: complete case tables for all nine classes; every row is met by an example."
  },
  {
   "property": "C40",
   "status": "partial",
   "theorems": [
    "C40_refuted",
    "C40_caller_arrays_never_written",
    "C40_later_writes_not_seen",
    "C40_first_array_left_alone",
    "C40_until_a_call_returns",
    "C40_after_a_batch"
   ],
   "note": "FALSE of CH and WB: _setup stores the caller's array as _mu, so refilling the buffer of the first sample changes later values. Proved for every arithmetic and every interleaving: get_cvi writes to no array of the caller; the other seven classes never show later writes; CH and WB are safe if the array of the first call is left alone until another call has returned, or if the object starts with a batch."
  },
  {
   "property": "C41",
   "status": "partial",
   "theorems": [
    "C41_wrong_number_of_labels_refuted",
    "C41_six_classes_ignore_unlabelled_rows",
    "C41_CH_WB_XB_mix",
    "C41_too_many_labels",
    "C41_extra_label_in_range_raises"
   ],
   "note": "FALSE of the code: with fewer labels than rows every class returns a value. Proved: six classes ignore the unlabelled rows (every arithmetic); closed forms of CH, WB, XB (exact arithmetic); with more labels than rows the call raises or returns nan, never a number."
  },
  {
   "property": "C42",
   "status": "partial",
   "theorems": [
    "C42_failed_batch_can_be_retried_refuted",
    "C42_one_attempt_only",
    "C42_label_errors_can_be_retried"
   ],
   "note": "FALSE of the code: a batch with two or more distinct labels uses the object up even if it raises (every class, every arithmetic, every later history). Batches refused for having fewer than two distinct labels can be retried."
  },
  {
   "property": "C43",
   "status": "proved",
   "theorems": [
    "C43_nothing_shared",
    "C43_writes_are_private",
    "C43_interleaving",
    "C43_interleaving_no_writes"
   ],
   "note": ""
  },
  {
   "property": "C44",
   "status": "partial",
   "theorems": [
    "C44_refuted",
    "C44_eight_classes_binary64",
    "C44_eight_classes_exact",
    "C44_GD53_from_the_second_sample",
    "C44_batches_binary64",
    "C44_batches_exact"
   ],
   "note": "FALSE of GD53: a nan sample that starts a cluster is masked until a second sample joins that cluster (C44_refuted). Proved: the other eight classes return nan at once and for ever in binary64 with the sums in any order (given exp(nan) = nan) and in exact arithmetic with nan; GD53 from the second sample of that cluster on; a batch containing a nan gives nan in all nine classes."
  },
  {
   "property": "C45",
   "status": "partial",
   "theorems": [
    "C45_refuted",
    "C45_returns_only_zero_exact",
    "C45_returns_only_zero_binary64",
    "C45_every_call_returns",
    "C45_recent_numpy"
   ],
   "note": "FALSE of the code: every value iPS returns is 0, for every stream and whatever np.sum does with a generator; PS itself is not 0 on the witness. With a NumPy that sums generators every call returns; with one that refuses them, no call returns once there are two clusters."
  },
  {
   "property": "C46",
   "status": "partial",
   "theorems": [
    "C46_refuted",
    "C46_only_new_clusters_return",
    "C46_seen_label_raises"
   ],
   "note": "FALSE of the code: a call with a label already accepted raises AttributeError, after changing the centre and the size; only calls that start a new cluster return."
  },
  {
   "property": "C47",
   "status": "partial",
   "theorems": [
    "C47_refuted",
    "C47_what_a_call_does",
    "C47_seen_label_raises",
    "C47_returns_only_zero"
   ],
   "note": "FALSE of the code: an update of an existing cluster raises in every reachable state, and every value returned is 0."
  },
  {
   "property": "C48",
   "status": "partial",
   "theorems": [
    "C48_refuted",
    "C48_first_update",
    "C48_what_is_written",
    "C48_one_cluster_never_returns",
    "C48_new_cluster_is_nan_exact",
    "C48_new_cluster_is_nan_binary64"
   ],
   "note": "FALSE of the code: the first update never returns, and the arrays that started clusters are written to by later updates; C48_what_is_written says which. A one-cluster history never returns; a new cluster gives nan."
  },
  {
   "property": "C49",
   "status": "partial",
   "theorems": [
    "C49_refuted",
    "C49_zero_labels_never_merge",
    "C49_number_of_clusters",
    "C49_positive_labels"
   ],
   "note": "FALSE of the code: each sample with label 0 starts a new cluster; positive labels do merge, as C49_positive_labels says."
  },
  {
   "property": "C50",
   "status": "partial",
   "theorems": [
    "C50_refuted",
    "C50_iXB_and_XB",
    "C50_never_smaller",
    "C50_agree_iff",
    "C50_one_cluster",
    "C50_which_calls_return",
    "C50_nan_binary64"
   ],
   "note": "FALSE of the code: iXB divides by the smallest centroid distance there ever was, XB by the smallest there is (C50_iXB_and_XB); iXB is never smaller than XB, and C50_agree_iff says when they agree. In binary64 rounding can make iXB nan where XB is 0."
  },
  {
   "property": "C51",
   "status": "proved",
   "theorems": [
    "C51_seven_names",
    "C51_every_other_string"
   ],
   "note": ""
  },
  {
   "property": "C52",
   "status": "partial",
   "theorems": [
    "C52_mean",
    "C52_other_length",
    "C52_distances",
    "C52_distances_empty",
    "C52_box_at_most_one",
    "C52_box_range",
    "C52_box_refuted",
    "C52_from_list",
    "C52_from_list_refuted"
   ],
   "note": "The mean part holds (C52_mean). FALSE of the code: a Cluster in box mode accepts at most one point, ever; from_list raises on any non-empty data."
  },
  {
   "property": "C53",
   "status": "proved",
   "theorems": [
    "C53_cSIL_streams"
   ],
   "note": "every stream and prefix; exact arithmetic, finite features"
  },
  {
   "property": "C54",
   "status": "proved",
   "theorems": [
    "C54_base_class_refuses",
    "C54_which_exception"
   ],
   "note": "Every arithmetic, every history; which exception is raised is stated too."
  },
  {
   "property": "C55",
   "status": "proved",
   "theorems": [
    "C55_numbers",
    "C55_same_number_iff",
    "C55_consecutive"
   ],
   "note": ""
  },
  {
   "property": "C56",
   "status": "proved",
   "theorems": [
    "C56_rotation_batch",
    "C56_rotation_streams",
    "C56_order_of_features"
   ],
   "note": "Exact arithmetic, all nine classes, both modes. For rCIP this needs the determinant of a product (DetMul.v)."
  },
  {
   "property": "C57",
   "status": "partial",
   "theorems": [
    "C57_repeated_batch",
    "C57_repeated_streams_partial",
    "C57_CH_law",
    "C57_CH_law_streams",
    "C57_rCIP_refuted",
    "C57_cSIL_streams_refuted"
   ],
   "note": "Proved of batches of WB, DB, XB, GD43, GD53, PS, cSIL and of the streams of the first six; the law for CH is proved of both modes; FALSE of rCIP, whose covariances divide by n-1, and of cSIL's streams (witnesses)."
  },
  {
   "property": "C58",
   "status": "partial",
   "theorems": [
    "C58_constant_feature_batch_partial",
    "C58_constant_feature_streams_partial",
    "C58_rCIP_refuted",
    "C58_cSIL_streams_refuted"
   ],
   "note": "Proved of batches of the eight classes other than rCIP and of the streams of seven (of cSIL's if the constant is 0). FALSE of rCIP, whose regularisation depends on the number of features, and of cSIL's streams (witnesses)."
  },
  {
   "property": "C59",
   "status": "partial",
   "theorems": [
    "C59_batches",
    "C59_streams_refuted"
   ],
   "note": "Proved of every batch call in binary64. FALSE of streams of CH, WB, XB and GD43: underflow can make the updated compactness negative (witness near 7.7e-147; the batch calls return +0 and +inf on it)."
  },
  {
   "property": "C60",
   "status": "proved",
   "theorems": [
    "C60_stream_centroids",
    "C60_stream_mean",
    "C60_batch_centroids",
    "C60_modes_agree"
   ],
   "note": "All nine classes, binary64 with the sums in any order (F64o.v); the last two theorems are about streams and batches of the same samples. The bridge to real numbers is Flocq (Rnd.v), which adds no axiom."
  },
  {
   "property": "C61",
   "status": "proved",
   "theorems": [
    "C61_stream_compactness",
    "C61_batch_compactness",
    "C61_modes_agree"
   ],
   "note": "The six classes that keep compactness and gradient, binary64 with the sums in any order."
  },
  {
   "property": "C62",
   "status": "proved",
   "theorems": [
    "C62_stream_CH",
    "C62_batch_CH",
    "C62_stream_WB",
    "C62_batch_WB",
    "C62_modes_agree"
   ],
   "note": "Compared with CH_formula and WB_formula of Spec.v on the exact values of the samples. C62_needs_scatter: without the condition on the scatter both modes can return half of CH (samples 0 | 2^52, 2^52+1)."
  },
  {
   "property": "C63",
   "status": "partial",
   "theorems": [
    "C63_new_cluster",
    "C63_seen_cluster",
    "C63_refuted"
   ],
   "note": "Holds of s_ij_new_cluster and of three branches of s_ij_new. FALSE of the branch i != J, j == J: it returns the mean plus |v_i|^2 / n_j. s_ij_new_cluster is the right one and is never called."
  },
  {
   "property": "C64",
   "status": "partial",
   "theorems": [
    "C64_two_or_more_features",
    "C64_one_feature",
    "C64_coded",
    "C64_empty",
    "C64_refuted"
   ],
   "note": "FALSE of the code: the box has 2d numbers and the point d, so with two or more features the call raises ValueError; with one feature it is false of the cluster's own point when that is below 1/2. Given the complement-coded point it is true exactly of the point held."
  },
  {
   "property": "C65",
   "status": "proved",
   "theorems": [
    "C65_stream",
    "C65_batch",
    "C65_modes_agree"
   ],
   "note": "Compared with the formulas of Spec.v on the exact values of the samples. C65_needs_separation: without the condition XB and DB return inf and GD43 returns 0 in both modes where the true values are 2/3, 1 and 1 (samples 2^52 | 2^52, 2^52+1)."
  },
  {
   "property": "C66",
   "status": "partial",
   "theorems": [
    "C66_cSIL_batch",
    "C66_PS_batch",
    "C66_PS_stream",
    "C66_GD53_batch",
    "C66_GD53_refuted"
   ],
   "note": "Proved of cSIL and PS, for every order of the sums. FALSE of GD53 by one unit in the last place: clusters -a, a | -b, 0, b give 1/2 + 2^-53. C66_GD53_batch proves that 1/2 + 2^-52 is never exceeded (apart from +inf when sums of two compactnesses overflow, and when every spread is below 2^-960)."
  },
  {
   "property": "C67",
   "status": "partial",
   "theorems": [
    "C67_stream",
    "C67_batch_refuted"
   ],
   "note": "Proved of streams. FALSE of batches: the samples 10^8, 10^8 + 2, 10^8 + 3 | 10^8 + 10 give the variance -1.999... and the value nan, whatever the exponential; the stream gives 2.333... and a number."
  },
  {
   "property": "C68",
   "status": "proved",
   "theorems": [
    "C68_stream",
    "C68_batch",
    "C68_modes_agree"
   ],
   "note": "The exponential of the library enters through its error tau on numbers that are not positive. C68_needs_separation: without the condition the computed centroids can coincide and both modes return nan (samples 2^52 | 2^52, 2^52+1)."
  },
  {
   "property": "C69",
   "status": "partial",
   "theorems": [
    "C69_streams_exact",
    "C69_batches_exact",
    "C69_streams_binary64",
    "C69_batches_binary64",
    "C69_cSIL_uint8_refuted",
    "C69_cSIL_int64_refuted",
    "C69_cSIL_overflow_refuted",
    "C69_rCIP_uint8_refuted"
   ],
   "note": "FALSE of streams of cSIL and batches of rCIP, which wrap around: on uint8 grey values cSIL returns 1.22 and rCIP nan, on int64 data of 2^32 cSIL returns nan, and with NumPy 2 cSIL raises OverflowError after 128 samples of int8 in a cluster. Proved for them with entries between -B and B as long as 2 N d B^2 (rCIP: N B^2) is at most the largest number of the dtype, and in binary64 at most 2^53. For the other classes and modes the model is that of the converted numbers by reading the source, so the theorem says nothing beyond the model there."
  },
  {
   "property": "C70",
   "status": "proved",
   "theorems": [
    "C70_batch"
   ],
   "note": "C70_needs_separation: without the condition on the separation the value can be off by 1/2 (samples 2^52 | 2^52, 2^52+1: true value 1/2, returned 0). Streams of cSIL are not covered: what they return is not the formula even in exact arithmetic (C09, C53)."
  },
  {
   "property": "C71",
   "status": "proved",
   "theorems": [
    "C71_stream"
   ],
   "note": "C71_example: with 2 labels and 2 features the same number of cells after 5 and after 20 samples, equal to the bound for CH, WB, DB, PS, rCIP and cSIL."
  },
  {
   "property": "C72",
   "status": "proved",
   "theorems": [
    "C72_reproducible"
   ],
   "note": "C72_example: 0, 0, 5 | 10 as a stream and 10 | 5, 0, 0 as a batch give two different values of XB."
  },
  {
   "property": "C73",
   "status": "partial",
   "theorems": [
    "C73_value",
    "C73_agree_iff",
    "C73_refuted"
   ],
   "note": "C73_value says what every call returns: the formula with the within sum of the clusters but a between sum whose terms are taken about the mean of the samples seen when their label was given last, 0 if it never was. C73_agree_iff: right exactly when that sum is the between sum. C73_refuted: 0, 2, 4 labelled 0, 0, 1 give 3/2 where the index is 3; 0, 2, 0 give 11/18 where it is 1/3."
  },
  {
   "property": "C74",
   "status": "partial",
   "theorems": [
    "C74_batch_partial",
    "C74_streams_partial",
    "C74_refuted",
    "C74_GD53_blind_batch",
    "C74_GD53_blind_streams",
    "C74_cSIL_streams_refuted"
   ],
   "note": "The laws hold for the seven; GD53 and PS are unchanged (C74_refuted has a witness with centroids ten times as far apart). C74_GD53_blind: moving each cluster by any vector of its own changes no value of GD53, for a batch or at any step of a stream. FALSE of streams of cSIL: 0, 1 | 0, 2 fed in turn give -1/4, and -12/5 with the centroids twice as far apart (C74_cSIL_streams_refuted)."
  },
  {
   "property": "C75",
   "status": "partial",
   "theorems": [
    "C75_batch_partial",
    "C75_streams_partial",
    "C75_rCIP_refuted",
    "C75_cSIL_streams_refuted"
   ],
   "note": "Proved of the eight other classes (cSIL: batches). FALSE of streams of cSIL: 0, 1 | 0, 2 fed in turn give -1/4, and -12/5 when the clusters are halved. FALSE of rCIP: when clusters overlap, tightening them raises it (two clusters with one centroid)."
  },
  {
   "property": "C76",
   "status": "partial",
   "theorems": [
    "C76_refuted",
    "C76_refuted_values",
    "C76_four_classes_binary64",
    "C76_four_classes_exact",
    "C76_from_the_second_sample_binary64",
    "C76_from_the_second_sample_exact",
    "C76_batches_binary64",
    "C76_batches_exact"
   ],
   "note": "FALSE of DB, XB, GD43 and GD53 fed one sample at a time: a sample with an infinity that starts a cluster is masked until a second sample joins that cluster; with two clusters DB and XB then report the best possible value 0, GD43 infinity (C76_refuted, C76_refuted_values). Proved: CH, WB, PS and cSIL return nan at once and for ever, the other four from the second sample of that cluster on, and every batch gives nan; in binary64 with the sums in any order (given exp(nan) = nan) and in exact arithmetic. rCIP is not covered."
  },
  {
   "property": "C77",
   "status": "proved",
   "theorems": [
    "C77_parts_fit_the_value",
    "C77_streams",
    "C77_batches",
    "C77_modules"
   ],
   "note": "First part: any Arith, any object state, any call that returns a value (Fits, CompSpec.v). Second part: exact arithmetic, finite features, clusters in the order of the object's own label map (streams) or 0..k-1 (batches) (Parts, CompSpec.v). Streams of cSIL have the first part only."
  },
  {
   "property": "C78",
   "status": "partial",
   "theorems": [
    "C78_stream_centroids",
    "C78_stream_mean",
    "C78_batch_centroids",
    "C78_nan_stream",
    "C78_nan_batch",
    "C78_stream_refuted",
    "C78_cSIL_refuted",
    "C78_batch_refuted",
    "C78_large_batches_refuted"
   ],
   "note": "The equality with float64 data is refuted. Proved: error bounds of the stored centroids (streams and batches) and of the mean of all samples (streams), and that nan is absorbing. Arithmetic F32d (F32d.v); C78_large_batches_refuted is for rows added one after the other."
  },
  {
   "property": "C79",
   "status": "proved",
   "theorems": [
    "C79_stream_compactness",
    "C79_batch_compactness",
    "C79_stream_CH",
    "C79_stream_WB",
    "C79_batch_CH",
    "C79_batch_WB"
   ],
   "note": "Arithmetic F32d (F32d.v). C79_example: 0, 0, 5 | 10 as float32; the compactness 50/3 is kept within 2^-45, the values of WB of both modes are off by more than 2^-28."
  },
  {
   "property": "C80",
   "status": "proved",
   "theorems": [
    "C80_stream",
    "C80_batch",
    "C80_modes_agree",
    "C80_needs_separation"
   ],
   "note": "Arithmetic F32d. C80_example: 0, 0, 5 | 10 as float32, all hypotheses hold for the four classes, XB and DB of the two modes differ by more than 2^-31 and lie on both sides of the true value. C80_needs_separation: for 2^23 | 2^23, 2^23 + 1 as float32 a batch returns an infinite XB and DB and GD43 = 0, a stream (and float64 data in both modes) 2/3, 1 and 1."
  },
  {
   "property": "C81",
   "status": "partial",
   "theorems": [
    "C81_compactness",
    "C81_new_label",
    "C81_sums",
    "C81_CH_choice",
    "C81_WB_choice",
    "C81_nearest_equal_sizes_partial",
    "C81_nearest_refuted"
   ],
   "note": "Arithmetic XR. The increments are proved; the preference is not for the nearest centroid but for the smallest n/(n+1)*|x-v|^2 (C81_CH_choice, C81_WB_choice, both directions). C81_nearest_refuted: -5, 5 | 25 and the next sample 12, nearer to 0, which CH and WB want in the cluster of 25. C81_hypotheses: the compactness before and after for the same data."
  },
  {
   "property": "C82",
   "status": "proved",
   "theorems": [
    "C82_sums",
    "C82_WB_merge",
    "C82_CH_merge",
    "C82_same_centroid"
   ],
   "note": "Arithmetic XR. C82_hypotheses: -1, 1 | -2, 2 | 9, 11, where merging the first two takes CH from 50/3 to 400/9 and WB from 27/100 to 9/50."
  },
  {
   "property": "C83",
   "status": "partial",
   "theorems": [
    "C83_any_labels",
    "C83_python_labels",
    "C83_fresh_nan",
    "C83_missing_labels_refuted"
   ],
   "note": "Every arithmetic. C83_any_labels for any type of labels and any test the dict makes, as long as it is an equivalence on the labels used; C83_python_labels for ints, bools, floats, infinities, nans and strings. A nan is the same key only as the same object: every nan read out of an array opens a cluster of its own (C83_fresh_nan), math.nan passed again does not; C83_missing_labels_refuted has sizes 2, 1, 1 and 2, 2 for the labels 1.0, nan, nan, 1.0. Batches with labels that are not integers: C86. C83_examples, C83_stream: labels 'a', True, 1.0, 'a', 1."
  },
  {
   "property": "C84",
   "status": "partial",
   "theorems": [
    "C84_WB_is_XB",
    "C84_CH_is_XB",
    "C84_DB_and_XB",
    "C84_PS_value",
    "C84_PS_blind",
    "C84_PS_refuted"
   ],
   "note": "Arithmetic XR. The identities are proved. PS of two clusters is (n + m) / max(n, m) - 2 exp(-4) whatever the samples (nan if the centroids coincide): it depends on the sizes only (C84_PS_value, C84_PS_blind). C84_PS_refuted: 0, 1, 2 | 100 scores 4/3 - 2 exp(-4), the same numbers grouped as 0, 100 | 1, 2 score 2 - 2 exp(-4). C84_hypotheses: 0, 2 | 10, 12 with the values of XB, DB, WB, CH."
  },
  {
   "property": "C85",
   "status": "proved",
   "theorems": [
    "C85_small_changes",
    "C85_small_changes_cSIL_batch",
    "C85_continuous",
    "C85_continuous_cSIL_batch",
    "C85_cSIL_jump"
   ],
   "note": "Arithmetic XR. The bounds are the definitions steady and change at the top of P_Pert.v. rCIP and cSIL streams are not covered. C85_hypotheses: 0, 2 | 10, 12 with errors of 1/100, for every class. C85_cSIL_jump: two equal samples with different labels give 0, moving one by any delta > 0 gives 1."
  },
  {
   "property": "C86",
   "status": "partial",
   "theorems": [
    "C86_only_two_things",
    "C86_arrays",
    "C86_same_entries",
    "C86_ints",
    "C86_bools",
    "C86_integral_floats",
    "C86_numbers_work",
    "C86_others_do_not",
    "C86_strings_refuted"
   ],
   "note": "The first six: every arithmetic, every object, bit for bit. The last three: arithmetic XR. A batch labelled with strings never gives a number: nan in eight classes, ZeroDivisionError in PS, whatever the samples (C86_strings_refuted), while the same labels work one sample at a time (C83; binary64 case C86_strings_and_bools). Exactly the arrays whose entries equal the numbers 0..k-1 work (C86_numbers_work, C86_others_do_not; cSIL apart, see C10). C86_hypotheses has an array of each dtype."
  },
  {
   "property": "C87",
   "status": "partial",
   "theorems": [
    "C87_batches",
    "C87_GD43_batches",
    "C87_streams",
    "C87_GD43_streams",
    "C87_same_distances",
    "C87_rCIP_refuted",
    "C87_cSIL_streams_refuted"
   ],
   "note": "Arithmetic XR, infinite and undefined values included. False of rCIP, whose value changes when a constant feature is appended (C87_rCIP_refuted), and of cSIL one sample at a time, which depends on the place of the origin (C87_cSIL_streams_refuted); cSIL batches are covered. C87_hypotheses embeds a line in a plane."
  },
  {
   "property": "C88",
   "status": "proved",
   "theorems": [
    "C88_WB",
    "C88_CH",
    "C88_DB",
    "C88_two",
    "C88_no_converse"
   ],
   "note": "Arithmetic XR. C88_two with C84 gives the equalities for two clusters; C88_no_converse exhibits four samples for every bound. C88_hypotheses is a case with three clusters."
  },
  {
   "property": "C89",
   "status": "proved",
   "theorems": [
    "C89_mirror",
    "C89_mirror_float32",
    "C89_portable",
    "C89_portable_float32"
   ],
   "note": "Arithmetics F64o (any libm, any order of summation) and F32d. By relational parametricity: Par, ParL and ParC show that every program of the model respects any relation of numbers that its operations respect. For rCIP: exp, **, det and inv return binary64 numbers, exp(-0) = exp(0), powers of ten are not negative. ex_value and ex_rCIP are cases."
  },
  {
   "property": "C90",
   "status": "proved",
   "theorems": [
    "C90_units",
    "C90_needs_range"
   ],
   "note": "The condition is that the careful arithmetic (ScalA.v), which computes as F64o does but gives up outside the range, returns a value for the original data; then both ordinary computations return what it does. By the same parametricity as C89. rCIP is not covered. C90_example: seven classes, k = -300. C90_needs_range: the same samples in units of 2^-600 give nan."
  },
  {
   "property": "C91",
   "status": "proved",
   "theorems": [
    "C91_exceptions",
    "C91_bookkeeping",
    "C91_example"
   ],
   "note": "Every class (rCIP: if np.linalg.inv returns an array of the shape of its argument and never raises), every arithmetic in the sense of Num.v, so exact, binary64, float32 data and any platform. By the parametricity of ParL/ParC with all numbers related. C91_example: what seven calls raise, computed with an arithmetic whose numbers carry no information and so known for all numbers."
  },
  {
   "property": "C92",
   "status": "proved",
   "theorems": [
    "C92_exact",
    "C92_exact_float32",
    "C92_stream_is_batch",
    "C92_example"
   ],
   "note": "Exa.v: an arithmetic that computes as the given one does and gives up when a result, checked in integers, is not the exact one; where it does not give up, both the floating-point and the exact model return its value. Of a sum only the total has to be exact. PS always gives up (exp); rCIP is not covered. C92_stream_is_batch transfers C01-C06 (not cSIL, see C09). C92_example: four samples, six batches and four streams; C92_example_cSIL."
  },
  {
   "property": "C93",
   "status": "partial",
   "theorems": [
    "C93_left_behind",
    "C93_every_call_counts",
    "C93_iSIL_counts",
    "C93_refuted"
   ],
   "note": "True of iGD43, iGD53 and iSIL. False of iXB, iCH and iDB, whose N counts every call, rejected or not, of iCH, whose data_center is the mean including the rejected samples, and of iPS, which keeps a cluster for the rejected sample. C93_left_behind says exactly what changes, for every state and arithmetic; C93_refuted: iXB returns 1/2 instead of 2/3, iCH 3.4 instead of 0.57."
  },
  {
   "property": "C94",
   "status": "proved",
   "theorems": [
    "C94_account",
    "C94_account_float32",
    "C94_stream_near_batch",
    "C94_apart",
    "C94_example",
    "C94_cSIL_not_rounding"
   ],
   "note": "Ball.v: an arithmetic that computes as the given one does and keeps a rational bound of the error beside each number, or says that it knows none (nan, inf, division by something that may be 0, roots of something that may be negative). Where it gives a bound, the bound holds. C94_example: six samples given in tenths, where the streams and batches of CH, WB, DB, XB, GD43 and GD53 are within 2e-11 of one another (the last bit of DB does differ); C94_cSIL_not_rounding: on the same samples the stream and the batch of cSIL differ by more than 1e-5 in exact arithmetic."
  },
  {
   "property": "C95",
   "status": "partial",
   "theorems": [
    "C95_first_twice",
    "C95_exact",
    "C95_refuted"
   ],
   "note": "False: the first sample of every cluster is entered twice. C95_first_twice (any arithmetic): the four attributes are exactly the account of the samples of the cluster with the first one taken twice; C95_exact says the same with sums and means of reals; C95_refuted: 0 and 3 in one cluster give size 3 and center 1."
  },
  {
   "property": "C96",
   "status": "proved",
   "theorems": [
    "C96_shapes",
    "C96_mirror",
    "C96_portable",
    "C96_example_shapes",
    "C96_example_mirror"
   ],
   "note": "C96_mirror assumes that numpy adds in a fixed order and that ** of the platform maps numbers that are not negative to such numbers and zeros to zeros; iPS with both behaviours of np.sum of a generator."
  },
  {
   "property": "C97",
   "status": "partial",
   "theorems": [
    "C97_refuted",
    "C97_from_the_end",
    "C97_iSIL_table_kept",
    "C97_iXB_spoilt",
    "C97_example_iXB",
    "C97_example_iSIL"
   ],
   "note": "False of every class: a negative label is an index from the end (C97_from_the_end: the sample goes to cluster k - j). The loops over the other clusters then compare the cluster with itself: after the first negative label iXB never returns a finite number again (C97_iXB_spoilt, exact arithmetic, any history). iSIL moves the centre but leaves its table of distances as it was (C97_iSIL_table_kept, any arithmetic). No class raises ValueError (C97_refuted)."
  },
  {
   "property": "C98",
   "status": "proved",
   "theorems": [
    "C98_alone",
    "C98_alone_float32",
    "C98_alone_exact",
    "C98_batch",
    "C98_batch_float32",
    "C98_batch_exact",
    "C98_example",
    "C98_batch_example"
   ],
   "note": "The six classes whose values the statement names. Streams need no hypothesis on the numbers; batches need well-formed floats (valid, the invariant of the type spec_float)."
  },
  {
   "property": "C99",
   "status": "partial",
   "theorems": [
    "C99_batch",
    "C99_example",
    "C99_exact",
    "C99_exact_example",
    "C99_streams_refuted"
   ],
   "note": "Proved of batches in float64, and in exact arithmetic of batches and streams, which give 1 when no two samples are the same. FALSE of float64 streams: the samples 440837476 and 440837478, a label each, give -inf, because cSIL expands the squared distance, which rounding makes -64; the batch gives 1."
  }
 ]
}