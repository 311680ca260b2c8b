# Formal model of AP6YC/cvi in Rocq (Coq 8.16.1)

The package computes nine cluster validity indices, each in two ways: from one
batch of labelled samples, or one sample at a time. The model covers the nine
classes, their common base class and the older classes of `compat/v0.py`. The
theorems are about that model. Where a property a user would rely on is false of
the code, the theorem named `..._refuted` gives a witness and the theorems around
it say what the code does instead.

## 1. What is modelled

| Python | Model file | Notes |
|---|---|---|
| numpy array operations used by the package | `NumPy.v` | shapes, broadcasting and the exceptions numpy raises are modelled; element arithmetic is a parameter |
| `modules/_base.py` | `Base.v` | `LabelMap`, attributes, `_setup`, `_setup_batch` |
| `modules/{CH,WB}.py` | `M_CH.v` | `_setup`, `_param_inc`, `_param_batch`, `_evaluate`, statement by statement |
| `modules/{DB,XB,GD43,GD53}.py` | `M_D.v` | the same |
| `modules/{PS,rCIP,cSIL}.py` | `M_PS.v` | the same |
| `modules/cSIL.py`, `modules/rCIP.py` on integer arrays | `M_Int.v` | streams of cSIL up to the first exception, batches of rCIP |
| `modules/_base.py: CVI.get_cvi` | `GetCvi.v` | dispatch on ndim, the two `ValueError` guards, evaluation, whole call histories |
| `modules/_base.py: LabelMap`, `get_cvi` with labels of any hashable type | `M_Lab.v` | ints, bools, floats, inf, nan (by identity), strings |
| `_param_batch` (all classes), `get_cvi` with label arrays of other dtypes | `M_LabB.v` | int, bool, float64, str; `np.unique` counts nan once |
| `modules/_base.py: CVI` as a class of its own, `LabelMap` alone | `BaseCls.v` | its `_param_inc` etc. raise `NotImplementedError` |
| sharing of arrays with the caller (`self._mu = sample`) | `Alias.v` | memory of caller arrays; several objects at once |
| `compat/v0.py` | `Compat.v` | all update functions, `Cluster`, `Clusters`, `iCVI` |

Every function is a total Gallina function in a state-and-exception monad: a
Python statement that can raise keeps the attribute values written before it.
So the model exhibits half-finished updates. A history is a list of calls on one
object in which the caller may catch exceptions and go on.

### Arithmetic is a parameter

`Arith` (`Num.v`) is a record of operations without any law: `+ - * /`, `sqrt`,
`exp`, `**`, `np.minimum`, `np.maximum`, truth value, `np.sum`, `np.inner`,
`np.linalg.det`, `np.linalg.inv`. The model is written once, over any `Arith`.
Theorems come in three strengths.

* *Every Arith*: control flow, bookkeeping, exceptions, label renaming, sharing.
  They hold in particular for IEEE binary64 with numpy's own summation order,
  bit for bit.
* *`XR`* (`XR.v`): exact real numbers with `+inf`, `-inf` and `nan` and IEEE's
  rules for them. Division by zero is not totalised to 0. Zero is unsigned:
  `1/-0.0 = -inf` is not represented.
* *`F64 L`* (`F64.v`): IEEE binary64 (`SpecFloat`, rounding to nearest even),
  where `L` is any implementation of `exp`, `**`, `det` and `inv`. Used for
  witnesses, which are evaluated inside Coq.
* *`F64o L S`* (`F64o.v`): the same with every order in which numpy may add the
  terms of a sum (`any_order S`: each term once, no fused operation). Used for
  theorems about nan, signs and rounding errors. The rounding errors come from
  Flocq's theory of floating-point numbers (`Rnd.v`, `RndErr.v`).
* *`F32d L S T`* (`F32d.v`): float32 data. `Arith` has a second set of operations,
  `sadd smul sdiv ssum sdot`, for the places where the code computes in the dtype of
  the caller's arrays (the product `(1 / n) * sample`, `np.mean`, `_mu`,
  `np.inner(sample, sample)`, `subset.T @ subset`). In `XR`, `F64` and `F64o` they are
  the ordinary operations; in `F32d` they are binary32, the rest binary64. What is
  proved for every `Arith` holds for float32 data too.

### Not modelled, and simplifications (also stated at each definition)

* Rounding errors: bounds are proved for the stored centroids (C60), the
  compactness (C61) and the values of CH and WB (C62) and of XB, DB, GD43 and
  GD53 (C65), PS (C68) and cSIL for batches (C70); C94 gives a running account of
  the error of every value of every class but rCIP, cSIL on streams included. About
  the values of rCIP, a theorem in `XR` is about exact arithmetic only.
* Labels are integers `Z` (Python ints, numpy integers). `M_Lab.v` models one-sample calls
  with labels of any hashable type (C83), `M_LabB.v` batches with label arrays of dtype
  int, bool, float64 and str (C86); there the array is replaced by an array of ints with the
  same number of distinct entries and with 0..k-1 in the same rows, which is all the code asks
  for. Object arrays and two-dimensional label arrays are not modelled.
* Sample arrays hold float64 or float32 (`F32d.v`; one dtype per object, streams or
  one batch, not both; `compat/v0.py` float64 only). Integer dtypes of up to 32 bits and int64 are
  modelled in `M_Int.v` for the two places where they matter (streams of cSIL,
  batches of rCIP); `M_Int.v` states why the other cases are those of the
  converted numbers, and that is read from the source, not proved.
  uint64 and float16 are not modelled.
* `F64` adds from left to right; numpy does so for fewer than eight terms, and
  no witness needs more. Theorems for every `Arith` leave the order open.
* In `XR`, `det` is the determinant by Laplace's expansion and `inv` the
  two-sided inverse if there is one, otherwise `LinAlgError` (`Det.v`).
* `Alias.v` has two parts. Part 1 lists, for each class, the statements that bind
  or write through an array attribute. Part 2 gives the model of `get_cvi` a
  memory in which only `_mu` of CH, WB, DB, XB, GD43 and GD53 refers to a caller
  array. That Part 2 needs no other sharing follows from Part 1
  (`C40_caller_arrays_never_written`, `C43_nothing_shared`), but the step from the
  one to the other is by reading, not by a theorem.
* In `compat/v0.py` the sum of a generator by `np.sum` depends on the numpy
  version; `Compat.v` takes it as a parameter (`gen_sum_old`, `gen_sum_new`).
* Warnings, docstring decorators, performance, memory and threads are not
  modelled.

## 2. Specification

Statements use small files that do not mention the model of the code.

* `SpecT.v`: rotating data, reordering features, repeating samples, appending a constant.
* `Spec.v`: labelled data, clusters, centroids, scatters and the published
  formulas over plain real numbers.
* `SpecX.v`: the value of each index on every partition, including those on which
  the published formula divides by zero.
* `Obs.v`: what a user observes (the value of a batch call, the values of a
  stream). This is the only bridge between the two sides.
* The short definitions at the top of each `P_*.v` file.

## 3. Files

* *Model*: `Num NumPy Base M_CH M_D M_PS M_Int M_Lab M_LabB GetCvi BaseCls Alias Compat`.
* *Arithmetics*: `XR Det F64 F64o F32d`.
* *Specification*: `Spec SpecT SpecX Obs CompSpec`.
* *Lemmas for every arithmetic*: `Lists` (arrays), `Step Step2 StepB` (one update
  as a closed expression), `Hoare` (what methods do on any input), `Eval`,
  `Stream`, `Shapes`, `Generic` (histories), `RunForm BatchForm ValForm` (attributes and
  values cluster by cluster), `Refuse` (objects that refuse every further call), `Mismatch`
  (batches of unequal lengths), `WrongLen` (samples of the wrong length), `AliasL`, `Nan`,
  `Inf InfB` (infinite features), `Mem` (how much is stored), `Sign`, `Comp` (attributes
  an evaluation leaves), `Par ParL ParC ParK` (two runs on related numbers), `IntL IntR` (integer data).
* *Lemmas in exact arithmetic*: `RGeom` (sums, centroids), `XLift XEval XInc XCov
  XRun XPerm XBatch XCont XSil XSilEx XForm XBounds XGap XMis XSim XMove DetMul
  XRot XRep XApart XOne XPert XIso XPair CompX InfA`.
* *Lemmas in binary64 and binary32*: `Rnd Rnd32` (the operations as rounded real operations),
  `RndErr RndSum RndSel RndOps` (single operations and sums), `RndMean RndCl RndMean32 RndCl32`
  (means), `RndCP RndCP2 RndCP3 RndCP4 RndCP32` (compactness), `RndVal RndValE RndCH RndRun RndRun32` (CH
  and WB), `RndVal2 RndVal2E RndRun2 RndRun32b` (XB, DB, GD43, GD53), `RndPS RndRunPS`, `RndSil`,
  `Bnd BndVal` (bounds of the values), `Mir` (negated data), `Scal ScalA` (powers of two), `Exa` (runs without rounding),
  `Ball` (runs that keep account of it), `IntF`, `Alone AloneB` (clusters of one sample).
* *compat*: `CompatL CompatL2 CompatL3 CompatL4` (every arithmetic), `CompatX CompatC`
  (exact), `CompatH` (histories).
* *Property theorems*: `P_*.v`. Each theorem is followed by
  `Print Assumptions`, and each theorem with hypotheses has an `Example` nearby
  that meets them.

How the main results are proved:

* C01-C08, C53: an invariant says that after any stream the attributes are the
  sizes, centroids, scatters and pairwise terms of the groups, in order of first
  appearance; by induction on the stream, first for every arithmetic as a
  refinement, then in `XR` by algebra. The batch computes the same quantities for
  labels 0..k-1. The evaluation depends only on the multiset of clusters.
  rCIP needs positive definiteness of the regularised covariances (`XCov.v`).
* C10, C12, C23-C39: from the closed forms.
* C56: orthogonal matrices conjugate the covariances; `DetMul.v` proves that the
  determinant of a product is the product of the determinants.
* C11, C14-C16, C18-C22, C40-C43: for every arithmetic, by case analysis on the
  monad and induction on histories.
* C44: nan is absorbing for every operation on the way; the invariant is that the
  nan sits in the centroid and the compactness of its cluster.
* C45-C52: invariants of the older classes; C50 and C52 in `XR`.


## 4. Property by property

| Property | Status | Theorems | Remark |
|---|---|---|---|
| C01 CH: incremental value equals batch value at every prefix | proved | `C01_CH_incremental_is_batch` | exact arithmetic with inf and nan, finite features |
| C02 WB: incremental value equals batch value at every prefix | proved | `C02_WB_incremental_is_batch` | exact arithmetic with inf and nan, finite features |
| C03 DB: incremental value equals batch value at every prefix | proved | `C03_DB_incremental_is_batch` | exact arithmetic with inf and nan, finite features |
| C04 XB: incremental value equals batch value at every prefix | proved | `C04_XB_incremental_is_batch` | exact arithmetic with inf and nan, finite features |
| C05 GD43: incremental value equals batch value at every prefix | proved | `C05_GD43_incremental_is_batch` | exact arithmetic with inf and nan, finite features |
| C06 GD53: incremental value equals batch value at every prefix | proved | `C06_GD53_incremental_is_batch` | exact arithmetic with inf and nan, finite features |
| C07 PS: incremental value equals batch value at every prefix | proved | `C07_PS_incremental_is_batch` | exact arithmetic with inf and nan, finite features |
| C08 rCIP: incremental value equals batch value at every prefix | proved | `C08_rCIP_incremental_is_batch` | exact arithmetic with inf and nan, finite features; at least one feature |
| C09 cSIL: incremental value equals batch value at every prefix | partial | `C09_cSIL_incremental_is_batch_refuted`, `C09_cSIL_binary64_refuted`, `C53_cSIL_streams` | FALSE of the code: refuted in exact arithmetic and in binary64; C53 gives the value cSIL really returns on every stream |
| C10 Incremental value does not depend on the order of the samples | partial | `C10_order_of_samples_partial`, `C10_cSIL_order_of_samples_refuted` | proved for the eight other classes; FALSE of cSIL (witness) |
| C100 PS and rCIP of single samples | proved | `C100_rCIP`, `C100_PS`, `C100_example` | Arithmetic XR. Data in C100_example. |
| C101 PS of clusters of equal size is not negative | proved | `C101_batch`, `C101_stream`, `C101_example`, `C101_exact`, `C101_exact_example` | C101_batch and C101_stream: arithmetic F64o, any_order, exp_range. C101_exact: arithmetic XR. |
| C102 A sample at the centroid of its cluster does no harm | partial | `C102_XB`, `C102_GD43`, `C102_CH`, `C102_WB`, `C102_DB`, `C102_example`, `C102_GD53_refuted` | Proved of CH, WB, DB, XB and GD43. FALSE of GD53: clusters -1, 1 / 10, 14 give 5/16, with a sample 0 in the first cluster 1/4 (C102_GD53_refuted). Arithmetic XR. |
| C103 Clusters of copies of one sample have no spread | partial | `C103_exact`, `C103_exact_example`, `C103_batch`, `C103_example`, `C103_streams_kept`, `C103_streams_two`, `C103_streams_example`, `C103_streams_refuted`, `C103_fractions_refuted` | Proved in exact arithmetic of batches and streams (C103_exact, arithmetic XR). In binary64: proved of batches of integers z with /z/ * (number of samples) <= 2^53 (arithmetic F64o, any_order), and of streams when every feature is kept by the averages of its cluster (C103_streams_kept), as integers up to 2^53 with at most two samples in a cluster are (C103_streams_two). FALSE of streams, of integers too: the running mean of 15, 15, 15 is not 15 (C103_streams_refuted). FALSE of batches of fractions: 0.1, 0.1, 0.1 / 0 (C103_fractions_refuted). |
| C11 Incremental mode is insensitive to the names of the labels, bit for bit | proved | `C11_label_names_are_irrelevant` | every history of calls (failing ones included), every class, every arithmetic |
| C12 Batch value is invariant under permuting the clusters' labels and the rows | proved | `C12_batch_invariance` | all nine classes; exact arithmetic, finite features |
| C13 Batch mode accepts any label set that incremental mode accepts | partial | `C13_any_labels_in_batches_refuted`, `C13_contiguous_labels_agree`, `C13_other_labels_give_nan`, `C13_PS_without_labels_in_range_raises` | FALSE of the code: a batch whose labels are not exactly 0..k-1 returns nan (binary64 witness for six classes). Complete characterisation in exact arithmetic: labels 0..k-1 agree with the stream (cSIL apart, see C10), every other label set with at least two values gives nan in every class, except PS which raises ZeroDivisionError when no label is in range. |
| C14 Criterion value is exactly zero until a second label has been seen | proved | `C14_zero_until_second_label`, `C14_zero_stream`, `C14_batch_single_label` | every class, every arithmetic; first theorem needs no shape hypothesis |
| C15 Rejected calls have no effect | proved | `C15_rejected_calls_have_no_effect` | every class, every history before and after |
| C16 An object that has accepted data refuses batches for ever | proved | `C16_used_objects_refuse_batches` | every class, every history |
| C17 Switching from batch to incremental mode is refused | partial | `C17_refused_after_batch_refuted`, `C17_four_classes_refuse_for_ever`, `C17_five_classes_continue`, `C17_five_classes_right_if_in_order` | FALSE of the code for DB, GD43, GD53, PS, rCIP: they accept samples after a batch and number the stream's labels afresh (binary64 witness: a sample labelled 1 is merged into cluster 0). Exactly what they compute is proved for every batch and stream in exact arithmetic. CH, WB, XB, cSIL refuse every later call for ever, every arithmetic. |
| C18 Well-formed incremental streams never raise | proved | `C18_rectangular_streams_never_raise` | every class, every arithmetic; rCIP needs at least one feature and an inverse that never raises |
| C19 The returned value is the criterion_value attribute, and a failing call leaves it alone | proved | `C19_returned_value_is_attribute`, `C19_failing_call_keeps_value` | every object, reachable or not |
| C20 Every accepted sample is counted exactly once, in the cluster of its label | proved | `C20_samples_counted_once` | every class, every arithmetic |
| C21 A sample that is rejected leaves no trace | partial | `C21_refuted`, `C21_length_one_refuted`, `C21_known_label_leaves_no_trace`, `C21_new_label_leaves_only_its_label`, `C21_next_new_label_is_refused`, `C21_next_new_label_is_split` | FALSE of the code: the label of a rejected sample stays in the label map (C21_refuted, every class). Proved for every arithmetic: a rejected sample with a known label leaves no trace; one with a new label leaves only that label, which nothing can observe until another new label arrives; then seven classes raise IndexError on a good sample and CH, WB split the new label over two clusters. Lengths where length one is involved leave traces of their own (C21_length_one_refuted). |
| C22 A sample of the wrong length is rejected | partial | `C22_refuted`, `C22_wrong_length_raises_unless`, `C22_one_number_is_every_coordinate` | FALSE of the code: a sample of length 1 with a known label is broadcast. Proved for every arithmetic: that is the only exception, and (except in cSIL) the call is the same as with the number repeated d times. |
| C23 CH batch value is the published formula | proved | `C23_CH_formula`, `C23_CH_formula_streams` | exact arithmetic, finite features; batches with labels 0..k-1 and every stream at every prefix; hypothesis = exactly the data on which the published formula divides by no zero (C39 covers the rest). |
| C24 WB batch value is the published formula | proved | `C24_WB_formula`, `C24_WB_formula_streams` | exact arithmetic, finite features; batches with labels 0..k-1 and every stream at every prefix; hypothesis = exactly the data on which the published formula divides by no zero (C39 covers the rest). |
| C25 DB batch value is the published formula | proved | `C25_DB_formula`, `C25_DB_formula_streams` | exact arithmetic, finite features; batches with labels 0..k-1 and every stream at every prefix; hypothesis = exactly the data on which the published formula divides by no zero (C39 covers the rest). |
| C26 XB batch value is the published formula | proved | `C26_XB_formula`, `C26_XB_formula_streams` | exact arithmetic, finite features; batches with labels 0..k-1 and every stream at every prefix; hypothesis = exactly the data on which the published formula divides by no zero (C39 covers the rest). |
| C27 GD43 batch value is the published formula | proved | `C27_GD43_formula`, `C27_GD43_formula_streams` | exact arithmetic, finite features; batches with labels 0..k-1 and every stream at every prefix; hypothesis = exactly the data on which the published formula divides by no zero (C39 covers the rest). |
| C28 GD53 batch value is the published formula | proved | `C28_GD53_formula`, `C28_GD53_formula_streams` | exact arithmetic, finite features; batches with labels 0..k-1 and every stream at every prefix; hypothesis = exactly the data on which the published formula divides by no zero (C39 covers the rest). |
| C29 PS batch value is the published formula | proved | `C29_PS_formula`, `C29_PS_formula_streams` | exact arithmetic, finite features; batches with labels 0..k-1 and every stream at every prefix; hypothesis = exactly the data on which the published formula divides by no zero (C39 covers the rest). |
| C30 cSIL batch value is the published formula | proved | `C30_cSIL_formula` | exact arithmetic, finite features; batches with labels 0..k-1 (streams of cSIL: C53); hypothesis = exactly the data on which the published formula divides by no zero (C39 covers the rest). |
| C31 rCIP batch value is the published formula | proved | `C31_rCIP_formula`, `C31_rCIP_formula_streams` | exact arithmetic, finite features; batches with labels 0..k-1 and every stream at every prefix; hypothesis = exactly the data on which the published formula divides by no zero (C39 covers the rest). |
| C32 The sum-of-squares type indices are never negative | proved | `C32_nonnegative` | exact arithmetic; nan, +inf or a non-negative real, batch and streams. |
| C33 GD53 never exceeds one half | proved | `C33_GD53_at_most_half` | exact arithmetic; batch and streams. |
| C34 cSIL lies in [-1, 1] | partial | `C34_cSIL_bounds_partial`, `C34_cSIL_streams_refuted` | Proved of batches. FALSE of the code on streams: the incremental cSIL returns -71/16. |
| C35 PS is bounded by the number of clusters | proved | `C35_PS_bounds` | exact arithmetic; batch and streams. |
| C36 Translation invariance | partial | `C36_translation_batch`, `C36_translation_streams_partial`, `C36_cSIL_translation_refuted` | Proved of all batches and of streams of the eight other classes. FALSE of cSIL's streams. |
| C37 Behaviour under a change of units | partial | `C37_units_batch`, `C37_units_streams`, `C37_GD43_law_batch`, `C37_GD43_law_streams`, `C37_GD43_units_refuted` | exact arithmetic; proved for the seven classes named; FALSE for GD43 (witness), whose exact law is value divided by /u/; rCIP is not in the claim. |
| C38 CH and WB are tied together; the total scatter is conserved | proved | `C38_CH_times_WB`, `C38_total_scatter` | exact arithmetic; batch and streams. |
| C39 Exactly when an index is finite, infinite or nan | proved | `C39_case_analysis`, `C39_case_analysis_cSIL_batch`, `C39_case_analysis_cSIL_streams`, `C39_second_sample` | exact arithmetic: complete case tables for all nine classes; every row is met by an example. |
| C40 The caller may reuse its sample buffer, and its arrays are never written | partial | `C40_refuted`, `C40_caller_arrays_never_written`, `C40_later_writes_not_seen`, `C40_first_array_left_alone`, `C40_until_a_call_returns`, `C40_after_a_batch` | FALSE of CH and WB: _setup stores the caller's array as _mu, so refilling the buffer of the first sample changes later values. Proved for every arithmetic and every interleaving: get_cvi writes to no array of the caller; the other seven classes never show later writes; CH and WB are safe if the array of the first call is left alone until another call has returned, or if the object starts with a batch. |
| C41 A batch with a wrong number of labels is rejected | partial | `C41_wrong_number_of_labels_refuted`, `C41_six_classes_ignore_unlabelled_rows`, `C41_CH_WB_XB_mix`, `C41_too_many_labels`, `C41_extra_label_in_range_raises` | FALSE of the code: with fewer labels than rows every class returns a value. Proved: six classes ignore the unlabelled rows (every arithmetic); closed forms of CH, WB, XB (exact arithmetic); with more labels than rows the call raises or returns nan, never a number. |
| C42 A batch call that fails can be retried | partial | `C42_failed_batch_can_be_retried_refuted`, `C42_one_attempt_only`, `C42_label_errors_can_be_retried` | FALSE of the code: a batch with two or more distinct labels uses the object up even if it raises (every class, every arithmetic, every later history). Batches refused for having fewer than two distinct labels can be retried. |
| C43 Objects are independent | proved | `C43_nothing_shared`, `C43_writes_are_private`, `C43_interleaving`, `C43_interleaving_no_writes` |  |
| C44 A nan feature is never masked | partial | `C44_refuted`, `C44_eight_classes_binary64`, `C44_eight_classes_exact`, `C44_GD53_from_the_second_sample`, `C44_batches_binary64`, `C44_batches_exact` | FALSE of GD53: a nan sample that starts a cluster is masked until a second sample joins that cluster (C44_refuted). Proved: the other eight classes return nan at once and for ever in binary64 with the sums in any order (given exp(nan) = nan) and in exact arithmetic with nan; GD53 from the second sample of that cluster on; a batch containing a nan gives nan in all nine classes. |
| C45 compat iPS tracks partition separation | partial | `C45_refuted`, `C45_returns_only_zero_exact`, `C45_returns_only_zero_binary64`, `C45_every_call_returns`, `C45_recent_numpy` | FALSE of the code: every value iPS returns is 0, for every stream and whatever np.sum does with a generator; PS itself is not 0 on the witness. With a NumPy that sums generators every call returns; with one that refuses them, no call returns once there are two clusters. |
| C46 compat iGD43/iGD53 can update an existing cluster | partial | `C46_refuted`, `C46_only_new_clusters_return`, `C46_seen_label_raises` | FALSE of the code: a call with a label already accepted raises AttributeError, after changing the centre and the size; only calls that start a new cluster return. |
| C47 compat iDB can update an existing cluster | partial | `C47_refuted`, `C47_what_a_call_does`, `C47_seen_label_raises`, `C47_returns_only_zero` | FALSE of the code: an update of an existing cluster raises in every reachable state, and every value returned is 0. |
| C48 compat iSIL accepts a first sample and leaves the caller's array alone | partial | `C48_refuted`, `C48_first_update`, `C48_what_is_written`, `C48_one_cluster_never_returns`, `C48_new_cluster_is_nan_exact`, `C48_new_cluster_is_nan_binary64` | FALSE of the code: the first update never returns, and the arrays that started clusters are written to by later updates; C48_what_is_written says which. A one-cluster history never returns; a new cluster gives nan. |
| C49 compat iCH merges samples of one label | partial | `C49_refuted`, `C49_zero_labels_never_merge`, `C49_number_of_clusters`, `C49_positive_labels` | FALSE of the code: each sample with label 0 starts a new cluster; positive labels do merge, as C49_positive_labels says. |
| C50 compat iXB agrees with XB | partial | `C50_refuted`, `C50_iXB_and_XB`, `C50_never_smaller`, `C50_agree_iff`, `C50_one_cluster`, `C50_which_calls_return`, `C50_nan_binary64` | FALSE of the code: iXB divides by the smallest centroid distance there ever was, XB by the smallest there is (C50_iXB_and_XB); iXB is never smaller than XB, and C50_agree_iff says when they agree. In binary64 rounding can make iXB nan where XB is 0. |
| C51 compat factory | proved | `C51_seven_names`, `C51_every_other_string` |  |
| C52 compat Cluster and Clusters containers | partial | `C52_mean`, `C52_other_length`, `C52_distances`, `C52_distances_empty`, `C52_box_at_most_one`, `C52_box_range`, `C52_box_refuted`, `C52_from_list`, `C52_from_list_refuted` | The mean part holds (C52_mean). FALSE of the code: a Cluster in box mode accepts at most one point, ever; from_list raises on any non-empty data. |
| C53 What cSIL returns on a stream | proved | `C53_cSIL_streams` | every stream and prefix; exact arithmetic, finite features |
| C54 The base class refuses data | proved | `C54_base_class_refuses`, `C54_which_exception` | Every arithmetic, every history; which exception is raised is stated too. |
| C55 LabelMap numbers labels in order of first appearance | proved | `C55_numbers`, `C55_same_number_iff`, `C55_consecutive` |  |
| C56 Rotations, reflections and the order of the features | proved | `C56_rotation_batch`, `C56_rotation_streams`, `C56_order_of_features` | Exact arithmetic, all nine classes, both modes. For rCIP this needs the determinant of a product (DetMul.v). |
| C57 Every sample given m times | partial | `C57_repeated_batch`, `C57_repeated_streams_partial`, `C57_CH_law`, `C57_CH_law_streams`, `C57_rCIP_refuted`, `C57_cSIL_streams_refuted` | Proved of batches of WB, DB, XB, GD43, GD53, PS, cSIL and of the streams of the first six; the law for CH is proved of both modes; FALSE of rCIP, whose covariances divide by n-1, and of cSIL's streams (witnesses). |
| C58 A constant feature is irrelevant | partial | `C58_constant_feature_batch_partial`, `C58_constant_feature_streams_partial`, `C58_rCIP_refuted`, `C58_cSIL_streams_refuted` | Proved of batches of the eight classes other than rCIP and of the streams of seven (of cSIL's if the constant is 0). FALSE of rCIP, whose regularisation depends on the number of features, and of cSIL's streams (witnesses). |
| C59 Computed values are never negative | partial | `C59_batches`, `C59_streams_refuted` | Proved of every batch call in binary64. FALSE of streams of CH, WB, XB and GD43: underflow can make the updated compactness negative (witness near 7.7e-147; the batch calls return +0 and +inf on it). |
| C60 Rounding moves the centroids little | proved | `C60_stream_centroids`, `C60_stream_mean`, `C60_batch_centroids`, `C60_modes_agree` | All nine classes, binary64 with the sums in any order (F64o.v); the last two theorems are about streams and batches of the same samples. The bridge to real numbers is Flocq (Rnd.v), which adds no axiom. |
| C61 Rounding moves the compactness little | proved | `C61_stream_compactness`, `C61_batch_compactness`, `C61_modes_agree` | The six classes that keep compactness and gradient, binary64 with the sums in any order. |
| C62 Rounding moves the values of CH and WB little | proved | `C62_stream_CH`, `C62_batch_CH`, `C62_stream_WB`, `C62_batch_WB`, `C62_modes_agree` | Compared with CH_formula and WB_formula of Spec.v on the exact values of the samples. C62_needs_scatter: without the condition on the scatter both modes can return half of CH (samples 0 / 2^52, 2^52+1). |
| C63 The table of iSIL holds mean squared distances | partial | `C63_new_cluster`, `C63_seen_cluster`, `C63_refuted` | Holds of s_ij_new_cluster and of three branches of s_ij_new. FALSE of the branch i != J, j == J: it returns the mean plus /v_i/^2 / n_j. s_ij_new_cluster is the right one and is never called. |
| C64 A point is within the box of its cluster | partial | `C64_two_or_more_features`, `C64_one_feature`, `C64_coded`, `C64_empty`, `C64_refuted` | FALSE of the code: the box has 2d numbers and the point d, so with two or more features the call raises ValueError; with one feature it is false of the cluster's own point when that is below 1/2. Given the complement-coded point it is true exactly of the point held. |
| C65 Rounding moves the values of XB, DB, GD43 and GD53 little | proved | `C65_stream`, `C65_batch`, `C65_modes_agree` | Compared with the formulas of Spec.v on the exact values of the samples. C65_needs_separation: without the condition XB and DB return inf and GD43 returns 0 in both modes where the true values are 2/3, 1 and 1 (samples 2^52 / 2^52, 2^52+1). |
| C66 Computed values stay inside the bounds of their definitions | partial | `C66_cSIL_batch`, `C66_PS_batch`, `C66_PS_stream`, `C66_GD53_batch`, `C66_GD53_refuted` | Proved of cSIL and PS, for every order of the sums. FALSE of GD53 by one unit in the last place: clusters -a, a / -b, 0, b give 1/2 + 2^-53. C66_GD53_batch proves that 1/2 + 2^-52 is never exceeded (apart from +inf when sums of two compactnesses overflow, and when every spread is below 2^-960). |
| C67 The variances of rCIP stay positive in binary64 | partial | `C67_stream`, `C67_batch_refuted` | Proved of streams. FALSE of batches: the samples 10^8, 10^8 + 2, 10^8 + 3 / 10^8 + 10 give the variance -1.999... and the value nan, whatever the exponential; the stream gives 2.333... and a number. |
| C68 Rounding error of the value of PS | proved | `C68_stream`, `C68_batch`, `C68_modes_agree` | The exponential of the library enters through its error tau on numbers that are not positive. C68_needs_separation: without the condition the computed centroids can coincide and both modes return nan (samples 2^52 / 2^52, 2^52+1). |
| C69 Integer data give what the converted data give | partial | `C69_streams_exact`, `C69_batches_exact`, `C69_streams_binary64`, `C69_batches_binary64`, `C69_cSIL_uint8_refuted`, `C69_cSIL_int64_refuted`, `C69_cSIL_overflow_refuted`, `C69_rCIP_uint8_refuted` | FALSE of streams of cSIL and batches of rCIP, which wrap around: on uint8 grey values cSIL returns 1.22 and rCIP nan, on int64 data of 2^32 cSIL returns nan, and with NumPy 2 cSIL raises OverflowError after 128 samples of int8 in a cluster. Proved for them with entries between -B and B as long as 2 N d B^2 (rCIP: N B^2) is at most the largest number of the dtype, and in binary64 at most 2^53. For the other classes and modes the model is that of the converted numbers by reading the source, so the theorem says nothing beyond the model there. |
| C70 Rounding error of the value of cSIL for a batch | proved | `C70_batch` | C70_needs_separation: without the condition on the separation the value can be off by 1/2 (samples 2^52 / 2^52, 2^52+1: true value 1/2, returned 0). Streams of cSIL are not covered: what they return is not the formula even in exact arithmetic (C09, C53). |
| C71 A stream is not stored | proved | `C71_stream` | C71_example: with 2 labels and 2 features the same number of cells after 5 and after 20 samples, equal to the bound for CH, WB, DB, PS, rCIP and cSIL. |
| C72 The same clusters give the same value up to rounding | proved | `C72_reproducible` | C72_example: 0, 0, 5 / 10 as a stream and 10 / 5, 0, 0 as a batch give two different values of XB. |
| C73 compat iCH returns the Calinski-Harabasz index of its clusters | partial | `C73_value`, `C73_agree_iff`, `C73_refuted` | C73_value says what every call returns: the formula with the within sum of the clusters but a between sum whose terms are taken about the mean of the samples seen when their label was given last, 0 if it never was. C73_agree_iff: right exactly when that sum is the between sum. C73_refuted: 0, 2, 4 labelled 0, 0, 1 give 3/2 where the index is 3; 0, 2, 0 give 11/18 where it is 1/3. |
| C74 Pulling the clusters apart improves every index | partial | `C74_batch_partial`, `C74_streams_partial`, `C74_refuted`, `C74_GD53_blind_batch`, `C74_GD53_blind_streams`, `C74_cSIL_streams_refuted` | The laws hold for the seven; GD53 and PS are unchanged (C74_refuted has a witness with centroids ten times as far apart). C74_GD53_blind: moving each cluster by any vector of its own changes no value of GD53, for a batch or at any step of a stream. FALSE of streams of cSIL: 0, 1 / 0, 2 fed in turn give -1/4, and -12/5 with the centroids twice as far apart (C74_cSIL_streams_refuted). |
| C75 Tightening the clusters improves every index | partial | `C75_batch_partial`, `C75_streams_partial`, `C75_rCIP_refuted`, `C75_cSIL_streams_refuted` | Proved of the eight other classes (cSIL: batches). FALSE of streams of cSIL: 0, 1 / 0, 2 fed in turn give -1/4, and -12/5 when the clusters are halved. FALSE of rCIP: when clusters overlap, tightening them raises it (two clusters with one centroid). |
| C76 An infinite feature is never masked | partial | `C76_refuted`, `C76_refuted_values`, `C76_four_classes_binary64`, `C76_four_classes_exact`, `C76_from_the_second_sample_binary64`, `C76_from_the_second_sample_exact`, `C76_batches_binary64`, `C76_batches_exact` | FALSE of DB, XB, GD43 and GD53 fed one sample at a time: a sample with an infinity that starts a cluster is masked until a second sample joins that cluster; with two clusters DB and XB then report the best possible value 0, GD43 infinity (C76_refuted, C76_refuted_values). Proved: CH, WB, PS and cSIL return nan at once and for ever, the other four from the second sample of that cluster on, and every batch gives nan; in binary64 with the sums in any order (given exp(nan) = nan) and in exact arithmetic. rCIP is not covered. |
| C77 The parts of a value kept in the object fit it | proved | `C77_parts_fit_the_value`, `C77_streams`, `C77_batches`, `C77_modules` | First part: any Arith, any object state, any call that returns a value (Fits, CompSpec.v). Second part: exact arithmetic, finite features, clusters in the order of the object's own label map (streams) or 0..k-1 (batches) (Parts, CompSpec.v). Streams of cSIL have the first part only. |
| C78 float32 data | partial | `C78_stream_centroids`, `C78_stream_mean`, `C78_batch_centroids`, `C78_nan_stream`, `C78_nan_batch`, `C78_stream_refuted`, `C78_cSIL_refuted`, `C78_batch_refuted`, `C78_large_batches_refuted` | The equality with float64 data is refuted. Proved: error bounds of the stored centroids (streams and batches) and of the mean of all samples (streams), and that nan is absorbing. Arithmetic F32d (F32d.v); C78_large_batches_refuted is for rows added one after the other. |
| C79 Rounding error of the compactness and of CH and WB for float32 data | proved | `C79_stream_compactness`, `C79_batch_compactness`, `C79_stream_CH`, `C79_stream_WB`, `C79_batch_CH`, `C79_batch_WB` | Arithmetic F32d (F32d.v). C79_example: 0, 0, 5 / 10 as float32; the compactness 50/3 is kept within 2^-45, the values of WB of both modes are off by more than 2^-28. |
| C80 Rounding error of XB, DB, GD43 and GD53 for float32 data | proved | `C80_stream`, `C80_batch`, `C80_modes_agree`, `C80_needs_separation` | Arithmetic F32d. C80_example: 0, 0, 5 / 10 as float32, all hypotheses hold for the four classes, XB and DB of the two modes differ by more than 2^-31 and lie on both sides of the true value. C80_needs_separation: for 2^23 / 2^23, 2^23 + 1 as float32 a batch returns an infinite XB and DB and GD43 = 0, a stream (and float64 data in both modes) 2/3, 1 and 1. |
| C81 What one more sample changes, and which label CH and WB prefer for it | partial | `C81_compactness`, `C81_new_label`, `C81_sums`, `C81_CH_choice`, `C81_WB_choice`, `C81_nearest_equal_sizes_partial`, `C81_nearest_refuted` | Arithmetic XR. The increments are proved; the preference is not for the nearest centroid but for the smallest n/(n+1)*/x-v/^2 (C81_CH_choice, C81_WB_choice, both directions). C81_nearest_refuted: -5, 5 / 25 and the next sample 12, nearer to 0, which CH and WB want in the cluster of 25. C81_hypotheses: the compactness before and after for the same data. |
| C82 Two clusters merged | proved | `C82_sums`, `C82_WB_merge`, `C82_CH_merge`, `C82_same_centroid` | Arithmetic XR. C82_hypotheses: -1, 1 / -2, 2 / 9, 11, where merging the first two takes CH from 50/3 to 400/9 and WB from 27/100 to 9/50. |
| C83 Labels that are not integers | partial | `C83_any_labels`, `C83_python_labels`, `C83_fresh_nan`, `C83_missing_labels_refuted` | Every arithmetic. C83_any_labels for any type of labels and any test the dict makes, as long as it is an equivalence on the labels used; C83_python_labels for ints, bools, floats, infinities, nans and strings. A nan is the same key only as the same object: every nan read out of an array opens a cluster of its own (C83_fresh_nan), math.nan passed again does not; C83_missing_labels_refuted has sizes 2, 1, 1 and 2, 2 for the labels 1.0, nan, nan, 1.0. Batches with labels that are not integers: C86. C83_examples, C83_stream: labels 'a', True, 1.0, 'a', 1. |
| C84 Two clusters: how the indices depend on each other, and what PS can tell | partial | `C84_WB_is_XB`, `C84_CH_is_XB`, `C84_DB_and_XB`, `C84_PS_value`, `C84_PS_blind`, `C84_PS_refuted` | Arithmetic XR. The identities are proved. PS of two clusters is (n + m) / max(n, m) - 2 exp(-4) whatever the samples (nan if the centroids coincide): it depends on the sizes only (C84_PS_value, C84_PS_blind). C84_PS_refuted: 0, 1, 2 / 100 scores 4/3 - 2 exp(-4), the same numbers grouped as 0, 100 / 1, 2 score 2 - 2 exp(-4). C84_hypotheses: 0, 2 / 10, 12 with the values of XB, DB, WB, CH. |
| C85 Small errors of the data | proved | `C85_small_changes`, `C85_small_changes_cSIL_batch`, `C85_continuous`, `C85_continuous_cSIL_batch`, `C85_cSIL_jump` | Arithmetic XR. The bounds are the definitions steady and change at the top of P_Pert.v. rCIP and cSIL streams are not covered. C85_hypotheses: 0, 2 / 10, 12 with errors of 1/100, for every class. C85_cSIL_jump: two equal samples with different labels give 0, moving one by any delta > 0 gives 1. |
| C86 What a batch looks at in the labels | partial | `C86_only_two_things`, `C86_arrays`, `C86_same_entries`, `C86_ints`, `C86_bools`, `C86_integral_floats`, `C86_numbers_work`, `C86_others_do_not`, `C86_strings_refuted` | The first six: every arithmetic, every object, bit for bit. The last three: arithmetic XR. A batch labelled with strings never gives a number: nan in eight classes, ZeroDivisionError in PS, whatever the samples (C86_strings_refuted), while the same labels work one sample at a time (C83; binary64 case C86_strings_and_bools). Exactly the arrays whose entries equal the numbers 0..k-1 work (C86_numbers_work, C86_others_do_not; cSIL apart, see C10). C86_hypotheses has an array of each dtype. |
| C87 Only the distances between the samples count | partial | `C87_batches`, `C87_GD43_batches`, `C87_streams`, `C87_GD43_streams`, `C87_same_distances`, `C87_rCIP_refuted`, `C87_cSIL_streams_refuted` | Arithmetic XR, infinite and undefined values included. False of rCIP, whose value changes when a constant feature is appended (C87_rCIP_refuted), and of cSIL one sample at a time, which depends on the place of the origin (C87_cSIL_streams_refuted); cSIL batches are covered. C87_hypotheses embeds a line in a plane. |
| C88 What the Xie-Beni value says about the other indices | proved | `C88_WB`, `C88_CH`, `C88_DB`, `C88_two`, `C88_no_converse` | Arithmetic XR. C88_two with C84 gives the equalities for two clusters; C88_no_converse exhibits four samples for every bound. C88_hypotheses is a case with three clusters. |
| C89 Which bits of the data and of the platform matter | proved | `C89_mirror`, `C89_mirror_float32`, `C89_portable`, `C89_portable_float32` | Arithmetics F64o (any libm, any order of summation) and F32d. By relational parametricity: Par, ParL and ParC show that every program of the model respects any relation of numbers that its operations respect. For rCIP: exp, **, det and inv return binary64 numbers, exp(-0) = exp(0), powers of ten are not negative. ex_value and ex_rCIP are cases. |
| C90 A change of unit by a power of two changes no bit | proved | `C90_units`, `C90_needs_range` | The condition is that the careful arithmetic (ScalA.v), which computes as F64o does but gives up outside the range, returns a value for the original data; then both ordinary computations return what it does. By the same parametricity as C89. rCIP is not covered. C90_example: seven classes, k = -300. C90_needs_range: the same samples in units of 2^-600 give nan. |
| C91 Exceptions depend on shapes and labels, not on the numbers | proved | `C91_exceptions`, `C91_bookkeeping`, `C91_example` | Every class (rCIP: if np.linalg.inv returns an array of the shape of its argument and never raises), every arithmetic in the sense of Num.v, so exact, binary64, float32 data and any platform. By the parametricity of ParL/ParC with all numbers related. C91_example: what seven calls raise, computed with an arithmetic whose numbers carry no information and so known for all numbers. |
| C92 Where nothing is rounded, floating point is exact arithmetic | proved | `C92_exact`, `C92_exact_float32`, `C92_stream_is_batch`, `C92_example` | Exa.v: an arithmetic that computes as the given one does and gives up when a result, checked in integers, is not the exact one; where it does not give up, both the floating-point and the exact model return its value. Of a sum only the total has to be exact. PS always gives up (exp); rCIP is not covered. C92_stream_is_batch transfers C01-C06 (not cSIL, see C09). C92_example: four samples, six batches and four streams; C92_example_cSIL. |
| C93 A sample rejected by a compat class leaves no trace | partial | `C93_left_behind`, `C93_every_call_counts`, `C93_iSIL_counts`, `C93_refuted` | True of iGD43, iGD53 and iSIL. False of iXB, iCH and iDB, whose N counts every call, rejected or not, of iCH, whose data_center is the mean including the rejected samples, and of iPS, which keeps a cluster for the rejected sample. C93_left_behind says exactly what changes, for every state and arithmetic; C93_refuted: iXB returns 1/2 instead of 2/3, iCH 3.4 instead of 0.57. |
| C94 The rounding error of a returned value can be accounted for, and the stream is near the batch | proved | `C94_account`, `C94_account_float32`, `C94_stream_near_batch`, `C94_apart`, `C94_example`, `C94_cSIL_not_rounding` | Ball.v: an arithmetic that computes as the given one does and keeps a rational bound of the error beside each number, or says that it knows none (nan, inf, division by something that may be 0, roots of something that may be negative). Where it gives a bound, the bound holds. C94_example: six samples given in tenths, where the streams and batches of CH, WB, DB, XB, GD43 and GD53 are within 2e-11 of one another (the last bit of DB does differ); C94_cSIL_not_rounding: on the same samples the stream and the batch of cSIL differ by more than 1e-5 in exact arithmetic. |
| C95 iSIL of compat counts every sample once | partial | `C95_first_twice`, `C95_exact`, `C95_refuted` | False: the first sample of every cluster is entered twice. C95_first_twice (any arithmetic): the four attributes are exactly the account of the samples of the cluster with the first one taken twice; C95_exact says the same with sums and means of reals; C95_refuted: 0 and 3 in one cluster give size 3 and center 1. |
| C96 The compat classes under a change of numbers, sign and platform | proved | `C96_shapes`, `C96_mirror`, `C96_portable`, `C96_example_shapes`, `C96_example_mirror` | C96_mirror assumes that numpy adds in a fixed order and that ** of the platform maps numbers that are not negative to such numbers and zeros to zeros; iPS with both behaviours of np.sum of a generator. |
| C97 The compat classes refuse negative labels | partial | `C97_refuted`, `C97_from_the_end`, `C97_iSIL_table_kept`, `C97_iXB_spoilt`, `C97_example_iXB`, `C97_example_iSIL` | False of every class: a negative label is an index from the end (C97_from_the_end: the sample goes to cluster k - j). The loops over the other clusters then compare the cluster with itself: after the first negative label iXB never returns a finite number again (C97_iXB_spoilt, exact arithmetic, any history). iSIL moves the centre but leaves its table of distances as it was (C97_iSIL_table_kept, any arithmetic). No class raises ValueError (C97_refuted). |
| C98 Every sample a cluster of its own | proved | `C98_alone`, `C98_alone_float32`, `C98_alone_exact`, `C98_batch`, `C98_batch_float32`, `C98_batch_exact`, `C98_example`, `C98_batch_example` | The six classes whose values the statement names. Streams need no hypothesis on the numbers; batches need well-formed floats (valid, the invariant of the type spec_float). |
| C99 cSIL of single samples | partial | `C99_batch`, `C99_example`, `C99_exact`, `C99_exact_example`, `C99_streams_refuted` | Proved of batches in float64, and in exact arithmetic of batches and streams, which give 1 when no two samples are the same. FALSE of float64 streams: the samples 440837476 and 440837478, a label each, give -inf, because cSIL expands the squared distance, which rounding makes -64; the batch gives 1. |

## 5. Disagreements between the expected property and the code

Each is a theorem about the model; none was obtained by running the package.

* **C09, C10, C34, C36 (cSIL)**: two inner products in `cSIL._param_inc` are
  wrong. A new cluster subtracts `inner(G_new, v)` once instead of twice
  (cSIL.py:88). A known cluster uses `G_new`, which already contains the
  sample, where the old `G` belongs (cSIL.py:143). The
  incremental value differs from the batch value, depends on the order of the
  samples and on translations, and leaves [-1, 1] (-71/16 on a small stream).
  `C53_cSIL_streams` gives what it returns on every stream.
* **C13**: a batch whose labels are not exactly 0..k-1 returns nan (PS raises
  `ZeroDivisionError` if no label is in range).
* **C17**: after a batch DB, GD43, GD53, PS and rCIP accept single samples and
  number the labels afresh, so a sample labelled 1 can join cluster 0.
* **C21**: a rejected sample leaves its label in the label map; the next new label
  then fails, or in CH and WB is split over two clusters.
* **C22**: a sample of length 1 is broadcast to all features.
* **C37**: GD43 is not invariant under a change of units; it is divided by |u|.
* **C40**: CH and WB keep a reference to the array of the first sample.
* **C41**: fewer labels than rows are accepted by every class.
* **C42**: a batch that raises after the label check leaves the object unusable.
* **C44**: GD53 masks a nan sample that starts a cluster until a second sample
  joins the cluster.
* **C45**: iPS returns 0 on every stream.
* **C46, C47**: iGD43, iGD53 and iDB raise on every label they have seen before.
* **C48**: the first call of iSIL never returns, and iSIL adds to the caller's
  arrays in place.
* **C49**: iCH starts a new cluster for every sample labelled 0.
* **C73**: iCH refreshes the between-group term of the labelled cluster only (of cluster 0 when
  a cluster is opened, so the term of the opened cluster stays 0), while the mean of all samples
  moves; the other terms are stale. Samples 0, 2, 4 labelled 0, 0, 1 give 3/2, the index is 3;
  samples 0, 2, 0 give 11/18, the index is 1/3.
* **C50**: iXB divides by the smallest centroid distance there ever was.
* **C57, C58**: copies of samples and constant features change rCIP (covariances
  divide by n-1; the regularisation depends on the number of features) and cSIL's
  streams.
* **C59**: underflow in the updates of the compactness makes CH, WB, XB and GD43
  return a negative value on a stream near 7.7e-147; batches never do.
* **C52**: a `Cluster` in box mode accepts one point; `Clusters.from_list` raises
  on any data.
* **C63**: iSIL's entry for the center of another cluster is too large by
  |v_i|^2 / n_j when a sample joins cluster j.
* **C64**: `within_bounding_box` raises when there are two or more features, and
  with one feature is false of a held point below 1/2.
* **C66**: rounding can lift the value of GD53 above its bound 1/2, by at most
  2^-52 (witness: 1/2 + 2^-53).
* **C67**: batch rCIP subtracts two large sums to get a covariance. Far from the
  origin the variance comes out negative and the value is nan (samples near 10^8
  that differ by 2 and 3). Streams do not have this.
* **C69**: cSIL in streams and rCIP in batches do their sums of squares in the
  dtype of the data. On uint8 images they wrap at 256: cSIL returns 1.22, rCIP
  nan. int64 wraps at 2^63 (data of 2^32). With NumPy 2 cSIL raises
  OverflowError when a cluster holds more samples than the dtype's largest number.
* **C74**: GD53 does not depend on where the clusters are: moving each cluster by a vector of its
  own, even onto another one, changes none of its values, because the "distance" of two clusters
  in `GD53.py` is the pooled within-cluster scatter. PS does not change when the centroids are
  pulled apart by a common factor, because it divides by the mean squared distance of the centroids
  from their mean. Both
  follow the published definitions.
* **C75**: rCIP, which is small when clusters are well apart, grows when overlapping clusters are
  tightened: for -1, 1 | 0 it is smaller than for -1/2, 1/2 | 0. A property of the definition.
* **C74, C75**: the wrong inner products of cSIL's incremental update (C09) also turn it against the
  data: 0, 1 | 0, 2 fed in turn score -1/4, and -12/5 when the two clusters are pulled apart or halved.
* **C76**: DB, XB, GD43 and GD53 fed one sample at a time mask a sample with an infinite feature
  that starts a cluster until a second sample joins that cluster; with two clusters DB and XB report 0,
  their best value, meanwhile (`C76_refuted_values`).  The batch mode returns nan for the same samples.
* **C78**: float32 data do not give the values of the same numbers in float64. In streams the sample is
  multiplied by `1 / n` in float32, so the centroid of three samples 1, 1, 1 is 1.00000001: CH and GD43 are
  finite where float64 data give inf, GD53 is a number where they give nan (`C78_stream_refuted`). cSIL keeps
  `_CP` in float32: for 5001, 5002 | 5004, 5005 the value changes sign, and features from 2^64 on give nan
  (`C78_cSIL_refuted`). In batches the float32 sum of equal samples stops growing at 2^24 samples: with 2^25
  samples equal to 1 the centroid is at most 1/2 (`C78_large_batches_refuted`). The centroids of a stream are
  good to float32 accuracy for any number of samples (`C78_stream_centroids`).
* **C80**: with float32 data a batch can be wrong where a stream is right. For 2^23 | 2^23, 2^23 + 1 the float32
  sum of the second cluster is rounded, the two centroids coincide, and XB and DB of a batch are inf and GD43
  is 0; one sample at a time gives 2/3, 1 and 1, as do both modes with float64 data (`C80_needs_separation`).
  In general the error of a stream does not grow with its length, the bound for a batch does.
* **C81**: CH and WB do not prefer the label of the nearest centroid for a further sample but the one with the
  smallest n / (n + 1) * |x - v|^2: with -5, 5 | 25 the sample 12 is nearer to 0 (distance 12) than to 25
  (distance 13), yet both indices are better when it joins 25 (`C81_nearest_refuted`; exact criterion in
  `C81_CH_choice`, `C81_WB_choice`).

* **C83**: a nan label read out of an array is a new dict key every time: each sample without a label opens a
  cluster of its own. `math.nan` passed twice is one label.
* **C84**: PS of two clusters is (n + m) / max(n, m) - 2 exp(-4) for all data: it depends on the sizes only and
  rates 0, 100 | 1, 2 above 0, 1, 2 | 100.
* **C85**: cSIL of a batch of equal samples is 0; moving one sample by any amount can make it 1.
* **C86**: string labels work one sample at a time but never in a batch: the batch looks for rows labelled
  0..k-1, finds none and returns nan (PS: `ZeroDivisionError`). `True/False` and `0.0, 1.0, ...` do work.
* **C87**: all values but those of rCIP and of cSIL streams are functions of the labels and the mutual distances
  of the samples; rCIP depends on the number of features too, cSIL streams on the place of the origin.

- **C93** (`compat/v0.py:288`, `:363-366`, `:447-450`, `:945`): a sample that iXB,
  iCH or iDB rejects (label beyond the next unused number) is counted in `N`, and
  iCH has already moved `data_center` towards it; iPS keeps it as a cluster of its
  own and then raises IndexError. Values returned later are wrong
  (`C93_refuted`).

- **C95** (`compat/v0.py:848-876`, `:894`): iSIL enters the first sample of a
  cluster with size 1 and then runs the ordinary update for the same sample, so it
  counts twice in `cluster_sizes`, `cluster_centers`, `CP` and `g`
  (`C95_first_twice`, `C95_refuted`). All later values are computed from these.

- **C97** (`compat/v0.py:289-295` and the same test in the other classes): a negative
  label is not refused. It indexes the lists from the end, so the sample goes to
  cluster `k - j`, while the loops `if j != c_i` exclude nothing. iXB then takes the
  distance 0 of a centre to itself as the least distance and returns no finite value
  any more (`C97_iXB_spoilt`); iSIL reads the zeros that `np.pad` put at the border
  of its table (`C97_example_iSIL`).

- **C98**: when every sample gets a label of its own, WB, DB and XB report their best
  value 0, GD43 reports +inf, and CH and GD53 report nan, whatever the samples
  (`C98_alone`, `C98_batch`, also for float32 data and in exact arithmetic).

- **C99** (`cSIL.py`, `_param_inc`): with a label for every sample the batch gives 1,
  nan or 0 (`C99_batch`), but fed one by one the samples 440837476 and 440837478 give
  -inf: the squared distance is computed as `x*x + y*y - 2*x*y` and comes out as -64
  (`C99_streams_refuted`).  In exact arithmetic streams give 1 as well (`C99_exact`).
- **C102** (`GD53.py`, `_evaluate`): a sample at the centroid of its cluster can make
  GD53 fall, though it lowers no distance between clusters: the pooled spread of a pair
  falls with it.  Clusters -1, 1 | 10, 14: 5/16, with a sample 0 in the first 1/4
  (`C102_GD53_refuted`).  CH, WB, DB, XB and GD43 do not get worse.
- **C103** (`_param_inc` of CH, WB, DB, XB, GD43, GD53): three copies of the sample 15
  have the running mean 15 + 2^-49, because `(1 - 1/n) * v + (1/n) * x` is rounded.  So
  the stream 15, 15, 15 | 0 gives CH 3.6e31 instead of inf, and GD53 3/8 instead of nan:
  a value made of rounding errors only (`C103_streams_refuted`).  Batches of small
  integers are right (`C103_batch`), and so are streams whose running means stay exact
  (`C103_streams_kept`), such as pairs of integers (`C103_streams_two`); a batch of 0.1, 0.1, 0.1 | 0 is not
  (`C103_fractions_refuted`).

## 6. Trusted base

* Coq's kernel (8.16.1), including its conversion by virtual machine
  (`vm_compute`), which closes the binary64 witnesses. `native_compute` is not
  used. No kernel check is switched off; there is no `Admitted`, no axiom, no
  section-less `Variable` or `Hypothesis`, no functor, no module type and no
  plugin in the development.
* The standard library's axioms listed below, and nothing from other libraries.
  They come from the real numbers (`sig_forall_dec`, `sig_not_dec`,
  `functional_extensionality_dep`), and from the choice of a matrix inverse and
  of the limits used there (`classic`, `constructive_indefinite_description`).
  `coqchk` also names the sealed definitions of `Reals` and of `ssrunder`; they
  are definitions behind a module signature, not axioms of their own.
* The reading of the Python source: that each definition of the model says what
  the cited lines do under CPython and numpy. `/repo` was read, never run.

### Mutation testing

`seeded/LOG.jsonl` has one line per edited program. `theorems_failed` lists every
property theorem whose proof no longer goes through, directly or because it uses
a lemma that no longer holds. Lemmas are often shared by all nine classes, so the
lists are wider than the claim that was broken.


### What Print Assumptions lists

**No axiom at all** (“Closed under the global context”):

* `P_Alias.v`: `C40_caller_arrays_never_written`, `C40_later_writes_not_seen`, `C40_refuted`, `C40_first_array_left_alone`, `C40_until_a_call_returns`, `C40_after_a_batch`, `C43_nothing_shared`, `C43_writes_are_private`, `C43_interleaving`, `C43_interleaving_no_writes`
* `P_Alone.v`: `C98_alone`, `C98_alone_float32`, `C98_example`
* `P_AloneB.v`: `C98_batch_example`
* `P_AloneS.v`: `C99_example`, `C99_streams_refuted`
* `P_Base.v`: `C54_base_class_refuses`, `C54_which_exception`, `C55_numbers`, `C55_same_number_iff`, `C55_consecutive`
* `P_Batch.v`: `C13_any_labels_in_batches_refuted`, `C17_refused_after_batch_refuted`, `C17_four_classes_refuse_for_ever`, `C41_wrong_number_of_labels_refuted`, `C41_six_classes_ignore_unlabelled_rows`, `C41_extra_label_in_range_raises`, `C42_failed_batch_can_be_retried_refuted`, `C42_one_attempt_only`, `C42_label_errors_can_be_retried`
* `P_Calls.v`: `C11_label_names_are_irrelevant`, `C14_zero_until_second_label`, `C14_zero_stream`, `C14_batch_single_label`, `C15_rejected_calls_have_no_effect`, `C16_used_objects_refuse_batches`, `C18_rectangular_streams_never_raise`, `C19_returned_value_is_attribute`, `C19_failing_call_keeps_value`, `C20_samples_counted_once`
* `P_Comp.v`: `C77_parts_fit_the_value`, `C77_modules`
* `P_Compat.v`: `C45_returns_only_zero_binary64`, `C45_every_call_returns`, `C45_recent_numpy`, `C46_only_new_clusters_return`, `C46_seen_label_raises`, `C46_refuted`, `C47_what_a_call_does`, `C47_seen_label_raises`, `C47_returns_only_zero`, `C47_refuted`, `C48_first_update`, `C48_what_is_written`, `C48_one_cluster_never_returns`, `C48_new_cluster_is_nan_binary64`, `C48_refuted`, `C49_zero_labels_never_merge`, `C49_number_of_clusters`, `C49_positive_labels`, `C49_refuted`, `C50_which_calls_return`, `C50_nan_binary64`, `C51_seven_names`, `C51_every_other_string`, `C52_other_length`, `C52_distances_empty`, `C52_box_at_most_one`, `C52_box_refuted`, `C52_from_list`, `C52_from_list_refuted`
* `P_Compat2.v`: `C64_empty`
* `P_Count.v`: `C93_every_call_counts`, `C93_iSIL_counts`, `C93_left_behind`, `C93_refuted`
* `P_F32.v`: `C78_nan_stream`, `C78_nan_batch`
* `P_F32b.v`: `C78_cSIL_refuted`, `C78_batch_refuted`
* `P_Inc.v`: `C09_cSIL_binary64_refuted`
* `P_Inf.v`: `C76_refuted`, `C76_refuted_values`
* `P_Int.v`: `C69_cSIL_int64_refuted`, `C69_cSIL_overflow_refuted`, `C69_rCIP_uint8_refuted`
* `P_Lab.v`: `C83_any_labels`, `C83_python_labels`, `C83_fresh_nan`, `C83_missing_labels_refuted`
* `P_LabB.v`: `C86_only_two_things`, `C86_arrays`, `C86_same_entries`, `C86_ints`, `C86_bools`, `C86_integral_floats`
* `P_Memory.v`: `C71_stream`, `C71_example`
* `P_Nan.v`: `C44_eight_classes_binary64`, `C44_refuted`, `C44_GD53_from_the_second_sample`, `C44_batches_binary64`
* `P_Neg.v`: `C97_from_the_end`, `C97_iSIL_table_kept`, `C97_refuted`, `C97_example_iSIL`
* `P_Par.v`: `C89_portable`, `C89_portable_float32`
* `P_ParK.v`: `C96_shapes`, `C96_portable`, `C96_example_shapes`
* `P_Same.v`: `C103_example`, `C103_streams_refuted`, `C103_fractions_refuted`
* `P_SameS.v`: `C103_streams_example`
* `P_Shape.v`: `C91_exceptions`, `C91_bookkeeping`, `C91_example`
* `P_Sign.v`: `C59_batches`, `C59_streams_refuted`
* `P_Sil.v`: `C95_first_twice`
* `P_Wrong.v`: `C22_wrong_length_raises_unless`, `C22_one_number_is_every_coordinate`, `C22_refuted`, `C21_known_label_leaves_no_trace`, `C21_new_label_leaves_only_its_label`, `C21_next_new_label_is_refused`, `C21_next_new_label_is_split`, `C21_refuted`, `C21_length_one_refuted`

**`ClassicalDedekindReals.sig_forall_dec`, `FunctionalExtensionality.functional_extensionality_dep`**:

* `P_Bounds64.v`: `C66_GD53_refuted`
* `P_Cov64.v`: `C67_batch_refuted`
* `P_Degenerate.v`: `C38_total_scatter`
* `P_Int.v`: `C69_cSIL_uint8_refuted`
* `P_Pair.v`: `C88_two`

**`ClassicalDedekindReals.sig_forall_dec`, `ClassicalDedekindReals.sig_not_dec`, `Classical_Prop.classic`, `FunctionalExtensionality.functional_extensionality_dep`**:

* `P_AloneB.v`: `C98_batch`, `C98_batch_float32`
* `P_AloneS.v`: `C99_batch`
* `P_Bounds64.v`: `C66_cSIL_batch`, `C66_PS_batch`, `C66_PS_stream`, `C66_GD53_batch`
* `P_Cov64.v`: `C67_stream`
* `P_Even.v`: `C101_batch`, `C101_stream`, `C101_example`
* `P_F32.v`: `C78_stream_centroids`, `C78_stream_mean`, `C78_batch_centroids`
* `P_F32b.v`: `C78_stream_refuted`, `C78_large_batches_refuted`
* `P_F32v.v`: `C79_stream_compactness`, `C79_batch_compactness`, `C79_stream_CH`, `C79_stream_WB`, `C79_batch_CH`, `C79_batch_WB`
* `P_F32w.v`: `C80_stream`, `C80_batch`, `C80_modes_agree`, `C80_needs_separation`
* `P_Inf.v`: `C76_four_classes_binary64`, `C76_from_the_second_sample_binary64`, `C76_batches_binary64`
* `P_Int.v`: `C69_streams_binary64`, `C69_batches_binary64`
* `P_Par.v`: `C89_mirror`, `C89_mirror_float32`
* `P_ParK.v`: `C96_mirror`, `C96_example_mirror`
* `P_Repro.v`: `C72_reproducible`
* `P_Round.v`: `C60_stream_centroids`, `C60_stream_mean`, `C60_batch_centroids`, `C60_modes_agree`
* `P_RoundCP.v`: `C61_stream_compactness`, `C61_batch_compactness`, `C61_modes_agree`
* `P_RoundPS.v`: `C68_stream`, `C68_batch`, `C68_modes_agree`, `C68_needs_separation`
* `P_RoundSil.v`: `C70_batch`, `C70_needs_separation`
* `P_RoundV.v`: `C62_stream_CH`, `C62_stream_WB`, `C62_batch_CH`, `C62_batch_WB`, `C62_modes_agree`, `C62_needs_scatter`
* `P_RoundV2.v`: `C65_stream`, `C65_batch`, `C65_modes_agree`, `C65_needs_separation`
* `P_Same.v`: `C103_batch`
* `P_SameS.v`: `C103_streams_kept`, `C103_streams_two`
* `P_Scal.v`: `C90_units`

**`ClassicalDedekindReals.sig_forall_dec`, `ClassicalDedekindReals.sig_not_dec`, `ClassicalEpsilon.constructive_indefinite_description`, `Classical_Prop.classic`, `FunctionalExtensionality.functional_extensionality_dep`**:

* `P_Alone.v`: `C98_alone_exact`
* `P_AloneB.v`: `C98_batch_exact`
* `P_AloneP.v`: `C100_rCIP`, `C100_PS`, `C100_example`
* `P_AloneX.v`: `C99_exact`, `C99_exact_example`
* `P_Apart.v`: `C74_batch_partial`, `C74_streams_partial`, `C74_GD53_blind_batch`, `C74_GD53_blind_streams`, `C74_refuted`, `C74_cSIL_streams_refuted`
* `P_Ball.v`: `C94_account`, `C94_account_float32`, `C94_stream_near_batch`, `C94_apart`
* `P_Batch.v`: `C13_contiguous_labels_agree`, `C13_other_labels_give_nan`, `C13_PS_without_labels_in_range_raises`, `C17_five_classes_continue`, `C17_five_classes_right_if_in_order`, `C41_CH_WB_XB_mix`, `C41_too_many_labels`
* `P_Bounds.v`: `C32_nonnegative`, `C33_GD53_at_most_half`, `C34_cSIL_bounds_partial`, `C34_cSIL_streams_refuted`, `C35_PS_bounds`, `C36_translation_batch`, `C36_translation_streams_partial`, `C36_cSIL_translation_refuted`, `C37_units_batch`, `C37_units_streams`, `C37_GD43_law_batch`, `C37_GD43_law_streams`, `C37_GD43_units_refuted`
* `P_Centre.v`: `C102_XB`, `C102_GD43`, `C102_CH`, `C102_WB`, `C102_DB`, `C102_example`, `C102_GD53_refuted`
* `P_Comp.v`: `C77_streams`, `C77_batches`
* `P_Compat.v`: `C45_returns_only_zero_exact`, `C45_refuted`, `C48_new_cluster_is_nan_exact`, `C50_iXB_and_XB`, `C50_never_smaller`, `C50_agree_iff`, `C50_one_cluster`, `C50_refuted`, `C52_mean`, `C52_distances`
* `P_Compat2.v`: `C63_new_cluster`, `C63_seen_cluster`, `C63_refuted`, `C52_box_range`, `C64_two_or_more_features`, `C64_one_feature`, `C64_coded`, `C64_refuted`
* `P_Compat3.v`: `C73_value`, `C73_agree_iff`, `C73_refuted`
* `P_Degenerate.v`: `C38_CH_times_WB`, `C39_case_analysis`, `C39_case_analysis_cSIL_batch`, `C39_case_analysis_cSIL_streams`, `C39_second_sample`
* `P_EvenX.v`: `C101_exact`, `C101_exact_example`
* `P_Exa.v`: `C92_exact`, `C92_exact_float32`, `C92_stream_is_batch`
* `P_Formula.v`: `C23_CH_formula`, `C23_CH_formula_streams`, `C24_WB_formula`, `C24_WB_formula_streams`, `C25_DB_formula`, `C25_DB_formula_streams`, `C26_XB_formula`, `C26_XB_formula_streams`, `C27_GD43_formula`, `C27_GD43_formula_streams`, `C28_GD53_formula`, `C28_GD53_formula_streams`, `C29_PS_formula`, `C29_PS_formula_streams`, `C30_cSIL_formula`, `C31_rCIP_formula`, `C31_rCIP_formula_streams`
* `P_Inc.v`: `C01_CH_incremental_is_batch`, `C02_WB_incremental_is_batch`, `C03_DB_incremental_is_batch`, `C04_XB_incremental_is_batch`, `C05_GD43_incremental_is_batch`, `C06_GD53_incremental_is_batch`, `C07_PS_incremental_is_batch`, `C08_rCIP_incremental_is_batch`, `C09_cSIL_incremental_is_batch_refuted`, `C53_cSIL_streams`, `C10_order_of_samples_partial`, `C10_cSIL_order_of_samples_refuted`, `C12_batch_invariance`
* `P_Inf.v`: `C76_four_classes_exact`, `C76_from_the_second_sample_exact`, `C76_batches_exact`
* `P_Int.v`: `C69_streams_exact`, `C69_batches_exact`
* `P_Iso.v`: `C87_batches`, `C87_GD43_batches`, `C87_streams`, `C87_GD43_streams`, `C87_same_distances`, `C87_rCIP_refuted`, `C87_cSIL_streams_refuted`
* `P_LabB.v`: `C86_numbers_work`, `C86_others_do_not`, `C86_strings_refuted`
* `P_Merge.v`: `C82_sums`, `C82_WB_merge`, `C82_CH_merge`, `C82_same_centroid`
* `P_Move.v`: `C56_rotation_batch`, `C56_rotation_streams`, `C56_order_of_features`, `C57_repeated_batch`, `C57_repeated_streams_partial`, `C57_CH_law`, `C57_CH_law_streams`, `C57_cSIL_streams_refuted`, `C57_rCIP_refuted`, `C58_constant_feature_batch_partial`, `C58_constant_feature_streams_partial`, `C58_rCIP_refuted`, `C58_cSIL_streams_refuted`
* `P_Nan.v`: `C44_eight_classes_exact`, `C44_batches_exact`
* `P_Neg.v`: `C97_iXB_spoilt`, `C97_example_iXB`
* `P_One.v`: `C81_compactness`, `C81_new_label`, `C81_sums`, `C81_CH_choice`, `C81_WB_choice`, `C81_nearest_equal_sizes_partial`, `C81_nearest_refuted`
* `P_Pair.v`: `C88_WB`, `C88_CH`, `C88_DB`, `C88_no_converse`
* `P_Pert.v`: `C85_small_changes`, `C85_small_changes_cSIL_batch`, `C85_continuous`, `C85_continuous_cSIL_batch`, `C85_cSIL_jump`
* `P_SameX.v`: `C103_exact`, `C103_exact_example`
* `P_Sil.v`: `C95_exact`, `C95_refuted`
* `P_Tight.v`: `C75_batch_partial`, `C75_streams_partial`, `C75_rCIP_refuted`, `C75_cSIL_streams_refuted`
* `P_Two.v`: `C84_WB_is_XB`, `C84_CH_is_XB`, `C84_DB_and_XB`, `C84_PS_value`, `C84_PS_blind`, `C84_PS_refuted`

