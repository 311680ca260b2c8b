{"id": "C01", "title": "CH: incremental value equals batch value at every prefix", "statement": "Feed any labelled samples one at a time to a fresh CH(); after each call whose prefix contains exactly the labels 0..k-1 with k>=2, the returned criterion value equals the value a fresh CH() returns for one batch call on the same prefix (in exact arithmetic, with numpy's inf/nan conventions for division by zero).", "quantifier": "every stream of labelled samples of every length and dimension, every arrival order of the labels, every prefix of the stream", "why_tests_cant": "the repository test compares three fixed 2-D data sets at the last sample only, with a 10% tolerance; the claim is an identity over all streams and all prefixes", "anchors": ["src/cvi/modules/CH.py:CH._param_inc", "src/cvi/modules/CH.py:CH._param_batch", "src/cvi/modules/CH.py:CH._evaluate", "src/cvi/modules/_base.py:CVI.get_cvi", "README.md (batch and incremental implementations are equivalent)"]}
{"id": "C02", "title": "WB: incremental value equals batch value at every prefix", "statement": "Feed any labelled samples one at a time to a fresh WB(); after each call whose prefix contains exactly the labels 0..k-1 with k>=2, the returned criterion value equals the value a fresh WB() returns for one batch call on the same prefix (in exact arithmetic, with numpy's inf/nan conventions for division by zero).", "quantifier": "every stream of labelled samples of every length and dimension, every arrival order of the labels, every prefix of the stream", "why_tests_cant": "the repository test compares three fixed 2-D data sets at the last sample only, with a 10% tolerance; the claim is an identity over all streams and all prefixes", "anchors": ["src/cvi/modules/WB.py:WB._param_inc", "src/cvi/modules/WB.py:WB._param_batch", "src/cvi/modules/WB.py:WB._evaluate", "src/cvi/modules/_base.py:CVI.get_cvi", "README.md (batch and incremental implementations are equivalent)"]}
{"id": "C03", "title": "DB: incremental value equals batch value at every prefix", "statement": "Feed any labelled samples one at a time to a fresh DB(); after each call whose prefix contains exactly the labels 0..k-1 with k>=2, the returned criterion value equals the value a fresh DB() returns for one batch call on the same prefix (in exact arithmetic, with numpy's inf/nan conventions for division by zero).", "quantifier": "every stream of labelled samples of every length and dimension, every arrival order of the labels, every prefix of the stream", "why_tests_cant": "the repository test compares three fixed 2-D data sets at the last sample only, with a 10% tolerance; the claim is an identity over all streams and all prefixes", "anchors": ["src/cvi/modules/DB.py:DB._param_inc", "src/cvi/modules/DB.py:DB._param_batch", "src/cvi/modules/DB.py:DB._evaluate", "src/cvi/modules/_base.py:CVI.get_cvi", "README.md (batch and incremental implementations are equivalent)"]}
{"id": "C04", "title": "XB: incremental value equals batch value at every prefix", "statement": "Feed any labelled samples one at a time to a fresh XB(); after each call whose prefix contains exactly the labels 0..k-1 with k>=2, the returned criterion value equals the value a fresh XB() returns for one batch call on the same prefix (in exact arithmetic, with numpy's inf/nan conventions for division by zero).", "quantifier": "every stream of labelled samples of every length and dimension, every arrival order of the labels, every prefix of the stream", "why_tests_cant": "the repository test compares three fixed 2-D data sets at the last sample only, with a 10% tolerance; the claim is an identity over all streams and all prefixes", "anchors": ["src/cvi/modules/XB.py:XB._param_inc", "src/cvi/modules/XB.py:XB._param_batch", "src/cvi/modules/XB.py:XB._evaluate", "src/cvi/modules/_base.py:CVI.get_cvi", "README.md (batch and incremental implementations are equivalent)"]}
{"id": "C05", "title": "GD43: incremental value equals batch value at every prefix", "statement": "Feed any labelled samples one at a time to a fresh GD43(); after each call whose prefix contains exactly the labels 0..k-1 with k>=2, the returned criterion value equals the value a fresh GD43() returns for one batch call on the same prefix (in exact arithmetic, with numpy's inf/nan conventions for division by zero).", "quantifier": "every stream of labelled samples of every length and dimension, every arrival order of the labels, every prefix of the stream", "why_tests_cant": "the repository test compares three fixed 2-D data sets at the last sample only, with a 10% tolerance; the claim is an identity over all streams and all prefixes", "anchors": ["src/cvi/modules/GD43.py:GD43._param_inc", "src/cvi/modules/GD43.py:GD43._param_batch", "src/cvi/modules/GD43.py:GD43._evaluate", "src/cvi/modules/_base.py:CVI.get_cvi", "README.md (batch and incremental implementations are equivalent)"]}
{"id": "C06", "title": "GD53: incremental value equals batch value at every prefix", "statement": "Feed any labelled samples one at a time to a fresh GD53(); after each call whose prefix contains exactly the labels 0..k-1 with k>=2, the returned criterion value equals the value a fresh GD53() returns for one batch call on the same prefix (in exact arithmetic, with numpy's inf/nan conventions for division by zero).", "quantifier": "every stream of labelled samples of every length and dimension, every arrival order of the labels, every prefix of the stream", "why_tests_cant": "the repository test compares three fixed 2-D data sets at the last sample only, with a 10% tolerance; the claim is an identity over all streams and all prefixes", "anchors": ["src/cvi/modules/GD53.py:GD53._param_inc", "src/cvi/modules/GD53.py:GD53._param_batch", "src/cvi/modules/GD53.py:GD53._evaluate", "src/cvi/modules/_base.py:CVI.get_cvi", "README.md (batch and incremental implementations are equivalent)"]}
{"id": "C07", "title": "PS: incremental value equals batch value at every prefix", "statement": "Feed any labelled samples one at a time to a fresh PS(); after each call whose prefix contains exactly the labels 0..k-1 with k>=2, the returned criterion value equals the value a fresh PS() returns for one batch call on the same prefix (in exact arithmetic, with numpy's inf/nan conventions for division by zero).", "quantifier": "every stream of labelled samples of every length and dimension, every arrival order of the labels, every prefix of the stream", "why_tests_cant": "the repository test compares three fixed 2-D data sets at the last sample only, with a 10% tolerance; the claim is an identity over all streams and all prefixes", "anchors": ["src/cvi/modules/PS.py:PS._param_inc", "src/cvi/modules/PS.py:PS._param_batch", "src/cvi/modules/PS.py:PS._evaluate", "src/cvi/modules/_base.py:CVI.get_cvi", "README.md (batch and incremental implementations are equivalent)"]}
{"id": "C08", "title": "rCIP: incremental value equals batch value at every prefix", "statement": "Feed any labelled samples one at a time to a fresh rCIP(); after each call whose prefix contains exactly the labels 0..k-1 with k>=2, the returned criterion value equals the value a fresh rCIP() returns for one batch call on the same prefix (in exact arithmetic, with numpy's inf/nan conventions for division by zero). Neither mode ever raises on such data (no covariance sum is singular).", "quantifier": "every stream of labelled samples of every length and dimension, every arrival order of the labels, every prefix of the stream", "why_tests_cant": "the repository test compares three fixed 2-D data sets at the last sample only, with a 10% tolerance; the claim is an identity over all streams and all prefixes", "anchors": ["src/cvi/modules/rCIP.py:rCIP._param_inc", "src/cvi/modules/rCIP.py:rCIP._param_batch", "src/cvi/modules/rCIP.py:rCIP._evaluate", "src/cvi/modules/_base.py:CVI.get_cvi", "README.md (batch and incremental implementations are equivalent)"]}
{"id": "C09", "title": "cSIL: incremental value equals batch value at every prefix", "statement": "Feed any labelled samples one at a time to a fresh cSIL(); after each call whose prefix contains exactly the labels 0..k-1 with k>=2, the returned criterion value equals the value a fresh cSIL() returns for one batch call on the same prefix (in exact arithmetic, with numpy's inf/nan conventions for division by zero).", "quantifier": "every stream of labelled samples of every length and dimension, every arrival order of the labels, every prefix of the stream", "why_tests_cant": "the repository test compares three fixed 2-D data sets at the last sample only, with a 10% tolerance; the claim is an identity over all streams and all prefixes", "anchors": ["src/cvi/modules/cSIL.py:cSIL._param_inc", "src/cvi/modules/cSIL.py:cSIL._param_batch", "src/cvi/modules/cSIL.py:cSIL._evaluate", "src/cvi/modules/_base.py:CVI.get_cvi", "README.md (batch and incremental implementations are equivalent)"]}
{"id": "C10", "title": "Incremental value does not depend on the order of the samples", "statement": "Two streams that are permutations of one another leave two fresh objects of the same index returning the same criterion value after their last sample (exact arithmetic).", "quantifier": "every pair of streams that are permutations of one another, every index", "why_tests_cant": "the number of permutations is factorial in the stream length; tests use one order", "anchors": ["src/cvi/modules/*.py:_param_inc", "src/cvi/modules/_base.py:LabelMap.get_internal_label"]}
{"id": "C11", "title": "Incremental mode is insensitive to the names of the labels, bit for bit", "statement": "Renaming the labels of a stream with any injective map changes no returned value and no raised exception, in any arithmetic (in particular bit for bit in IEEE floats), including for malformed streams.", "quantifier": "every index, every injective renaming, every sequence of 1-D calls, every interpretation of the floating point operations", "why_tests_cant": "ranges over all injective maps on integers and all histories including failing ones", "anchors": ["src/cvi/modules/_base.py:LabelMap", "src/cvi/modules/*.py:_param_inc"]}
{"id": "C12", "title": "Batch value is invariant under permuting the clusters' labels and the rows", "statement": "For a batch whose labels are exactly 0..k-1 the criterion value is unchanged when the rows are permuted together with their labels and when the labels are permuted among 0..k-1 (exact arithmetic).", "quantifier": "every valid batch, every row permutation, every permutation of 0..k-1, every index", "why_tests_cant": "factorially many permutations and unbounded data", "anchors": ["src/cvi/modules/*.py:_param_batch", "src/cvi/modules/*.py:_evaluate"]}
{"id": "C13", "title": "Batch mode accepts any label set that incremental mode accepts", "statement": "A batch call whose labels are any integers with at least two distinct values returns the same value as feeding the rows incrementally. (If false: characterise exactly what happens when the labels are not 0..k-1.)", "quantifier": "every batch with at least two distinct labels", "why_tests_cant": "tests only use zero-based contiguous labels; the failing set is every other label set", "anchors": ["src/cvi/modules/*.py:_param_batch (labels[x] == ix for ix in range(n_clusters))", "src/cvi/modules/_base.py:CVI.get_cvi"]}
{"id": "C14", "title": "Criterion value is exactly zero until a second label has been seen", "statement": "While all samples fed to a fresh object carry one and the same label every call returns 0.0; with batch mode a single label is rejected with ValueError. Holds in any arithmetic.", "quantifier": "every index, every one-label stream, every arithmetic", "why_tests_cant": "for all stream lengths and values", "anchors": ["src/cvi/modules/*.py:_evaluate", "src/cvi/modules/_base.py:CVI.get_cvi"]}
{"id": "C15", "title": "Rejected calls have no effect", "statement": "A call rejected by the dispatcher (ndim not 1 or 2; batch with fewer than two distinct labels; batch on an object already in use) raises ValueError and leaves the object such that every later call sequence behaves exactly as if the rejected call had not been made.", "quantifier": "every index, every object state, every later call sequence", "why_tests_cant": "quantifies over all reachable states and all continuations", "anchors": ["src/cvi/modules/_base.py:CVI.get_cvi"]}
{"id": "C16", "title": "An object that has accepted data refuses batches for ever", "statement": "After any successful call on an object, every later 2-D call raises ValueError whatever the intervening calls were.", "quantifier": "every index, every history of calls", "why_tests_cant": "all histories", "anchors": ["src/cvi/modules/_base.py:CVI.get_cvi", "src/cvi/modules/_base.py:CVI._setup", "src/cvi/modules/_base.py:CVI._setup_batch"]}
{"id": "C17", "title": "Switching from batch to incremental mode is refused", "statement": "README: 'switching from batch to incremental updates with the same [object] is not yet implemented'. After a successful batch call a 1-D call must be refused with an error and must not change the index's value. (If false: say which indices accept it and what they compute.)", "quantifier": "every index, every valid batch, every subsequent sample and label", "why_tests_cant": "depends on every batch and every label; the repository has no such test", "anchors": ["src/cvi/modules/_base.py:CVI.get_cvi (ndim == 1 branch)", "src/cvi/modules/*.py:_param_inc", "README.md"]}
{"id": "C18", "title": "Well-formed incremental streams never raise", "statement": "On a fresh object, any stream of samples of one common length never raises, whatever the labels, values (including nan and inf) and floating point results; for rCIP this needs length >= 1 and np.linalg.inv not to raise.", "quantifier": "every index, every stream with samples of a common length, every arithmetic", "why_tests_cant": "index arithmetic must be in range for every stream", "anchors": ["src/cvi/modules/*.py:_param_inc", "src/cvi/modules/*.py:_evaluate"]}
{"id": "C19", "title": "The returned value is the criterion_value attribute, and a failing call leaves it alone", "statement": "If get_cvi returns, the returned number is the object's criterion_value attribute afterwards; if get_cvi raises, criterion_value is what it was before the call.", "quantifier": "every index, every object state (reachable or not), every call, every arithmetic", "why_tests_cant": "all states and all failure points inside a call", "anchors": ["src/cvi/modules/_base.py:CVI.get_cvi", "src/cvi/modules/*.py:_evaluate"]}
{"id": "C20", "title": "Every accepted sample is counted exactly once, in the cluster of its label", "statement": "After a well-formed stream on a fresh object the number of clusters is the number of distinct labels, the sample counter is the stream length, and the size recorded for each label is the number of samples with that label, clusters being numbered in order of first appearance.", "quantifier": "every index, every well-formed stream, every arithmetic", "why_tests_cant": "inductive invariant over unbounded histories", "anchors": ["src/cvi/modules/_base.py:LabelMap", "src/cvi/modules/*.py:_param_inc"]}
{"id": "C21", "title": "A sample that is rejected leaves no trace", "statement": "If get_cvi raises on a sample (for instance because its length differs from the earlier ones) then the calls that follow return what they would have returned had the bad sample never been presented.", "quantifier": "every index, every state reached by a well-formed stream, every bad sample, every continuation", "why_tests_cant": "needs every failing sample and every continuation", "anchors": ["src/cvi/modules/*.py:_param_inc (label map and counters are updated before the arrays are combined)", "src/cvi/modules/_base.py:LabelMap.get_internal_label"]}
{"id": "C22", "title": "A sample of the wrong length is rejected", "statement": "After a stream of samples of length d, a sample of another length raises.", "quantifier": "every index, every well-formed non-empty stream, every sample of a different length, every label", "why_tests_cant": "numpy broadcasting makes the answer depend on the pair of lengths and on label novelty", "anchors": ["src/cvi/modules/*.py:_param_inc"]}
{"id": "C23", "title": "CH batch value is the published formula", "statement": "For a batch labelled 0..k-1, k>=2, a fresh CH() returns (BGSS/(k-1))/(WGSS/(n-k)) where WGSS is the within-group and BGSS the between-group sum of squares, when WGSS is not 0 (exact arithmetic).", "quantifier": "every batch with labels exactly 0..k-1, any number of rows and features", "why_tests_cant": "identity over all data sets; the tests only compare CH with scikit-learn, with tolerance 1000", "anchors": ["src/cvi/modules/CH.py:CH._param_batch", "src/cvi/modules/CH.py:CH._evaluate"]}
{"id": "C24", "title": "WB batch value is the published formula", "statement": "For a batch labelled 0..k-1, k>=2, a fresh WB() returns k*WGSS/BGSS when BGSS is not 0 (exact arithmetic).", "quantifier": "every batch with labels exactly 0..k-1, any number of rows and features", "why_tests_cant": "identity over all data sets; the tests only compare CH with scikit-learn, with tolerance 1000", "anchors": ["src/cvi/modules/WB.py:WB._param_batch", "src/cvi/modules/WB.py:WB._evaluate"]}
{"id": "C25", "title": "DB batch value is the published formula", "statement": "For a batch labelled 0..k-1, k>=2, a fresh DB() returns the mean over clusters of max over other clusters of (S_i+S_j)/|v_i-v_j|^2, S_i being the mean squared distance to the centroid, when the centroids are distinct (exact arithmetic).", "quantifier": "every batch with labels exactly 0..k-1, any number of rows and features", "why_tests_cant": "identity over all data sets; the tests only compare CH with scikit-learn, with tolerance 1000", "anchors": ["src/cvi/modules/DB.py:DB._param_batch", "src/cvi/modules/DB.py:DB._evaluate"]}
{"id": "C26", "title": "XB batch value is the published formula", "statement": "For a batch labelled 0..k-1, k>=2, a fresh XB() returns WGSS/(n * min over pairs of |v_i-v_j|^2) when the centroids are distinct (exact arithmetic).", "quantifier": "every batch with labels exactly 0..k-1, any number of rows and features", "why_tests_cant": "identity over all data sets; the tests only compare CH with scikit-learn, with tolerance 1000", "anchors": ["src/cvi/modules/XB.py:XB._param_batch", "src/cvi/modules/XB.py:XB._evaluate"]}
{"id": "C27", "title": "GD43 batch value is the published formula", "statement": "For a batch labelled 0..k-1, k>=2, a fresh GD43() returns min over pairs of |v_i-v_j| divided by twice the largest mean squared distance to the centroid, when that is not 0 (exact arithmetic).", "quantifier": "every batch with labels exactly 0..k-1, any number of rows and features", "why_tests_cant": "identity over all data sets; the tests only compare CH with scikit-learn, with tolerance 1000", "anchors": ["src/cvi/modules/GD43.py:GD43._param_batch", "src/cvi/modules/GD43.py:GD43._evaluate"]}
{"id": "C28", "title": "GD53 batch value is the published formula", "statement": "For a batch labelled 0..k-1, k>=2, a fresh GD53() returns min over pairs of (CP_i+CP_j)/(n_i+n_j) divided by twice the largest CP_i/n_i, when that is not 0 (exact arithmetic).", "quantifier": "every batch with labels exactly 0..k-1, any number of rows and features", "why_tests_cant": "identity over all data sets; the tests only compare CH with scikit-learn, with tolerance 1000", "anchors": ["src/cvi/modules/GD53.py:GD53._param_batch", "src/cvi/modules/GD53.py:GD53._evaluate"]}
{"id": "C29", "title": "PS batch value is the published formula", "statement": "For a batch labelled 0..k-1, k>=2, a fresh PS() returns the sum over clusters of n_i/max n - exp(-min_j |v_i-v_j|^2/beta), beta the mean squared distance of centroids to their mean, when the centroids are not all equal (exact arithmetic).", "quantifier": "every batch with labels exactly 0..k-1, any number of rows and features", "why_tests_cant": "identity over all data sets; the tests only compare CH with scikit-learn, with tolerance 1000", "anchors": ["src/cvi/modules/PS.py:PS._param_batch", "src/cvi/modules/PS.py:PS._evaluate"]}
{"id": "C30", "title": "cSIL batch value is the published formula", "statement": "For a batch labelled 0..k-1, k>=2, a fresh cSIL() returns the mean over clusters of (b_i-a_i)/max(a_i,b_i), a_i the mean squared distance of cluster i's samples to v_i and b_i the smallest over other clusters j of the mean squared distance of cluster j's samples to v_i (exact arithmetic).", "quantifier": "every batch with labels exactly 0..k-1, any number of rows and features", "why_tests_cant": "identity over all data sets; the tests only compare CH with scikit-learn, with tolerance 1000", "anchors": ["src/cvi/modules/cSIL.py:cSIL._param_batch", "src/cvi/modules/cSIL.py:cSIL._evaluate"]}
{"id": "C31", "title": "rCIP batch value is the published formula", "statement": "For a batch labelled 0..k-1, k>=2, a fresh rCIP() returns the sum over pairs of the Gaussian cross information potential (2 pi)^(-d/2) det(Q)^(-1/2) exp(-1/2 (v_i-v_j) Q^-1 (v_i-v_j)), Q the sum of the two regularised sample covariance matrices (exact arithmetic).", "quantifier": "every batch with labels exactly 0..k-1, any number of rows and features", "why_tests_cant": "identity over all data sets; the tests only compare CH with scikit-learn, with tolerance 1000", "anchors": ["src/cvi/modules/rCIP.py:rCIP._param_batch", "src/cvi/modules/rCIP.py:rCIP._evaluate"]}
{"id": "C32", "title": "The sum-of-squares type indices are never negative", "statement": "CH, WB, DB, XB, GD43, GD53 and rCIP return a value >= 0 (or +inf, or nan in the degenerate cases), in batch mode on labels 0..k-1 and at every step of every stream (exact arithmetic).", "quantifier": "all valid batches and all well-formed streams", "why_tests_cant": "inequality over all data", "anchors": ["src/cvi/modules/*.py:_evaluate"]}
{"id": "C33", "title": "GD53 never exceeds one half", "statement": "Whenever GD53 returns a finite value it lies in [0, 1/2] (exact arithmetic).", "quantifier": "all valid batches and all well-formed streams", "why_tests_cant": "inequality over all data", "anchors": ["src/cvi/modules/GD53.py:GD53._evaluate"]}
{"id": "C34", "title": "cSIL lies in [-1, 1]", "statement": "Whenever cSIL returns a finite value it lies in [-1, 1], in both modes.", "quantifier": "all valid batches and all well-formed streams", "why_tests_cant": "inequality over all data", "anchors": ["src/cvi/modules/cSIL.py:cSIL._evaluate", "src/cvi/modules/cSIL.py:cSIL._param_inc"]}
{"id": "C35", "title": "PS is bounded by the number of clusters", "statement": "With k>=2 clusters PS is nan exactly when all centroids coincide, and otherwise a number strictly between -k and k (exact arithmetic).", "quantifier": "all valid batches and all well-formed streams", "why_tests_cant": "inequality over all data", "anchors": ["src/cvi/modules/PS.py:PS._evaluate"]}
{"id": "C36", "title": "Translation invariance", "statement": "Adding one fixed vector to every sample changes no index value, in either mode (exact arithmetic).", "quantifier": "every index, every data set, every translation vector", "why_tests_cant": "all data and all translations", "anchors": ["src/cvi/modules/*.py:_param_inc", "src/cvi/modules/*.py:_param_batch"]}
{"id": "C37", "title": "Behaviour under a change of units", "statement": "Multiplying every sample by one non-zero constant c leaves CH, WB, DB, XB, GD53, PS and cSIL unchanged in both modes. The generalised Dunn index GD43 should be unchanged too. (If false: give the exact law.)", "quantifier": "every data set, every non-zero scale", "why_tests_cant": "all data and all scales", "anchors": ["src/cvi/modules/*.py:_evaluate", "src/cvi/modules/GD43.py:GD43._param_inc"]}
{"id": "C38", "title": "CH and WB are tied together; the total scatter is conserved", "statement": "On the same data CH * WB = k*(n-k)/(k-1) whenever both are finite and non-zero, and BGSS + WGSS equals the total sum of squares about the grand mean, whatever the partition.", "quantifier": "all valid batches and all well-formed streams", "why_tests_cant": "identity over all data", "anchors": ["src/cvi/modules/CH.py:CH._evaluate", "src/cvi/modules/WB.py:WB._evaluate"]}
{"id": "C39", "title": "Exactly when an index is finite, infinite or nan", "statement": "For each index the degenerate data sets on which it returns inf or nan are characterised (e.g. CH is nan whenever every cluster is a singleton, so at the second sample of every stream that starts with two different labels).", "quantifier": "all valid batches and all well-formed streams", "why_tests_cant": "complete case analysis over all data", "anchors": ["src/cvi/modules/*.py:_evaluate"]}
{"id": "C40", "title": "The caller may reuse its sample buffer, and its arrays are never written", "statement": "get_cvi never modifies the caller's arrays, and later changes the caller makes to an array it passed earlier do not change later values.", "quantifier": "every index, every sequence of calls interleaved with caller writes to its own arrays", "why_tests_cant": "aliasing bug needs a particular interleaving of writes and calls", "anchors": ["src/cvi/modules/CH.py:CH._setup (self._mu = sample)", "src/cvi/modules/WB.py:WB._setup", "src/cvi/modules/DB.py:DB._setup", "src/cvi/modules/XB.py:XB._setup", "src/cvi/modules/GD43.py:GD43._setup", "src/cvi/modules/GD53.py:GD53._setup"]}
{"id": "C41", "title": "A batch with a wrong number of labels is rejected", "statement": "A batch call where the number of labels differs from the number of rows raises.", "quantifier": "every index, every batch with mismatched lengths", "why_tests_cant": "all mismatches", "anchors": ["src/cvi/modules/*.py:_param_batch", "src/cvi/modules/_base.py:CVI._setup_batch"]}
{"id": "C42", "title": "A batch call that fails can be retried", "statement": "If a batch call on a fresh object raises, a corrected batch call on the same object succeeds with the value of a fresh object.", "quantifier": "every index, every failing batch, every valid batch", "why_tests_cant": "all failing inputs and crash points within the call", "anchors": ["src/cvi/modules/_base.py:CVI._setup_batch (sets _is_setup first)", "src/cvi/modules/_base.py:CVI.get_cvi"]}
{"id": "C43", "title": "Objects are independent", "statement": "Interleaving calls on several CVI objects gives each object the values it would have returned on its own, even if they are passed the same arrays.", "quantifier": "every set of objects of any indices, every interleaving of calls", "why_tests_cant": "all interleavings", "anchors": ["src/cvi/modules/_base.py:CVI.__init__"]}
{"id": "C44", "title": "A nan feature is never masked", "statement": "Once a sample containing a nan has been accepted, every later value computed with at least two clusters is nan.", "quantifier": "every index, every stream with a nan feature anywhere, every continuation", "why_tests_cant": "sticky property over all continuations", "anchors": ["src/cvi/modules/*.py:_param_inc", "src/cvi/modules/*.py:_evaluate"]}
{"id": "C45", "title": "compat iPS tracks partition separation", "statement": "iPS.update returns the partition separation of the data seen so far. (If false: say what it returns.)", "quantifier": "every stream of samples and labels", "why_tests_cant": "all streams", "anchors": ["src/cvi/compat/v0.py:iPS.update"]}
{"id": "C46", "title": "compat iGD43/iGD53 can update an existing cluster", "statement": "iGD43.update and iGD53.update succeed on a label already seen.", "quantifier": "every state, every sample", "why_tests_cant": "all states", "anchors": ["src/cvi/compat/v0.py:iGD.update"]}
{"id": "C47", "title": "compat iDB can update an existing cluster", "statement": "iDB.update succeeds on a label already seen.", "quantifier": "every reachable state, every sample", "why_tests_cant": "all states", "anchors": ["src/cvi/compat/v0.py:iDB.update"]}
{"id": "C48", "title": "compat iSIL accepts a first sample and leaves the caller's array alone", "statement": "The first update of a fresh iSIL returns a value and update never writes into the caller's sample array.", "quantifier": "every sample", "why_tests_cant": "all samples", "anchors": ["src/cvi/compat/v0.py:iSIL.update", "src/cvi/compat/v0.py:iSIL.sci", "src/cvi/compat/v0.py:iSIL.cp_update"]}
{"id": "C49", "title": "compat iCH merges samples of one label", "statement": "Two samples given label 0 belong to one cluster of iCH.", "quantifier": "every stream", "why_tests_cant": "all streams", "anchors": ["src/cvi/compat/v0.py:iCH.update"]}
{"id": "C50", "title": "compat iXB agrees with XB", "statement": "iXB.update returns the same value as the XB module fed with the same stream. (If false: give the true relation.)", "quantifier": "every stream whose labels first appear in the order 0,1,2,...", "why_tests_cant": "all streams", "anchors": ["src/cvi/compat/v0.py:iXB.update", "src/cvi/compat/v0.py:CP_update", "src/cvi/modules/XB.py:XB"]}
{"id": "C51", "title": "compat factory", "statement": "iCVI(name) returns a fresh object of the class of that name for the seven documented names and raises ValueError for every other string.", "quantifier": "every string", "why_tests_cant": "infinitely many strings", "anchors": ["src/cvi/compat/v0.py:iCVI"]}
{"id": "C52", "title": "compat Cluster and Clusters containers", "statement": "Cluster.add_point maintains the mean of its points, and Clusters.from_list builds clusters from data; a Cluster in box mode accepts any points in the unit cube. (If false: say what happens.)", "quantifier": "every list of points", "why_tests_cant": "all inputs", "anchors": ["src/cvi/compat/v0.py:Cluster.add_point", "src/cvi/compat/v0.py:Clusters.from_list"]}
{"id": "C53", "title": "What cSIL returns on a stream", "statement": "After each sample of a stream cSIL returns the silhouette of a table of mean distances in which the entry for the samples labelled a and the centroid v of those labelled b is the true mean squared distance, plus x.v if the last sample x labelled a or b is the only one labelled a, or minus 2 x.v / n if x is labelled a and n samples are labelled a, or plus nothing if x is labelled b (exact arithmetic).", "quantifier": "every well-formed stream, every prefix", "why_tests_cant": "closed form over all histories; it explains every disagreement of cSIL's two modes", "anchors": ["src/cvi/modules/cSIL.py:cSIL._param_inc", "src/cvi/modules/cSIL.py:cSIL._evaluate"]}
{"id": "C54", "title": "The base class refuses data", "statement": "An object of the exported base class CVI itself never returns a value: every get_cvi call raises and leaves the object as it was.", "quantifier": "every list of calls with any data and labels", "why_tests_cant": "unbounded histories, all data", "anchors": ["src/cvi/modules/_base.py:CVI.get_cvi", "src/cvi/modules/_base.py:CVI._param_inc", "src/cvi/modules/_base.py:CVI._param_batch", "src/cvi/modules/_base.py:CVI._evaluate"]}
{"id": "C55", "title": "LabelMap numbers labels in order of first appearance", "statement": "The internal number of a label is the number of different labels that came before its first appearance; two calls get the same number exactly when they have the same label, and the numbers in use are 0..k-1.", "quantifier": "every sequence of integer labels", "why_tests_cant": "unbounded sequences", "anchors": ["src/cvi/modules/_base.py:LabelMap.get_internal_label"]}
{"id": "C56", "title": "Rotations, reflections and the order of the features", "statement": "Multiplying every sample by the same orthogonal matrix, in particular listing the features in another order, changes no value of any class, batch or incremental (exact arithmetic).", "quantifier": "every orthogonal matrix, every permutation of the features, all data", "why_tests_cant": "all data and all rotations", "anchors": ["src/cvi/modules/*.py:_param_inc", "src/cvi/modules/*.py:_param_batch", "src/cvi/modules/*.py:_evaluate"]}
{"id": "C57", "title": "Every sample given m times", "statement": "Giving every sample m times leaves the values of all classes as they are, except that CH is multiplied by (mN-k)/(N-k) (exact arithmetic). (If false of a class: say which.)", "quantifier": "every m >= 1, all data", "why_tests_cant": "all data, all m", "anchors": ["src/cvi/modules/*.py:_param_inc", "src/cvi/modules/*.py:_param_batch", "src/cvi/modules/*.py:_evaluate"]}
{"id": "C58", "title": "A constant feature is irrelevant", "statement": "Appending to all samples a feature with one and the same value changes no value of any class (exact arithmetic). (If false of a class: say which.)", "quantifier": "every constant, all data", "why_tests_cant": "all data", "anchors": ["src/cvi/modules/*.py:_param_inc", "src/cvi/modules/*.py:_param_batch", "src/cvi/modules/*.py:_evaluate"]}
{"id": "C59", "title": "Computed values are never negative", "statement": "In binary64 a value returned by CH, WB, DB, XB, GD43 or GD53 is nan or has its sign bit clear, whatever rounding, overflow or underflow happened. (If false of streams: give one.)", "quantifier": "every data and labels of a batch, every stream", "why_tests_cant": "all binary64 data, including infinities, nan and denormals", "anchors": ["src/cvi/modules/CH.py:CH._evaluate", "src/cvi/modules/WB.py:WB._evaluate", "src/cvi/modules/DB.py:DB._evaluate", "src/cvi/modules/XB.py:XB._evaluate", "src/cvi/modules/GD43.py:GD43._evaluate", "src/cvi/modules/GD53.py:GD53._evaluate"]}
{"id": "C60", "title": "Rounding moves the centroids little", "statement": "In binary64 each centroid coordinate kept after a stream is within 17 u b (n-1) of the exact mean and after a batch within 2 u b n, where n is the size of the cluster, b bounds the features and u = 2^-53; so the two modes agree up to 19 u b n.", "quantifier": "every stream and batch of at most 2^48 samples with finite features, 2^-900 <= b <= 2^900; every order in which numpy may add", "why_tests_cant": "error accumulates over unboundedly many steps", "anchors": ["src/cvi/modules/*.py:_param_inc", "src/cvi/modules/*.py:_param_batch"]}
{"id": "C61", "title": "Rounding moves the compactness little", "statement": "In binary64 the compactness of a cluster kept after a stream is within 369 u b^2 d^2 (n^2-1) of the exact sum of squared distances to its centroid and after a batch within 109 u b^2 d^2 n^2, where n is the size of the cluster, d the number of features, b bounds the features and u = 2^-53; so the two modes agree up to 478 u b^2 d^2 n^2.", "quantifier": "CH, WB, DB, XB, GD43, GD53; every stream and batch of at most 2^24 samples with at most 2^20 finite features, 2^-400 <= b <= 2^399; every order in which numpy may add", "why_tests_cant": "error of a coupled recurrence over unboundedly many steps", "anchors": ["src/cvi/modules/CH.py:CH._param_inc", "src/cvi/modules/WB.py:WB._param_inc", "src/cvi/modules/DB.py:DB._param_inc", "src/cvi/modules/XB.py:XB._param_inc", "src/cvi/modules/GD43.py:GD43._param_inc", "src/cvi/modules/GD53.py:GD53._param_inc", "src/cvi/modules/*.py:_param_batch"]}
{"id": "C62", "title": "Rounding moves the values of CH and WB little", "statement": "In binary64 the value of CH after a stream or a batch is within 2 (e/w) (CH + (N-k)/(k-1)) of the published formula, where w is the exact within-cluster sum of squares divided by N and e = 380 u b^2 d^2 N, provided 4e <= w; WB is within 2 (e/w') (WB + k) with the between-cluster sum of squares in place of the within-cluster one. So the two modes agree up to twice that. (u = 2^-53, b bounds the features, d is their number, N the number of samples, k of clusters.)", "quantifier": "every stream, and every batch with labels 0..k-1, of at most 2^24 samples with at most 2^20 finite features, k >= 2, 2^-400 <= b <= 2^399; every order in which numpy may add", "why_tests_cant": "end-to-end error bound over unboundedly many steps", "anchors": ["src/cvi/modules/CH.py:CH._evaluate", "src/cvi/modules/WB.py:WB._evaluate", "src/cvi/modules/CH.py:CH._param_inc", "src/cvi/modules/CH.py:CH._param_batch", "src/cvi/modules/WB.py:WB._param_inc", "src/cvi/modules/WB.py:WB._param_batch"]}
{"id": "C63", "title": "The table of iSIL holds mean squared distances", "statement": "Given the number, the sum and the sum of squared norms of the samples of cluster j, the helpers s_ij_new and s_ij_new_cluster of iSIL return the mean squared distance from the samples of cluster j, the new one included, to the center of cluster i (exact arithmetic). (If false of a branch: say which and what it returns.)", "quantifier": "every sample, center and cluster, of any dimension and size", "why_tests_cant": "all data", "anchors": ["src/cvi/compat/v0.py:iSIL.s_ij_new", "src/cvi/compat/v0.py:iSIL.s_ij_new_cluster"]}
{"id": "C64", "title": "A point is within the box of its cluster", "statement": "Cluster.within_bounding_box is true of every point the cluster holds. (If false: say when it is true.)", "quantifier": "every point in the unit cube, every question", "why_tests_cant": "all data", "anchors": ["src/cvi/compat/v0.py:Cluster.within_bounding_box", "src/cvi/compat/v0.py:Cluster.add_point"]}
{"id": "C65", "title": "Rounding moves the values of XB, DB, GD43 and GD53 little", "statement": "Let e = 380 u b^2 d^2 N, s the smallest squared distance of two centroids and m the largest mean squared distance of the samples of a cluster to its centroid, both exact. In binary64 the value returned after a stream or a batch is a finite number that differs from the published formula by at most 2 (e/s) (1 + XB) for XB, (e/s) (3 + DB) for DB, 2 (e/s + e/m) GD43 for GD43 and 2 (e/m) (1 + GD53) for GD53, provided 4e <= s (XB, DB, GD43) and 4e <= m (GD43, GD53). So the two modes agree up to twice that. (u = 2^-53, b bounds the features, d is their number, N the number of samples.)", "quantifier": "every stream, and every batch with labels 0..k-1, of at most 2^24 samples with at most 2^20 finite features, k >= 2, 2^-400 <= b <= 2^399; every order in which numpy may add", "why_tests_cant": "end-to-end error bound over unboundedly many steps, through minima and maxima of tables", "anchors": ["src/cvi/modules/XB.py:XB._evaluate", "src/cvi/modules/XB.py:XB._param_inc", "src/cvi/modules/XB.py:XB._param_batch", "src/cvi/modules/DB.py:DB._evaluate", "src/cvi/modules/DB.py:DB._param_inc", "src/cvi/modules/DB.py:DB._param_batch", "src/cvi/modules/GD43.py:GD43._evaluate", "src/cvi/modules/GD43.py:GD43._param_inc", "src/cvi/modules/GD43.py:GD43._param_batch", "src/cvi/modules/GD53.py:GD53._evaluate", "src/cvi/modules/GD53.py:GD53._param_inc", "src/cvi/modules/GD53.py:GD53._param_batch"]}
{"id": "C66", "title": "Computed values stay inside the bounds of their definitions", "statement": "In binary64 the value that cSIL returns for a batch is nan or between -1 and 1; the value of PS with k clusters, batch or stream, is nan or between -k and k if the library's exp maps numbers <= 0 into [0, 1]; the value of GD53 for a batch is at most 1/2. (If false by rounding: give a value that exceeds the bound, and the bound that does hold.)", "quantifier": "every data of binary64 numbers, infinities and nan included (PS: any), of at most 2^53 samples (GD53: 2^52); every order in which numpy may add; GD53: a cluster with mean squared distance at least 2^-960 and no overflow of a sum of two compactnesses", "why_tests_cant": "rounding error must be absorbed exactly, not up to a tolerance", "anchors": ["src/cvi/modules/cSIL.py:cSIL._evaluate", "src/cvi/modules/cSIL.py:cSIL._param_batch", "src/cvi/modules/PS.py:PS._evaluate", "src/cvi/modules/PS.py:PS._param_batch", "src/cvi/modules/GD53.py:GD53._evaluate", "src/cvi/modules/GD53.py:GD53._param_batch", "src/cvi/modules/PS.py:PS._param_inc"]}
{"id": "C67", "title": "The variances of rCIP stay positive in binary64", "statement": "Each variance that rCIP stores (a diagonal entry of _sigma) is nan, +inf or at least the regularisation term 10 ** (-12 / dim), in binary64, after a stream and after a batch. (If false of a mode: give data, the variance and the value returned.)", "quantifier": "every stream and every batch of binary64 numbers, infinities and nan included, of any dimension; the library's power is a positive number", "why_tests_cant": "rounding error must not change a sign; cancellation", "anchors": ["src/cvi/modules/rCIP.py:rCIP._param_inc", "src/cvi/modules/rCIP.py:rCIP._param_batch"]}
{"id": "C68", "title": "Rounding error of the value of PS", "statement": "With k clusters, PS's value in binary64 differs from the partition separation of the samples themselves by at most k * (tau + 2 * k * l / s), where l is the rounding level of the data (380 * 2^-53 * B^2 * dim^2 * n), s the smallest squared distance of two true centroids and tau the error of the library's exponential, provided 4 * k * l <= s. The values of the two modes differ by at most twice that.", "quantifier": "every stream and every batch of finite binary64 numbers of absolute value at most B, 2^-400 <= B <= 2^399, with at least two clusters, at most 2^24 samples and at most 2^20 features, and every order of the sums; labels 0..k-1 for batches", "why_tests_cant": "rounding error, cancellation; argument of a transcendental function", "anchors": ["src/cvi/modules/PS.py:PS._evaluate", "src/cvi/modules/PS.py:PS._param_inc", "src/cvi/modules/PS.py:PS._param_batch"]}
{"id": "C69", "title": "Integer data give what the converted data give", "statement": "Given arrays of an integer dtype, every class returns what it returns for the same numbers converted to float64. (If false: for which classes and modes, a witness, and a condition on the data under which it holds.)", "quantifier": "int8 to int64 and uint8 to uint32, streams and batches of any length and dimension, NumPy 1 and 2; exact arithmetic, and binary64 with every order of the sums", "why_tests_cant": "wrap-around of integer arithmetic, conversion, sign of zero", "anchors": ["src/cvi/modules/cSIL.py:cSIL._param_inc", "src/cvi/modules/rCIP.py:rCIP._param_batch", "src/cvi/modules/*.py:_param_inc", "src/cvi/modules/*.py:_param_batch"]}
{"id": "C70", "title": "Rounding error of the value of cSIL for a batch", "statement": "In binary64 the value that cSIL returns for a batch is a finite number that differs from the published formula by at most 3 l / s, where l is the rounding level of the data (380 * 2^-53 * B^2 * dim^2 * n) and s the smallest squared distance of two true centroids, provided 4 l <= s.", "quantifier": "every batch, labelled 0..k-1 with k >= 2, of finite binary64 numbers of absolute value at most B, 2^-400 <= B <= 2^399, with at most 2^24 samples and at most 2^20 features, and every order of the sums", "why_tests_cant": "end-to-end rounding error, through a minimum, a cancelling difference and a quotient", "anchors": ["src/cvi/modules/cSIL.py:cSIL._evaluate", "src/cvi/modules/cSIL.py:cSIL._param_batch"]}
{"id": "C71", "title": "A stream is not stored", "statement": "After a stream of samples, one at a time, the object of each class keeps a number of cells (numbers in its attributes and entries of its label map) that is bounded by a polynomial in the number of distinct labels and the number of features; the number of samples does not enter.", "quantifier": "every stream of any length and dimension, every class, any arithmetic (rCIP: at least one feature and an inverse that is always found)", "why_tests_cant": "unbounded streams", "anchors": ["src/cvi/modules/_base.py:CVI.get_cvi", "src/cvi/modules/CH.py:CH._param_inc", "src/cvi/modules/WB.py:WB._param_inc", "src/cvi/modules/DB.py:DB._param_inc", "src/cvi/modules/XB.py:XB._param_inc", "src/cvi/modules/GD43.py:GD43._param_inc", "src/cvi/modules/GD53.py:GD53._param_inc", "src/cvi/modules/PS.py:PS._param_inc", "src/cvi/modules/rCIP.py:rCIP._param_inc", "src/cvi/modules/cSIL.py:cSIL._param_inc"]}
{"id": "C72", "title": "The same clusters give the same value up to rounding", "statement": "In binary64, two computations of an index on the same labelled samples return finite numbers that differ by at most twice the error of C62, C65, C68 or C70, whatever the mode (stream or batch), the order of the samples, the names of the labels, the order in which numpy adds and the C library of the machine.", "quantifier": "every class but rCIP (cSIL: batches), every data set of finite binary64 numbers of absolute value at most B, 2^-400 <= B <= 2^399, with at least two clusters, at most 2^24 samples and at most 2^20 features that meets the condition of the error bound; labels 0..k-1 for batches", "why_tests_cant": "all orders of all data, all machines", "anchors": ["src/cvi/modules/_base.py:CVI.get_cvi", "src/cvi/modules/CH.py:CH._evaluate", "src/cvi/modules/WB.py:WB._evaluate", "src/cvi/modules/DB.py:DB._evaluate", "src/cvi/modules/XB.py:XB._evaluate", "src/cvi/modules/GD43.py:GD43._evaluate", "src/cvi/modules/GD53.py:GD53._evaluate", "src/cvi/modules/PS.py:PS._evaluate", "src/cvi/modules/cSIL.py:cSIL._evaluate"]}
{"id": "C73", "title": "compat iCH returns the Calinski-Harabasz index of its clusters", "statement": "What iCH.update returns is the Calinski-Harabasz index of the clusters the object has built so far (a sample labelled 0 opens one, C49; another label joins the cluster of that number), 0 while there is one cluster or every cluster holds one sample. (If false: say what is returned, when it is right, and whether it is a bound.)", "quantifier": "every stream of any length and dimension whose labels are 0 or name a cluster already there; exact arithmetic", "why_tests_cant": "all streams", "anchors": ["src/cvi/compat/v0.py:iCH.update", "src/cvi/compat/v0.py:CP_update"]}
{"id": "C74", "title": "Pulling the clusters apart improves every index", "statement": "Move every cluster as a whole so that its centroid is multiplied by c >= 1. Then CH is multiplied by c^2, WB, DB and XB are divided by c^2, GD43 is multiplied by c, rCIP does not grow and cSIL does not fall: each moves in the direction in which the index is better. GD53 and PS get better too. (If false of the last two: say what they do; if false of cSIL one sample at a time: a witness.)", "quantifier": "every labelled data set of any dimension with at least two clusters, batches (labels 0..k-1) and the last value of streams, every real c >= 1; exact arithmetic", "why_tests_cant": "all data, all c", "anchors": ["src/cvi/modules/CH.py:CH._evaluate", "src/cvi/modules/WB.py:WB._evaluate", "src/cvi/modules/DB.py:DB._evaluate", "src/cvi/modules/XB.py:XB._evaluate", "src/cvi/modules/GD43.py:GD43._evaluate", "src/cvi/modules/GD53.py:GD53._evaluate", "src/cvi/modules/PS.py:PS._evaluate", "src/cvi/modules/rCIP.py:rCIP._evaluate", "src/cvi/modules/cSIL.py:cSIL._evaluate"]}
{"id": "C75", "title": "Tightening the clusters improves every index", "statement": "Let every cluster shrink about its centroid by a factor c, 0 < c <= 1. Then CH and GD43 are divided by c^2, WB, DB and XB are multiplied by c^2, GD53 and PS do not change, and neither does cSIL fall nor rCIP grow. (If false of rCIP, or of cSIL one sample at a time: a witness.)", "quantifier": "every labelled data set of any dimension with at least two clusters, batches (labels 0..k-1) and the last value of streams, every real c with 0 < c <= 1; exact arithmetic", "why_tests_cant": "all data, all c", "anchors": ["src/cvi/modules/CH.py:CH._evaluate", "src/cvi/modules/WB.py:WB._evaluate", "src/cvi/modules/DB.py:DB._evaluate", "src/cvi/modules/XB.py:XB._evaluate", "src/cvi/modules/GD43.py:GD43._evaluate", "src/cvi/modules/GD53.py:GD53._evaluate", "src/cvi/modules/PS.py:PS._evaluate", "src/cvi/modules/rCIP.py:rCIP._evaluate", "src/cvi/modules/cSIL.py:cSIL._evaluate"]}
{"id": "C76", "title": "An infinite feature is never masked", "statement": "Once a sample with an infinite feature has been seen, every value that an object with at least two labels returns is nan, one sample at a time and in a batch: no index reports an ordinary number for data it cannot measure. (If false: say for which classes and how long, with a witness.)", "quantifier": "every class but rCIP, every stream and every batch (labels 0..k-1) with an infinite feature anywhere, every continuation; binary64 with the sums in any order, and exact arithmetic with infinities", "why_tests_cant": "all positions of the infinity, unbounded continuations", "anchors": ["src/cvi/modules/CH.py:CH._param_inc", "src/cvi/modules/WB.py:WB._param_inc", "src/cvi/modules/DB.py:DB._param_inc", "src/cvi/modules/XB.py:XB._param_inc", "src/cvi/modules/GD43.py:GD43._param_inc", "src/cvi/modules/GD53.py:GD53._param_inc", "src/cvi/modules/PS.py:PS._param_inc", "src/cvi/modules/cSIL.py:cSIL._param_inc", "src/cvi/modules/CH.py:CH._evaluate", "src/cvi/modules/WB.py:WB._evaluate", "src/cvi/modules/DB.py:DB._evaluate", "src/cvi/modules/XB.py:XB._evaluate", "src/cvi/modules/GD43.py:GD43._evaluate", "src/cvi/modules/GD53.py:GD53._evaluate", "src/cvi/modules/PS.py:PS._evaluate", "src/cvi/modules/cSIL.py:cSIL._evaluate"]}
{"id": "C77", "title": "The parts of a value kept in the object fit it", "statement": "After a call that returned a value, the attributes of the object that hold its parts (_WGSS, _BGSS, _SEP, _R, _inter, _intra, _v_bar, _beta_t, _PS_i, _sil_coefs) are the ones the value was computed from: for instance _inter / _intra is the value of GD43, _BGSS / _WGSS * (n - k) / (k - 1) that of CH. In exact arithmetic they are the quantities the published formulas name, after every sample of a stream and after a batch.", "quantifier": "every class in cvi.MODULES, every object in any state, every call, any arithmetic; the second part: every data set of any dimension with at least two clusters (cSIL: batches)", "why_tests_cant": "all states, all data", "anchors": ["src/cvi/modules/CH.py:CH._evaluate", "src/cvi/modules/WB.py:WB._evaluate", "src/cvi/modules/DB.py:DB._evaluate", "src/cvi/modules/XB.py:XB._evaluate", "src/cvi/modules/GD43.py:GD43._evaluate", "src/cvi/modules/GD53.py:GD53._evaluate", "src/cvi/modules/PS.py:PS._evaluate", "src/cvi/modules/rCIP.py:rCIP._evaluate", "src/cvi/modules/cSIL.py:cSIL._evaluate", "src/cvi/__init__.py:MODULES"]}
{"id": "C78", "title": "float32 data", "statement": "Given float32 arrays, every class returns what it returns for the same numbers converted to float64, and never loses a nan. (If false: witnesses for streams and batches, and how far the stored means are from the true means of the data, for any number of samples.)", "quantifier": "every class; streams (2^48 samples) and batches (2^19 samples) of any dimension of float32 numbers of absolute value at most B, 2^-80 <= B <= 2^90; every order of the float32 and float64 sums", "why_tests_cant": "accumulated rounding error, batches of 2^25 samples", "anchors": ["src/cvi/modules/*.py:_param_inc", "src/cvi/modules/*.py:_param_batch", "src/cvi/modules/cSIL.py:cSIL._param_inc"]}
{"id": "C79", "title": "Rounding error of the compactness and of CH and WB for float32 data", "statement": "Given float32 arrays, the compactness of a cluster of n samples after a stream is within 880 * 2^-53 * B^2 * dim^2 * n^2 of the true sum of squares (the order of float64 accuracy), after a batch within 2^-53 * B^2 * (108 * dim^2 * n^2 + 128 * dim * n^3); the values of CH and WB differ from the published formulas of the samples by at most 2 * l / w * (CH + (N - k) / (k - 1)) and 2 * l / v * (WB + k), where l = 81 * 2^-24 * B^2 * dim^2 * N, w and v are the within and between sums of squares over N, provided 4 l <= w (CH), 4 l <= v (WB).", "quantifier": "every stream and every batch (labels 0..k-1) of float32 numbers of absolute value at most B, 2^-80 <= B <= 2^89, of at most 2^20 features and 2^17 samples (compactness: 2^20 in streams, 2^19 in batches), every order of the float32 and float64 sums; compactness: CH, WB, DB, XB, GD43, GD53", "why_tests_cant": "end-to-end rounding error in two formats", "anchors": ["src/cvi/modules/CH.py:CH._param_inc", "src/cvi/modules/CH.py:CH._param_batch", "src/cvi/modules/CH.py:CH._evaluate", "src/cvi/modules/WB.py:WB._evaluate", "src/cvi/modules/*.py:_param_inc", "src/cvi/modules/*.py:_param_batch"]}
{"id": "C80", "title": "Rounding error of XB, DB, GD43 and GD53 for float32 data", "statement": "Given float32 arrays, the values of XB, DB, GD43 and GD53 differ from the published formulas of the samples by at most 2 * l / D * (1 + XB), l / D * (3 + DB), 2 * (l / D + l / m) * GD43 and 2 * l / m * (1 + GD53), where D is the smallest squared distance of two centroids, m the largest mean squared distance of a cluster to its centroid, and l the rounding level 105 * 2^-24 * B^2 * dim^2 in a stream, whatever its length, and 63 * 2^-24 * B^2 * dim^2 * N in a batch of N samples, provided 4 l <= D (XB, DB, GD43), 4 l <= m (GD43, GD53). (Say with a witness whether the conditions are needed.)", "quantifier": "every stream (2^20 samples) and every batch (labels 0..k-1, 2^19 samples) of float32 numbers of absolute value at most B, 2^-80 <= B <= 2^89, of at most 2^20 features, every order of the float32 and float64 sums", "why_tests_cant": "end-to-end rounding error in two formats", "anchors": ["src/cvi/modules/XB.py:XB._param_inc", "src/cvi/modules/XB.py:XB._param_batch", "src/cvi/modules/XB.py:XB._evaluate", "src/cvi/modules/DB.py:DB._param_inc", "src/cvi/modules/DB.py:DB._param_batch", "src/cvi/modules/DB.py:DB._evaluate", "src/cvi/modules/GD43.py:GD43._param_inc", "src/cvi/modules/GD43.py:GD43._param_batch", "src/cvi/modules/GD43.py:GD43._evaluate", "src/cvi/modules/GD53.py:GD53._param_inc", "src/cvi/modules/GD53.py:GD53._param_batch", "src/cvi/modules/GD53.py:GD53._evaluate"]}
{"id": "C81", "title": "What one more sample changes, and which label CH and WB prefer for it", "statement": "A further sample x labelled l raises the compactness of its cluster by n / (n + 1) * |x - v|^2 (n samples, centroid v before), changes no other entry, and a new label adds the entry 0; the within-group sum never falls, and it and the between-group sum grow together by N / (N + 1) * |x - mu|^2 whatever the label. Of two known labels for x, CH and WB prefer the one whose centroid is nearest. (If false: say exactly which label they prefer, with a witness.)", "quantifier": "every stream of any length and dimension with at least two labels (preference: batches too), every next sample; exact arithmetic; compactness: CH, WB, XB, GD43, GD53", "why_tests_cant": "all histories, all samples", "anchors": ["src/cvi/modules/CH.py:CH._param_inc", "src/cvi/modules/WB.py:WB._param_inc", "src/cvi/modules/XB.py:XB._param_inc", "src/cvi/modules/GD43.py:GD43._param_inc", "src/cvi/modules/GD53.py:GD53._param_inc", "src/cvi/modules/CH.py:CH._evaluate", "src/cvi/modules/WB.py:WB._evaluate"]}
{"id": "C82", "title": "Two clusters merged", "statement": "Giving the samples of two clusters (n and m samples, centroids v and w) the same label raises the within-group sum W by e = n * m / (n + m) * |v - w|^2 >= 0 and lowers the between-group sum B by as much. WB improves exactly when e * ((k - 1) * B + k * W) < W * B, CH exactly when e * (W * (N - k + 1) * (k - 1) + B * (N - k) * (k - 2)) < (N - 1) * W * B, so that both improve whenever the two centroids coincide.", "quantifier": "every labelled data set of any dimension with k >= 3 clusters and N samples, any two of its labels, finite values; exact arithmetic; streams and (labels 0..k-1) batches", "why_tests_cant": "all data, all pairs of labels", "anchors": ["src/cvi/modules/CH.py:CH._evaluate", "src/cvi/modules/WB.py:WB._evaluate", "src/cvi/modules/CH.py:CH._param_batch", "src/cvi/modules/WB.py:WB._param_batch"]}
{"id": "C83", "title": "Labels that are not integers", "statement": "One sample at a time, labels of any hashable type are accepted, and the values and attributes are those for integer labels numbered so that two labels get the same number exactly when a dict takes them for the same key: 1, 1.0 and True are one label, 1 and \"1\" two. Samples without a label (nan) form one cluster. (If false of nan: say what happens.)", "quantifier": "every class, every history of calls with labels that are ints, bools, floats, infinities, nans or strings, any arithmetic", "why_tests_cant": "all histories, all labels", "anchors": ["src/cvi/modules/_base.py:LabelMap.get_internal_label", "src/cvi/modules/_base.py:CVI.get_cvi"]}
{"id": "C84", "title": "Two clusters: how the indices depend on each other, and what PS can tell", "statement": "With two clusters of n and m samples, WB = 2 (n + m)^2 / (n m) * XB, CH * XB = n m (n + m - 2) / (n + m)^2, XB <= DB, and DB = 2 XB if n = m: the three order all groupings with the same sizes in the same way. PS too rates a grouping of the same samples higher the farther apart its clusters are. (If false of PS: say what it returns.)", "quantifier": "every labelled data set of any dimension with exactly two labels, finite values; exact arithmetic; streams and (labels 0, 1) batches", "why_tests_cant": "all data", "anchors": ["src/cvi/modules/CH.py:CH._evaluate", "src/cvi/modules/WB.py:WB._evaluate", "src/cvi/modules/XB.py:XB._evaluate", "src/cvi/modules/DB.py:DB._evaluate", "src/cvi/modules/PS.py:PS._evaluate"]}
{"id": "C85", "title": "Small errors of the data", "statement": "If every feature of every sample is off by at most e, and no two samples differ by more than S in a feature, then with l = 4 e (S + e) dim a finite value x changes by at most 2 l / D * (1 + x) for XB, 2 l / D * (2 + x) for DB, 2 (l / D + l / m) * x for GD43, l / m * (1 + 2 x) for GD53, 2 l / w * (x + (N - k) / (k - 1)) for CH, 2 l / b * (x + k) for WB, 2 l / beta * (k + sum of the d_i / beta) for PS, 6 l / z for cSIL (batch), provided l is at most half of the quantities divided by (D, m: as in C80; w, b: within and between sums of squares over N; d_i: squared distance of centroid i to the nearest other; z: the smallest denominator of a silhouette). So every finite value but that of cSIL on equal samples depends continuously on the data; there cSIL jumps from 0 to 1.", "quantifier": "every two labelled data sets of any dimension with the same labels, at least two; exact arithmetic; streams and (labels 0..k-1) batches; every class but rCIP", "why_tests_cant": "all data, all perturbations", "anchors": ["src/cvi/modules/CH.py:CH._evaluate", "src/cvi/modules/WB.py:WB._evaluate", "src/cvi/modules/DB.py:DB._evaluate", "src/cvi/modules/XB.py:XB._evaluate", "src/cvi/modules/GD43.py:GD43._evaluate", "src/cvi/modules/GD53.py:GD53._evaluate", "src/cvi/modules/PS.py:PS._evaluate", "src/cvi/modules/cSIL.py:cSIL._evaluate"]}
{"id": "C86", "title": "What a batch looks at in the labels", "statement": "A batch uses the labels only through the number k of distinct ones and through which rows carry 0, ..., k-1; nothing else about them changes a value or an attribute. The dtype of the label array is irrelevant: bools, integral floats and strings that group the samples as some integers do give what those integers give. (If false of strings: say what happens.)", "quantifier": "every class, every object, every data array, every two integer label arrays; label arrays of ints, bools, floats (nan and infinities included) and strings; any arithmetic; which arrays give a number: exact arithmetic", "why_tests_cant": "all arrays, all dtypes", "anchors": ["src/cvi/modules/_base.py:CVI.get_cvi", "src/cvi/modules/CH.py:CH._param_batch", "src/cvi/modules/WB.py:WB._param_batch", "src/cvi/modules/DB.py:DB._param_batch", "src/cvi/modules/XB.py:XB._param_batch", "src/cvi/modules/GD43.py:GD43._param_batch", "src/cvi/modules/GD53.py:GD53._param_batch", "src/cvi/modules/PS.py:PS._param_batch", "src/cvi/modules/rCIP.py:rCIP._param_batch", "src/cvi/modules/cSIL.py:cSIL._param_batch"]}
{"id": "C87", "title": "Only the distances between the samples count", "statement": "Two data sets with the same labels and the same distances between their samples, in spaces of any (different) dimensions, give the same values; if the squared distances of the second are q > 0 times those of the first, GD43 is divided by sqrt q and the other values are still the same. (Say of which classes this is false, with witnesses.)", "quantifier": "every two data sets of any two dimensions, any number of labels; exact arithmetic; streams and (labels 0..k-1, k >= 2) batches", "why_tests_cant": "all data, all isometries, not only those of the whole space", "anchors": ["src/cvi/modules/CH.py:CH._evaluate", "src/cvi/modules/WB.py:WB._evaluate", "src/cvi/modules/DB.py:DB._evaluate", "src/cvi/modules/XB.py:XB._evaluate", "src/cvi/modules/GD43.py:GD43._evaluate", "src/cvi/modules/GD53.py:GD53._evaluate", "src/cvi/modules/PS.py:PS._evaluate", "src/cvi/modules/rCIP.py:rCIP._evaluate", "src/cvi/modules/cSIL.py:cSIL._evaluate"]}
{"id": "C88", "title": "What the Xie-Beni value says about the other indices", "statement": "With k >= 2 clusters, N samples, P pairs of samples with different labels, and n the size of the smallest cluster, WB <= k * N^2 / P * XB, CH * XB >= (N - k) / (k - 1) * P / N^2 and DB <= N / n * XB, the first two with equality for k = 2: a good XB makes the other three good. Nothing of the kind holds the other way: DB and WB can be as small and CH as large as one likes while XB is as large as one likes.", "quantifier": "every labelled data set of any dimension with at least two labels, finite values; exact arithmetic; streams and (labels 0..k-1) batches", "why_tests_cant": "all data", "anchors": ["src/cvi/modules/CH.py:CH._evaluate", "src/cvi/modules/WB.py:WB._evaluate", "src/cvi/modules/XB.py:XB._evaluate", "src/cvi/modules/DB.py:DB._evaluate"]}
{"id": "C89", "title": "Which bits of the data and of the platform matter", "statement": "Negating every feature of every array ever passed to an object changes no bit of any returned value and no exception, for float64 and float32 data. Two platforms that add in the same order but compute exp, **, det and inv differently return the same bits for every class but PS and rCIP; PS needs the same exp, rCIP all four.", "quantifier": "any sequence of calls of get_cvi with any arrays (any shapes, nan, infinities, signed zeros), labels and mistakes; binary64 and binary32 data with any order of summation that depends on the length only", "why_tests_cant": "all data and all platforms", "anchors": ["src/cvi/modules/_base.py:CVI.get_cvi", "src/cvi/modules/CH.py:CH._evaluate", "src/cvi/modules/cSIL.py:cSIL._evaluate", "src/cvi/modules/DB.py:DB._evaluate", "src/cvi/modules/GD43.py:GD43._evaluate", "src/cvi/modules/GD53.py:GD53._evaluate", "src/cvi/modules/PS.py:PS._evaluate", "src/cvi/modules/WB.py:WB._evaluate", "src/cvi/modules/XB.py:XB._evaluate"]}
{"id": "C90", "title": "A change of unit by a power of two changes no bit", "statement": "If all features are multiplied by 2^k, every call of an object of CH, WB, DB, XB, GD53, PS or cSIL returns the same bits (GD43: the value divided by 2^k) and raises the same exceptions, as long as in the computation for the original data no product or quotient of non-zero numbers leaves [2^(m-1021), 2^(1024-m)) and no sum reaches 2^(1024-m), where m = 2|k|. Without the condition a change of unit can turn the value into nan.", "quantifier": "any sequence of calls of get_cvi with any arrays, labels and mistakes; binary64, the sums taken in any order that depends on the number of terms only", "why_tests_cant": "all data, all units", "anchors": ["src/cvi/modules/_base.py:CVI.get_cvi", "src/cvi/modules/CH.py:CH._evaluate", "src/cvi/modules/DB.py:DB._evaluate", "src/cvi/modules/GD43.py:GD43._evaluate", "src/cvi/modules/GD53.py:GD53._evaluate", "src/cvi/modules/PS.py:PS._evaluate", "src/cvi/modules/WB.py:WB._evaluate", "src/cvi/modules/XB.py:XB._evaluate", "src/cvi/modules/cSIL.py:cSIL._evaluate"]}
{"id": "C91", "title": "Exceptions depend on shapes and labels, not on the numbers", "statement": "Whether a call raises, and which exception, depends on the ranks, shapes and labels of the arrays given so far only: two objects of one class given arrays of the same shapes with the same labels raise the same exceptions at the same calls and have the same _label_map, _dim, _n_samples, _n, _n_clusters and _is_setup, whatever the numbers are (nan and inf included) and however they are added, rounded or represented. For rCIP this is said of inversions that do not raise LinAlgError.", "quantifier": "any two sequences of calls of get_cvi that agree in shapes and labels; any two arithmetics", "why_tests_cant": "all data", "anchors": ["src/cvi/modules/_base.py:CVI.get_cvi", "src/cvi/modules/CH.py:CH._param_inc", "src/cvi/modules/DB.py:DB._param_inc", "src/cvi/modules/GD43.py:GD43._param_inc", "src/cvi/modules/GD53.py:GD53._param_inc", "src/cvi/modules/PS.py:PS._param_inc", "src/cvi/modules/WB.py:WB._param_inc", "src/cvi/modules/XB.py:XB._param_inc", "src/cvi/modules/cSIL.py:cSIL._param_inc"]}
{"id": "C92", "title": "Where nothing is rounded, floating point is exact arithmetic", "statement": "If in a history of calls no operation that the result of a call depends on is rounded, gives nan or inf, or divides by zero, then that call of CH, WB, DB, XB, GD43, GD53 or cSIL returns exactly the value that exact arithmetic returns for the same data, with float64 and with float32 data; exceptions are the same in any case. So a batch and a stream of the same samples, neither rounded, return the same number (cSIL excepted, see C09).", "quantifier": "any sequence of calls of get_cvi with any arrays, labels and mistakes; sums in any order", "why_tests_cant": "all data", "anchors": ["src/cvi/modules/_base.py:CVI.get_cvi", "src/cvi/modules/CH.py:CH._evaluate", "src/cvi/modules/DB.py:DB._evaluate", "src/cvi/modules/GD43.py:GD43._evaluate", "src/cvi/modules/GD53.py:GD53._evaluate", "src/cvi/modules/WB.py:WB._evaluate", "src/cvi/modules/XB.py:XB._evaluate", "src/cvi/modules/cSIL.py:cSIL._evaluate"]}
{"id": "C93", "title": "A sample rejected by a compat class leaves no trace", "statement": "A call of update with a label beyond the next unused number raises and leaves the object as it was, so that N is the number of samples accepted and later values are those without the rejected call.", "quantifier": "any state of an object of iXB, iPS, iCH, iGD43, iGD53, iSIL, iDB; any sample and label; any sequence of calls for N", "why_tests_cant": "all states", "anchors": ["src/cvi/compat/v0.py:iXB.update", "src/cvi/compat/v0.py:iPS.update", "src/cvi/compat/v0.py:iCH.update", "src/cvi/compat/v0.py:iGD.update", "src/cvi/compat/v0.py:iSIL.update", "src/cvi/compat/v0.py:iDB.update"]}
{"id": "C94", "title": "The rounding error of a returned value can be accounted for, and the stream is near the batch", "statement": "Carrying a bound beside every number gives, for each call, how far the returned value is from that of exact arithmetic, exceptions included. Streams and batches of the same samples differ by no more than the sum of their two bounds; values further apart than that differ in exact arithmetic too.", "quantifier": "all classes but rCIP; any history of get_cvi calls with any arguments; binary64 and float32 data; any order of summation; PS for any exp with a given accuracy", "why_tests_cant": "all data, all histories", "anchors": ["src/cvi/modules/_base.py:CVI.get_cvi", "src/cvi/modules/CH.py:CH._evaluate", "src/cvi/modules/DB.py:DB._evaluate", "src/cvi/modules/GD43.py:GD43._evaluate", "src/cvi/modules/GD53.py:GD53._evaluate", "src/cvi/modules/PS.py:PS._evaluate", "src/cvi/modules/WB.py:WB._evaluate", "src/cvi/modules/XB.py:XB._evaluate", "src/cvi/modules/cSIL.py:cSIL._evaluate"]}
{"id": "C95", "title": "iSIL of compat counts every sample once", "statement": "After any sequence of calls of update with labels from 0 to the next unused number, cluster_sizes, cluster_centers, CP and g of iSIL hold for each cluster the number, the mean, the sum of squared norms and the sum of the samples that were given that label.", "quantifier": "any number of calls, features and clusters; any samples, each in an array of its own", "why_tests_cant": "all sequences", "anchors": ["src/cvi/compat/v0.py:iSIL.update", "src/cvi/compat/v0.py:iSIL.cp_update", "src/cvi/compat/v0.py:cluster_center_update"]}
{"id": "C96", "title": "The compat classes under a change of numbers, sign and platform", "statement": "For every class of compat/v0.py: which updates raise which exception and the cluster sizes depend only on the labels and on the lengths of the samples, not on their values; negating all samples changes no bit of any returned value; and of the platform's functions only the first and second power (and exp for iPS) can change a returned bit.", "quantifier": "any two arithmetics, any samples with infinities and NaN, any labels and mistakes, any number of calls with exceptions caught in between", "why_tests_cant": "all data and all platforms", "anchors": ["src/cvi/compat/v0.py:iXB.update", "src/cvi/compat/v0.py:iPS.update", "src/cvi/compat/v0.py:iCH.update", "src/cvi/compat/v0.py:iGD.update", "src/cvi/compat/v0.py:iSIL.update", "src/cvi/compat/v0.py:iDB.update", "src/cvi/compat/v0.py:CP_update"]}
{"id": "C97", "title": "The compat classes refuse negative labels", "statement": "The update method of every class of compat/v0.py raises ValueError for a negative label, as it does for a label beyond the next unused number, and the object keeps its clusters.", "quantifier": "any object with any number of clusters, any samples, any negative label; any history afterwards", "why_tests_cant": "all states and histories", "anchors": ["src/cvi/compat/v0.py:iXB.update", "src/cvi/compat/v0.py:iPS.update", "src/cvi/compat/v0.py:iGD.update", "src/cvi/compat/v0.py:iSIL.update", "src/cvi/compat/v0.py:iDB.update", "src/cvi/compat/v0.py:iCH.update"]}
{"id": "C98", "title": "Every sample a cluster of its own", "statement": "Samples that each have a label of their own form the trivial partition. Fed one by one, every call returns, and so does the batch call; from the second sample on and for the batch WB, DB and XB return 0 (their best value) or nan, GD43 returns +inf (its best value) or nan, CH and GD53 return nan, whatever the samples. So none of the six values can be used to reject the trivial partition.", "quantifier": "any number of features and samples, any samples (infinities and nan included), any distinct labels (in a batch not necessarily 0..k-1); exact arithmetic, float64 and float32 data, any order of the sums", "why_tests_cant": "all streams, all roundings", "anchors": ["src/cvi/modules/*.py:_param_inc", "src/cvi/modules/*.py:_evaluate"]}
{"id": "C99", "title": "cSIL of single samples", "statement": "When every sample has a label of its own, cSIL returns 1 (its best value) or nan, or 0 when the computed distances are all zero, for a batch and for samples fed one by one.", "quantifier": "float64 data, any number of features, 2 to 2^53 samples, any distinct labels, any order of the sums; exact arithmetic, any number of samples, labels 0 to k-1 for batches and any for streams", "why_tests_cant": "all data, all roundings", "anchors": ["src/cvi/modules/cSIL.py:cSIL._param_batch", "src/cvi/modules/cSIL.py:cSIL._param_inc", "src/cvi/modules/cSIL.py:cSIL._evaluate"]}
{"id": "C100", "title": "PS and rCIP of single samples", "statement": "When every sample has a label of its own, rCIP is 10^6 / (4 pi)^(d/2) times the sum over the pairs of samples of exp(-|x-y|^2 / (4 delta)), delta = 10^(-12/d), so it lies above 0 and is at most that factor times the number of pairs. PS is nan if all samples are the same; otherwise it is at least 0 and less than the number of samples, and above 0 if no two samples are the same.", "quantifier": "every data set of any dimension d >= 1 (PS: d >= 0) with at least 2 samples; exact arithmetic; streams (any labels) and batches (labels 0..k-1)", "why_tests_cant": "all data, all dimensions", "anchors": ["src/cvi/modules/PS.py:PS._evaluate", "src/cvi/modules/rCIP.py:rCIP._evaluate", "src/cvi/modules/rCIP.py:rCIP._param_inc", "src/cvi/modules/rCIP.py:rCIP._param_batch"]}
{"id": "C101", "title": "PS of clusters of equal size is not negative", "statement": "When all k clusters have the same number of samples, PS is nan or between 0 and k, also in binary64 and whatever the rounding, if the library's exp maps numbers <= 0 into [0, 1]. In exact arithmetic with k >= 2 it is nan only if all centroids coincide, less than k, and above 0 if no two centroids coincide.", "quantifier": "every data set in binary64 (any values, at most 2^53 samples, every order of the sums) and in exact arithmetic; streams (any labels) and batches (labels 0..k-1)", "why_tests_cant": "all data; a bound that has to hold exactly despite rounding", "anchors": ["src/cvi/modules/PS.py:PS._evaluate", "src/cvi/modules/PS.py:PS._param_inc", "src/cvi/modules/PS.py:PS._param_batch"]}
{"id": "C102", "title": "A sample at the centroid of its cluster does no harm", "statement": "One more sample, with a known label and lying at the centroid of its cluster, makes no index worse: CH and GD43 do not fall, WB and DB do not grow, XB is multiplied by n / (n + 1), n the number of samples before. GD53 does not fall either. (If false of GD53: a witness.)", "quantifier": "every labelled data set of any dimension with at least two clusters, batches (labels 0..k-1) and the last value of streams, every label; exact arithmetic; CH and WB: where both values are numbers; DB: no two centroids coincide", "why_tests_cant": "all data", "anchors": ["src/cvi/modules/CH.py:CH._evaluate", "src/cvi/modules/CH.py:CH._param_inc", "src/cvi/modules/CH.py:CH._param_batch", "src/cvi/modules/WB.py:WB._evaluate", "src/cvi/modules/WB.py:WB._param_inc", "src/cvi/modules/WB.py:WB._param_batch", "src/cvi/modules/DB.py:DB._evaluate", "src/cvi/modules/DB.py:DB._param_inc", "src/cvi/modules/DB.py:DB._param_batch", "src/cvi/modules/XB.py:XB._evaluate", "src/cvi/modules/XB.py:XB._param_inc", "src/cvi/modules/XB.py:XB._param_batch", "src/cvi/modules/GD43.py:GD43._evaluate", "src/cvi/modules/GD43.py:GD43._param_inc", "src/cvi/modules/GD43.py:GD43._param_batch", "src/cvi/modules/GD53.py:GD53._evaluate", "src/cvi/modules/GD53.py:GD53._param_inc", "src/cvi/modules/GD53.py:GD53._param_batch"]}
{"id": "C103", "title": "Clusters of copies of one sample have no spread", "statement": "If the samples of every cluster are copies of one sample, then in binary64 as in exact arithmetic WB, DB and XB are 0 or nan, CH and GD43 +inf or nan, and GD53 nan. (If false by rounding: witnesses, and data for which it holds.)", "quantifier": "every data set of at least two clusters in which samples with the same label are the same, batches and streams; every order of the sums", "why_tests_cant": "all data; rounding", "anchors": ["src/cvi/modules/CH.py:CH._evaluate", "src/cvi/modules/CH.py:CH._param_inc", "src/cvi/modules/CH.py:CH._param_batch", "src/cvi/modules/WB.py:WB._evaluate", "src/cvi/modules/WB.py:WB._param_inc", "src/cvi/modules/WB.py:WB._param_batch", "src/cvi/modules/DB.py:DB._evaluate", "src/cvi/modules/DB.py:DB._param_inc", "src/cvi/modules/DB.py:DB._param_batch", "src/cvi/modules/XB.py:XB._evaluate", "src/cvi/modules/XB.py:XB._param_inc", "src/cvi/modules/XB.py:XB._param_batch", "src/cvi/modules/GD43.py:GD43._evaluate", "src/cvi/modules/GD43.py:GD43._param_inc", "src/cvi/modules/GD43.py:GD43._param_batch", "src/cvi/modules/GD53.py:GD53._evaluate", "src/cvi/modules/GD53.py:GD53._param_inc", "src/cvi/modules/GD53.py:GD53._param_batch"]}
