# Verification of kamrecsys: design

The subject is the python library in `/repo` (containers, recommenders, splitters, metrics,
dataset loaders, data converters, experiment scripts). It is modelled in Rocq/Coq 8.16.1 under
`rocq/theories`, function by function; every model definition cites the file and lines it follows.

## Layout

| kind | files | content |
|------|-------|---------|
| model | `M_*.v` | Gallina functions mirroring the code, no proofs |
| spec | `Spec.v` | vocabulary used in theorem statements, independent of the model's helpers |
| lemmas | `P_*.v` | lemmas |
| theorems | `T_*.v` | theorems named after the property (`C07_…`), a concrete `Example` that meets the hypotheses, `Print Assumptions` |

Naming: a theorem that covers only part of a property ends in `_partial`; a property that the
faithful model violates is recorded by a theorem `…_refuted` with a witness.

## Trusted base

* Coq's kernel (and `coqchk`).
* The correspondence between `M_*.v` and the python text, which is by reading.
* The axioms that `Print Assumptions` lists; see the last section. All are the standard library's
  (classical reals). No axiom of our own, none of any other library. Flocq is used in `P_Float`,
  `P_Fl`, `P_FloatRel` and the theories `T_Float*` for lemmas about binary64; the theorems that use it depend on the standard library's
  axioms only.
* Semantics of python, numpy, scipy and scikit-learn as written into the model, listed next.

## What is modelled, and how

* Exceptions are values: `res A := Ok a | Raise e`. Every python branch that raises is a branch of
  the model. Where python mutates before it raises, the model returns the mutated state together with
  the exception (`set_event_imp`, `s_set_event`, `base_fit`, `model_fit`, `M_Heap.step`).
* `M_Py`: numpy indexing with python's negative indices (`-n..-1` wrap, everything else out of range is
  `IndexError`); a boolean mask of the wrong length is an `IndexError`; `np.unique` sorts and removes
  duplicates; dictionaries keep insertion order (python 3.7 or later).
* `M_Data`: data/base.py and data/event.py in full. External ids are integers or strings, ordered as
  numpy orders them; arrays with three or more axes given to `set_event` are not modelled.
* `M_Score`: data/event_with_score.py in full, `generate_score_bins` and `score_histogram`. Scores and
  domains are exact rationals (every finite binary64 value is one); NaN and infinite scores are in
  `M_NanScore`; domains that do not have three entries are not modelled.
* `M_Float`, `M_FloatBins`: the expression for `n_score_levels`, and the score bins and `digitize_score`, in
  binary64 (`np.arange` as numpy fills it: start, start + step, then start + i * delta).
* `M_FloatOps`: `safe_sigmoid`, the data term of the logistic loss, `mean_absolute_error` and `mean_squared_error` in
  binary64, with NaN, infinities, underflow and overflow. `np.sum` is any tree of additions over the entries and zeros;
  `expit` and `log` are arguments with a bound on their error.
* `M_FloatSplit`: the product `test_size * n_samples` of the split, in binary64 for fractions that are binary64 numbers and
  sizes up to 2^53 (exact beyond). `M_FloatHist`: `score_histogram` for a triple, in binary64. `M_FloatVar`:
  `variance_with_gamma_prior` in binary64 (the square of the sum correctly rounded, order of summation an argument).
* `M_NanScore`: `EventWithScoreData` and `load_event_with_score` once more with binary64 scores that may be NaN or infinite –
  estimating the domain, digitising, binarising, text fields that are no numbers.
* `M_FloatMF`: `PMF` and `LogisticPMF` once more in binary64 – learned coefficients, scores, loss, gradient, predictions. The
  orders of the sums, `expit` and `log` are arguments; L-BFGS is not modelled in binary64.
* `M_FloatImp`: `ImplicitLogisticPMF.loss` and `grad_loss` in binary64, with their loops over the users; its predictions are those of `M_FloatMF`.
* `M_FloatTopic`: `MultinomialPLSA` once more in binary64 – loss, M-step, E-step, convergence test, fit, the rows for unknown
  users and items, `raw_predict`. The order of summation (one for each place), `np.log`, `np.dot` and the draws are arguments.
* `M_Heap`: containers and recommenders once more as objects in a heap, with every allocation and
  every in-place write, to make sharing visible. Arrays that no method updates in place are values.
  Writes by a caller directly into arrays of an object are not modelled.
* `M_Alias`: the programs of `M_Heap` with arrays that the caller passes as score_domain or event_index and writes later.
* `M_Sigmoid`, `M_MF`, `M_MFRec`: utils/kammath.py and the three matrix factorisation models, over the
  reals: rounding, overflow and NaN are not modelled, a computation stops with an exception where numpy
  would go on with nan or inf. `scipy.optimize.minimize` is an arbitrary function of the objective, the
  gradient and the starting point; normal draws are arguments.
  The bias fields of the coefficients are arrays whatever their length, as numpy announces for the future.
* `M_View`: the same with the bias fields of numpy 1.x, where ('bu', float, 1) declares a number instead of an array
  with one entry. Theorems about fit in `M_MFRec` hold for numpy 1.x if there are several users and items (`C114_same_fit`).
* `M_Rec`: base/base.py, score_predictor/base.py, item_finder/base.py: fit, remove_data, predict,
  get_event_array. Sparse matrices are dense here.
* `M_PLSA`: score_predictor/topic_model.py in full, including fit_results_; Dirichlet draws are an
  argument.
* `M_Split`: model_selection/split.py and the parts of scikit-learn 0.20 that it inherits (KFold,
  train_test_split, PredefinedSplit). Generators are evaluated at once; the random generator is a state
  with a shuffle function; the product `test_size * n` is a parameter, because it is rounded.
* `M_Metrics`: metrics/. A NaN or an infinity in an input is `None`; `roc_auc_score` is an argument
  (modelled in `M_Auc`).
* `M_Datasets`: the loaders of bundled files (movielens.py, sushi3.py, flixster.py, others.py) on rows already read by
  `genfromtxt`: which columns go where, the feature files through `set_feature`, the domains, 'U18' cutting names.
* `M_Load`, `M_Convert`: datasets/base.py on the level of rows read by `genfromtxt` (numpy 1.x shapes),
  `M_Text`: the same on the level of text lines (numpy 1.x `genfromtxt`: comments, stripping, column counts, defaults),
  and the converters in /repo/data on the level of text lines (`int` on text is an argument).
* `M_Scripts`: scripts/exp_recsys_util.py, exp_recsys_fold_merge.py, stats_recsys.py. The clock and the
  global random generator form a world that is passed along; `info` becomes a record; fit and predict
  are arguments.
* `M_Exp`: the recommenders of the library plugged into the scripts: a new recommender, `fit` and `predict` per fold. The fits
  are those of `M_MFRec`, so under numpy 1.x statements that a run goes through are about training parts with several users
  and several items (C114).
* `M_Auc`: scikit-learn's `roc_auc_score`, from its documentation: thresholds, rates, trapezoids.
* `M_Task`: `do_task` of exp_recsys_util.py (seed, check of the target fold, choice of the scheme) and of stats_recsys.py.
* `M_Opt`: constructors of the factorisation models and the topic model, the arguments of `minimize`, and the part
  of `init_info` in both experiment scripts that chooses the model. Dictionaries that may be shared live in a heap.
* `M_Args`: `command_line_parser` of the four scripts with argparse as of Python 2.7 to 3.11 (options, abbreviations, clusters, '--',
  positional arguments, exclusive flags) and the order in which files are opened; int(), float() and the file system are arguments. `M_Main`: `init_info` and `main`.
* `M_Json`: utils/kamexputils.py `json_decodable` on value trees (shared sub-structures are not modelled).
* `M_JsonText`: the text of a result file: json.dumps and json.load of Python's standard library as the scripts call them (escapes, separators, number grammar, NaN and Infinity, duplicate keys, white space, the `encoding` argument). Left out: limits on recursion and on digits; how a float is printed and read is an argument.
* `M_Tree`: exp_recsys_fold_merge.py and stats_recsys.py on the trees json.load returns and on the text of the files, with the KeyError and TypeError of missing entries. np.concatenate is the list of all rows. Left out: logging, closing files.
* `M_CvTree`: the tree do_task of exp_recsys_util.py writes after cv_test, from the record of M_Scripts. The dictionaries of training and testing, what is in `info` before, and the conversion of scores to floats are arguments. Left out: logging.
* `M_HoTree`: the same for holdout_test.
* `M_InfoTree`: the dictionary `info` as init_info, do_task and load_data fill it in, and get_system_info and get_version_info. What the operating system and the programs it runs answer, version numbers, and the texts of classes and open files are arguments. The first call of load_data in a hold-out test is left out, because the second replaces what it writes.
* `M_StatTree`: score_predictor_statistics and item_finder_statistics as functions from lists in a file to the dictionary that is written. Which rational a float stands for and which float is computed for a real are arguments. Left out: strings that numpy parses as numbers, the ValueError for an empty list in a hold-out file.

Theorems quantify over every argument that stands for an external call, constrained only by what the
library guarantees (a shuffle is a permutation, a Dirichlet draw is positive and sums to one, and so on);
the constraints are visible hypotheses.

Not modelled: conversion of one field to a number by numpy (an argument), encodings of files, logging,
argparse beyond what the scripts use, the abstract base classes, plotting, rounding (except `M_Float*`), random_state values that are rejected.

## Per property

* C01–C08 – `M_Data`: `np.unique`, dictionaries, `set_event`, conversions. Induction on arrays; sortedness
  gives the inverse tables. C05 is refuted for negative ids, C04 for a scalar missing value.
* C09 – `M_Data.set_feature`; invariant of the loop that fills the index array.
* C10–C13 – `M_Data.filter_event`, against "select rows, rebuild from scratch".
* C14, C15 – `M_Heap`: induction over operation sequences. C15 refuted.
* C16 – invariant over the states reachable by API calls, failed calls included.
* C17–C22, C24 – `M_Score` over Q. C18 refuted where the stride does not divide the range, C24 refuted.
* C23 – `M_Float`: refuted by evaluation in binary64, proved for strides and ranges on a common dyadic grid;
  for decimals the count is right or one too small.
* C25–C31 – `M_Rec`, `M_MFRec`, `M_PLSA`. C26, C31 and the clean-failure part of C29 refuted; the exact
  conditions under which they hold are proved.
* C32–C37, C39, C40 – `M_MF`. Derivatives are `derivable_pt_lim` of one-variable functions; gradients are
  proved along every direction. C34, C35 refuted where the sigmoid argument is clipped, proved elsewhere,
  with a bound on the gap.
* C71 – sums are invariant under permutation; `s_set_event` codes the events of both containers alike. C72 – the
  closed forms of the gradients. C73 – `base_fit` overwrites every attribute but the parameters.
* C74 – sorting commutes with an order preserving renaming, so the codes agree; training reads only codes and sizes.
* C38 – `M_Sigmoid`, with rational bounds on `exp` from the Taylor expansion.
* C41–C46, C67, C68 – `M_PLSA`. C43 by the Gibbs inequality. C45 refuted in corner cases, C68 refuted.
* C47–C51 – `M_Split`. C50 refuted.
* C52–C57, C69, C70 – `M_Metrics`, `M_Score`. C54 (lists), C57 (python int) and C69 refuted.
* C58–C60, C62–C64 – `M_Scripts`, `M_Load`. C62, C63 refuted; C60 refuted for folds with one test event.
* C61 – `M_Json`; partly refuted (complex numbers, keys, second run).
* C65 – `M_Convert`: fields read back from the printed lines equal the fields read.
* C75, C76 – `M_Datasets`: the loaders of bundled data; features through `set_feature` twice. C76 refuted.
* C78, C79 – `M_FloatBins`: errors of each operation are bounded through Flocq (`near f v e`), then the edges lie
  within an eighth of a stride of the midpoints. C79 refuted; proved for multiples of a power of two.
* C80–C82 – `M_Opt`: lookups in dictionaries after each assignment and `pop`. C81 refuted.
* C83 – each step lowers the penalised objective by at least alpha * (exp s - s - 1) for every change s of the logarithm
  of a parameter; the objective is not negative and the loss stays away from 0, so some step is small enough.
* C84, C85 – `M_Text` on top of `M_Load` and `M_Convert`; splitting a line that was joined. Both refuted in corners.
* C86 – errors included, by pushing the translation through every step of `M_MF`; the optimiser is an argument with a
  stated symmetry. C87, C88 – the closed forms of losses and gradients (`T_MF3`) under negation and under an orthogonal
  matrix. C89 – the regulariser is a summand of a non-negative sum. C90 – exact second-order expansion of the squared
  loss; tangent inequality of ln(1 + exp x) for the logistic one. C90 is refuted for the logistic loss beyond the
  clipping range.
* C91 – every step of EM commutes with a permutation of the columns (sums over topics are permuted). C92 – equal columns
  give equal sums; closed form of the first step, which is a fixed point. C93 – sums over permuted or concatenated
  lists and the Cauchy-Schwarz inequality.
* C94 – simulation: two runs whose data differ in tested scores only go through the same states. C95 – C25, C44, C52, C58
  and C60 composed along `cv_test`, with the renumbering stated on the names in the file. C94 is refuted for the
  default, estimated domain.
* C77 – `M_Rec.predict` only; malformed queries.
* C66 – `M_Load`. Refuted for one-line files and events of one identifier.
* C96 – as C95 along `holdout_test`. C97 – simulation of two runs whose random generators agree; C59, C60 and C93 composed
  for merged files.
* C98 – induction over the descending thresholds: each trapezoid counts the pairs with the negative example at its
  threshold. Refuted for the sigmoid beyond its clipping bound.
* C99 – the bound of C38 on the exact sigmoid leaves room for the rounding errors of expit and of 1 - s; sums are bounded
  by induction over the tree of additions. C100 – each addition of numbers of one sign multiplies the relative error by at
  most 1 + u (Flocq: additions have no underflow error); NaN is excluded by cases on infinities. C101 – refuted.
* C102 – the loop of `cv_test` either ends or stops at the first exception of a fold; the split sends a fifth of each user's
  lines to the test. C103 – refuted. C104 – C95's concatenation of folds put into C98. C105 – refuted.
* C106 – the binary64 0.2 exceeds 1/5 by less than half an ulp of the product, so the product rounds to m/5 whenever that is
  whole. C107 – refuted; monotonicity of rounding keeps the number within one. C108 – the edges are ordered, so the
  numbers below two edges differ by those between them; for levels C78 and the error of each edge. C109 – refuted.
* C110 – the logarithm of each density has the form p ln l - q l, which is largest at p/q since ln t < t - 1; so the place
  can be read off, and it is not the documented one. C111 – by the last comparison of the code; closeness refuted.
* C112 – `P_Lip`: a function that is Lipschitz on every box of R^n has a minimum on it (by induction on n, from the
  extreme value theorem of the standard library). Parameters no worse than zero lie in a box whose size follows from C and the
  data; for the logistic losses mu may lie outside, but then every event is clipped and mu can be moved back. Zero gradient by
  Fermat along the gradient itself. C113 – refuted.
* C114 – `M_View`: the loops that fill the bias fields in place compute the lists of `M_MF` (induction over the loop) unless
  a field is a number; then the first assignment fails. C115 – linearity of the sum over events; refuted by doubling the data.
* C116 – the M-step is the solution of the stationarity equations (Lagrange, tested on differences of two unit directions); the
  gain is a sum of relative entropies with total weight at least alpha, each at least a quarter of the squared distance. C117 –
  refuted on two events with mirrored starts, where one number describes the parameters and a monotone map the iteration.
* C118 – invariant: each event keeps a topic in which the level, user and item have shares of at least 2^-107, so its products
  do not underflow to zero and the sum of the row is positive; counts are at most N + A and their sums at most 2^53, exactly
  representable bounds that rounding does not cross. C119 – refuted by evaluation, with an invariant for the NaN afterwards.
* C120 – sums, products and quotients of positive numbers away from underflow add up exponents of 1 + 2^-53 (`P_FloatRel`); one
  iteration takes an exponent E to 16 E + 5 D + 17. Predictions through the product form of C44.
* C121 – C123 – `P_FloatAe`: a computed value is within (1 + 2^-53)^n - 1 of a majorant of the exact one; sums add majorants,
  products multiply them. The majorants turn out to be the same formulas on absolute values. Gradient entry by entry over the
  layout of the coefficient vector (C32). The sigmoid is 1/4-Lipschitz.
* C132 – `M_FloatImp`: the loop over the users unrolled to one nested sum per entry over all cells (C35), then as C123.
* C133 – the logarithms of two numbers that are close; 1 - sigmoid keeps only an absolute accuracy, which is what label 0 pays; then sums as in C122.
* C134 – the exact expansion of C90 taken from both points and added: the squared differences equal the gradients times the difference; then Cauchy-Schwarz and absorbing.
* C135 – the exact expansion between any two points (C90 without the restriction on the factors) has one more term, residuals times the changes of the factors; the condition bounds that term by the penalty, factor by factor. Where the condition fails a small extra factor along x and z lowers the loss. Padding with zero factors relates different numbers of factors.
* C136 – the two optima compared in each other's objective; padding for the factors; for the mean, the penalty bounds every prediction minus the mean parameter and the residuals add up to zero.
* C137 – at the optimum with the additional event the gradient without it has coordinates 0 or the residual; then C134.
* C138 – the second pass is the mean squared error against the computed mean, so C100 applies to it; deviations from a number near the mean differ from the standard deviation by no more than its distance from the mean; the standard deviation is a seminorm, which carries the rounding of the errors themselves.
* C139 – sums and products carry errors relative to the sums of absolute values (P_FloatAe), the square of the sum is at most n times the sum of squares, doubling is exact and the denominator is rounded once.
* C140–C142 – `M_Args`: the loop of argparse over the remaining words with the options already seen. `P_Args` splits the loop at words;
  every spelling of an option is one step with the same effect, so induction over the options gives the namespace (last wins). The tables of the
  scripts are checked once by evaluation (`exp_table`, `stats_table`, `merge_table`). C142 refuted, with the lines that work and those that do not.
* C143, C144 – `M_Main`: `init_info` from the namespace, then `M_Task`. C143 composes C140 with it. C144 refuted by evaluation and by `C144_no_test`.
* C145 – the docstrings as a relation between words and changes of settings; each option is one effect of C140, and folding them gives the settings of C143.
* C146 – each value is parsed from its own text whatever delimiter follows, by induction over the tree; strings by cases on the escapes with surrogate pairs by arithmetic, integers through the decimal numbers of the library, floats under the hypothesis that repr and float are inverse; the fuel of the parser is shown not to matter; validity against the grammar of RFC 8259.
* C147 – reading and writing along a path of keys, with a frame lemma for places of which neither contains the other; each file adds exactly one entry to each place kept by fold (invariant over the loops), then induction over the files; success by keeping track of which places hold dictionaries; on the text by showing that all trees stay writable.
* C148 – computation of the script under what the tree has at five places; the frame lemma for the rest; the equality of statistics from C147_order.
* C149 – json_decodable commutes with reading and writing along a path; the written tree has the record of C58 at its places; single runs from C59, merging from C147, statistics from C148; on the text by showing that the written trees are writable.
* C150 – induction on the number of iterations left, collecting the chain of parameters; nothing is assumed about the sums and the logarithm.
* C151 – the places of the statistics tree by computation; their values from the theorems on metrics (C21, C52, C55); what the script gets as input from C148 and from the written tree (C149); the pairs of a cross validation from C60.
* C152 – np.unique by the order of the real values; rounding of differences is monotone, also into infinity, so the least neighbouring difference is the least of all; the threshold by Sterbenz-like exactness of small differences and the relative error of larger ones.
* C153 – the assignments of holdout_test one by one, each leaving the others' paths alone; `holdout_inv` and C64 for what the record contains, C148 and C151 for the statistics; merging by running first_fold and rest_fold.
* C154 – what the assignments before the tests put in place, and which entries the tests leave alone (`kept`); options read back from the written tree; for the whole way, the record with file names replaced by contents (`renamed`) goes through C153.
* C155 – splitting into lines is inverse to joining; refuted where '/dev/null' cannot be opened.
* C156 – C154's dictionary and C151's cross validation put together; two users give two tested lines per fold by C58; the longer command lines are again lines in the sense of C143.
* C157 – C154 and C156 again with load_data of exp_recsys_if.py, whose scores after loading are C64's; the statistics are C151's for item finders.
* C158 – the dictionary before the task, the system information and the statistics consist of what JSON can hold and have distinct keys, so the files of C156 and C157 round-trip by C146; merging and evaluation on texts are C147 and C148. The command lines are C156_command and C157_command with the texts in place of the trees.
* C159 – the file of a hold-out test consists of what JSON can hold, entry by entry; then C154 and C157 on the texts by C146 and C148, and C143 for the command line.
* C124 – refuted: floats below 1 are multiples of 2^-53, so 1 - s cannot be near 1e-15 in relative terms.
* C125 – C129 – NaN comes last in numpy's order, is the minimum and maximum of every array that has one, compares as false, and
  passes through every sum whatever its order. C128 refuted by a file with an empty field.
* C130 – every count, sum and number of events is multiplied by m, and the normalisations divide it out again.
* C131 – `M_Alias`: simulation of the program that passes values, up to score_domain, scores, n_score_levels and event_index.
  Refuted for these attributes.

## Findings

Each is a theorem about the model (name in brackets) unless marked "remark".

1. `predict` after `fit(event_index=(1, 0))` selects the columns of the query but translates them with the
   unpermuted `event_otypes`: known pairs are scored as unknown (`C26_reversed_columns_refuted`); selecting
   fewer or more columns than `s_event` makes every `predict` raise (`C26_always_fails`).
2. With `event_otypes=[1, 0]` the value for unknown ids is read from `n_objects`, which fit has already
   permuted, at the wrong positions: an unknown id may be scored as a known object
   (`C26_reversed_types_refuted`); `event_otypes=[0, 2]` always raises IndexError.
3. `get_event_array` applies `event_index` to columns already selected, and repeated events are counted, not
   flagged (`C31_reversed_refuted`, `C31_repeated_refuted`); the implicit loss may then be negative
   (`C36_implicit_loss_refuted`). The documented result None without events is a TypeError.
4. `to_eid` accepts negative internal ids (`C05_to_eid_negative_refuted`, `C05_negative_wraps`).
5. `set_feature` raises IndexError when some object has no feature row (`C09_set_feature_total`), and features
   survive a second `set_event`, where they belong to other objects (`C16_features_aligned_refuted`).
6. `n_score_levels` and the bins differ when the stride does not divide the range, e.g. scores {1, 3, 6}
   (`C18_levels_refuted`); MultinomialPLSA.fit then raises IndexError (`C25_plsa_fit_refuted`).
7. Constant scores with an estimated domain raise ValueError after the events have been replaced; the number
   of scores is never compared with the number of events (`C24_atomic_refuted`, `C24_length_refuted`).
8. `statistics_mean` never accepts lists: the second test is again for dict (`C54_lists_refuted`,
   `C54_lists_never`).
9. `ShuffleSplitWithinGroups` ignores `train_size` when both sizes are given (`C50_train_size_refuted`).
10. pLSA reports failure when the tolerance is reached in the last allowed iteration (`C45_success_refuted`);
    `maxiter=0` reports one iteration and an infinite loss (`C45_no_iteration_refuted`); with loss 0 the
    relative change is nan and the loop never converges (`C45_perfect_refuted`; exactly which training sets do this:
    `C83_never`, `C83_converges`).
11. The gradients of the logistic models ignore the clipping of the sigmoid
    (`C34_logistic_gradient_refuted`, `C35_implicit_gradient_refuted`).
12. `json_decodable` turns None, tuples and np.bool_ into strings, keeps complex numbers, does not convert
    keys, and a second run may still change something (`C61_complex_refuted`, `C61_keys_refuted`,
    `C61_idempotent_refuted`).
13. `testing` stores the start time as end time (`C63_testing_refuted`); `holdout_test` stores the training
    file as test file (`C62_test_file_refuted`).
14. A failed fit of an explicit item finder leaves new id tables beside the old coefficients
    (`C29_failed_fit_refuted`).
15. A scalar `missing_values`, documented as allowed, raises TypeError (`C04_scalar_missing_always_fails`);
    so does a python int given to `score_histogram` (`C57_int_bins_refuted`).
16. A fitted recommender shares `eid` and `iid` with the container; a later `data.set_event` changes what it
    predicts (`C15_insulated_refuted`).
17. Files of one line and events of one identifier cannot be loaded (`C66_one_line_raises`,
    `C66_one_type_raises`).
18. In binary64 `n_score_levels` is wrong for the domains (0, 0.3, 0.1), (0.1, 0.7, 0.1), (0.1, 0.3, 0.1)
    (`C23_levels_refuted`).
19. `variance_with_gamma_prior(force_all_finite=True)` does not check arrays of floats (`C69_force_refuted`).
20. `score_predictor_report` raises ValueError on empty arrays, `score_predictor_statistics` returns NaN
    (`C70_empty`).
21. A test fold with one event breaks stats_recsys.py: `predict` returns a number without an axis and
    `np.concatenate` raises (`C60_single_event_refuted`).
22. The branch of `do_task` for an invalid validation scheme uses the undefined name `opt`: a NameError instead of the
    announced TypeError (`C97_scheme`).
23. Remark: `predict` on data with string ids treats every query as unknown, because queries are converted to
    integers.
24. Remark: with scikit-learn 0.20 a user with one event is always tested and never trained on.
25. Remark: rounding in `ceil(test_size * m)`, e.g. 0.07 * 100, may add a test sample.
26. Remark: `set_event` keeps a caller's `score_domain` array by reference; filtered copies share it. No
    library method writes into it.
27. Remark: with exactly one user or one item, numpy versions that read the field `('bu', float, 1)` as a scalar
    make `bu_` or `bi_` a number without axis, and `_init_coef` fails. The model gives the fields the shapes meant.

28. `load_pci_sample` passes the domain (1, 5, 0.5), which has nine levels; its documentation says the domain is
    1, 2, 3, 4, 5 (`C76_pci_levels_refuted`). The field type 'U18' cuts names: two titles with the same first 18
    characters become one item (`C76_pci_names_refuted`). The documentation of `load_movielens100k` calls the date of an
    item a tuple (year, month, day); the fields are day, month, year.
29. Digitised scores may be as large as `n_score_levels`: (0.3 - 0) / 0.1 is slightly below 3 in binary64, so
    `n_score_levels` is 3 for the domain (0, 0.3, 0.1), while `generate_score_bins` makes four bins and 0.3 is class 3
    (`C79_class_too_large_refuted`). `MultinomialPLSA.fit` then raises IndexError (`C79_plsa_decimal_refuted`). For
    (1, 1.3, 0.1) the quotient is slightly above 3: there are five classes for four levels (`C79_spare_class_refuted`).
30. The constructors of PMF, LogisticPMF and ImplicitLogisticPMF write `disp` and `maxiter` into the `options`
    dictionary they are given (`C81_callers_options_refuted`); a second recommender given the same dictionary replaces
    the number of iterations of the first (`C81_shared_refuted`). A misspelt keyword is noticed by `fit` only
    (`C80_unknown_keyword`).
31. Remark: the scripts document `--maxiter` as a factor to be multiplied by the number of parameters; the optimiser
    gets the number itself (`C82_factorization`).
32. Event files with identifiers that are not integers are loaded without complaint: `genfromtxt` replaces each of them
    by -1, so all users become one (`C84_text_ids_refuted`).
33. A movie title with '#' is accepted by the converter of MovieLens 1M, but the loader takes the rest of the line for a
    comment and raises ValueError (`C85_hash_refuted`). The one such title of the data set, movie 3845, is replaced by
    name in the converter.
34. Because `safe_sigmoid` clips, the logistic losses are not convex in the biases: at mu = -1000 the loss of a liked
    event is below 150 where the gradient at 0 promises more than 500 (`C90_logistic_refuted`). Together with finding
    on C34 an optimiser that overshoots sees a flat loss with a gradient that is not zero.
35. With the default `-d 0 0 0` the score domain is estimated from all scores of the file, those of the tested events
    included, and `filter_event` hands it to the training data. The levels of the topic model, and with them its
    predictions, therefore depend on the tested scores: changing the tested score 3 to 5 moves its own prediction from
    11/6 to 5/2 (`C94_estimated_domain_refuted`). With a given domain nothing leaks (`C94_given_domain`).
36. The logistic model refuses training data of one class. With a given domain a file (or the training part of a fold)
    whose scores are all above or all below the middle ends the whole experiment with a ValueError (`C96_one_sided`).
37. The clipping of `safe_sigmoid` ties all items whose linear score is beyond 34.54: two items in the right order get
    equal probabilities, and the reported area under the curve can drop from 1 to 1/2 (`C98_clip_refuted`).
38. The reported mean absolute error depends on the order of the results in the last digit (errors 1, 2^-53, 2^-53 and
    2^-53, 2^-53, 1), so merging folds or sorting a result file may change it, if only by twice the bound of C100
    (`C101_order_refuted`, `C100_order`). Three errors of exactly 0.1 have a standard deviation other than 0
    (`C101_constant_refuted`).
39. Finite scores far apart (±2^1023) give the mean inf and the standard deviation NaN, which the checks of the arguments
    do not prevent; an error of 2^-1074 can be reported as 0 (`C101_stdev_nan_refuted`, `C101_zero_refuted`).
40. The clipping that costs convexity and order (34, 37) is needed: without it a linear score of 60 makes the loss a NaN
    in binary64 (`C99_unclipped`), with it the data term is a number for all coefficients (`C99_loss`).
41. Whether the logistic model can be cross validated at all may depend on the random seed: if the few lines on one side
    of the domain all fall into the tested fifth, `fit` raises ValueError and the whole experiment is lost
    (`C103_luck_refuted`; a sufficient condition is in `C102_runs`).
42. The area under the curve of a cross validation compares predictions of different folds, that is of different models:
    two perfect folds can be reported as 3/4 (`C105_mean_of_folds_refuted`, `C104_pooled`).
43. `test_size` 0.07 tests 8 of 100 samples, because the product 7.000000000000001 is rounded up
    (`C107_decimal_refuted`). That the scripts' 0.2 tests exactly a fifth is due to rounding as well: the exact product with
    the binary64 number 0.2 would test 2 of 5 lines (`C106_fifth`, `C106_nonvacuous`).
44. For (1, 1.3, 0.1) the histogram has five bins for four levels, with the maximum listed twice, and the scores it lists
    may differ from the levels in the last digit (`C109_spare_bin_refuted`, `C109_listed_score_refuted`).
45. `variance_with_gamma_prior` is not the MAP estimate of the precision that its docstring refers to: that one has the
    denominator 2a + n - 2 (`C110_map_refuted`, `C110_mode`). It is the MAP estimate for the logarithm of the precision.
46. Its one-pass formula cancels: 2^40 and 2^40 + 1024 have the reported variance 1 (that is b/a) instead of 262144, three
    copies of 17179869366 have 43690 (`C111_lost_variance_refuted`, `C111_invented_variance_refuted`).
47. `PMF(C=0)` need not have an optimum: for some data the loss has the infimum 0 without attaining it, so the factors drift
    to infinity until the optimiser gives up; for C < 0 (accepted without a check) the losses of `PMF` and `LogisticPMF` are
    unbounded below whatever the data (`C113_no_penalty_refuted`, `C113_negative_penalty`).
48. Under numpy 1.x no matrix factorization model can be fitted to data with exactly one user or exactly one item: the fields
    ('bu', float, n_users) and ('bi', float, n_items) of the coefficients are then numbers, and `self.bu_[i] = ...` is a
    TypeError (`C114_refuted`, `C114_single`). The dtype should say (n_users,) and (n_items,), as it does for mu. A fold of
    cross validation with such training data ends the experiment.
49. The documentation of `PMF` divides the squared errors by the number of events, `loss` does not, so C weighs less the more
    events there are: giving every event m times is dividing C by m (`C115_documented_refuted`, `C115_repeated_optima`).
50. With the default smoothing alpha = 1 the loss that `MultinomialPLSA.fit` reports may be larger at the end than at the start,
    for every tol and maxiter (`C117_loss_refuted`): EM lowers the penalised likelihood, the report shows the likelihood alone.
    The convergence test compares the likelihood too, so it looks at a quantity that the iterations do not optimise.
51. With alpha = 0 a topic can die of underflow in binary64; then 0/0 makes all parameters NaN within two iterations, the
    convergence test is never met, the fit reports status 2 and every prediction is the lowest level
    (`C119_unsmoothed_refuted`). Nothing checks for it; any alpha > 0 excludes it (`C118_fit`).
52. Finite coefficients can give NaN: factors of 2^700 make a prediction inf - inf although the exact score is 0
    (`C121_overflow_refuted`), and with C = 0 biases of 2^600 make the loss 0 * inf although it is exactly 0
    (`C122_overflow_refuted`). `fit` and `raw_predict` check nothing; within the bounds of C121 and C122 it cannot happen.
53. The logistic loss loses its digits for label 0: it takes the logarithm of 1 - s, and near the clipping bound s has no digits
    left, so the loss of such an event is off by at least 7e-4 whatever `expit` and `log` are, while the mirrored event with
    label 1 is right to 1e-12 (`C123_loss_accuracy_refuted`). safe_sigmoid(-x) instead of 1 - safe_sigmoid(x) would not.
54. Scores that are missing or no numbers are read as NaN without a word (`C125_loaded`), and what follows depends on the model:
    `binarize_score` makes them positive events that the item finders accept (`C128_missing_is_positive_refuted`), the loss of
    `PMF` is NaN everywhere (`C129_loss`), the topic model ends with an IndexError (`C127_fit_refused`), and estimating the
    domain with a ValueError (`C126_nan`).
55. `set_event` keeps a score_domain that is an array, and `fit` an event_index, without copying (np.asanyarray). A caller who
    reuses the array changes the domain of the container and of its filtered copies, while n_score_levels stays, or the
    columns that predict looks at (`C131_refuted`).
56. INFILE and OUTFILE with an option between them are refused: `exp_recsys_sp.py train.event -m pmf out.json` ends with status 2, since
    argparse takes OUTFILE as missing when it reaches the option (`C142_torn`, `C142_torn_refuted`; Python 3.12.7 and 3.13 mend some of these lines).
57. `-i train.event out.json` does not write to out.json: the single positional argument is taken for the input, opened and ignored, and the
    results go to standard output (`C142_behind_in`, `C142_behind_in_refuted`). If out.json does not exist yet, the line is refused.
58. The output file is emptied while the command line is read: a later mistake in the line, -h, or any failure of the experiment loses what was in
    it (`C144_emptied_refuted`). `stats_recsys.py r.json r.json` destroys its input before reading it (`C144_same_file_refuted`).
59. The default scheme is holdout and `-t` is not required: without `-t` the scripts load the training data, then fail on the missing test file
    and leave an empty output (`C144_no_test`).
60. `-d -1e-1 1 1` is refused although float accepts -1e-1: argparse knows -1 and -.5 as negative numbers, not those with an exponent (`C141_too_few`, `C141_nonvacuous`).
61. `json.load(fp, encoding='utf-8')` raises TypeError since Python 3.9: exp_recsys_fold_merge.py and stats_recsys.py cannot read any result file there (`C146_python39_refuted`).
62. Result and statistics files with NaN or infinite entries are not JSON: the tokens NaN and Infinity are Python's own (`C146_nan_refuted`).
63. Python's json turns keys that are numbers into texts, and a dictionary with 1 and '1' loses an entry (`C146_keys_refuted`, `C146_same_keys_refuted`); the scripts avoid this by str(fold).
64. exp_recsys_fold_merge.py does not check that its files belong together: results of different methods become one experiment under the name of the first (`C147_mixed_refuted`).
65. Kinds of predictions that the first file lacks are dropped from the others without a word (`C147_dropped_refuted`).
66. Of two files about the same fold the earlier is lost without a word (`C147_again_refuted`).
67. A set_event that fails because of a NaN score leaves a domain of three NaNs behind, with the new scores and the old
    number of levels (`C152_nan`); with constant scores it leaves the old domain with the new scores (`C152_domain`).
68. Two scores that are neighbouring floats can both be at most the default threshold, so that all become 0
    (`C152_neighbours`).
69. A hold-out test with a single test line gives a result file that stats_recsys.py cannot evaluate (`C153_single`,
    `C153_finder`).
70. Two hold-out files cannot be merged: exp_recsys_fold_merge.py fails with a TypeError about list indices instead of
    saying so (`C153_merge`).
71. get_system_info opens '/dev/null' before it looks at the system, so on Windows it fails, and with it every experiment
    script, although it has a branch for other systems (`C155_other_refuted`).
72. If no seed is given, result files contain the text 'None' as random_state, not null (`C154_file`).

## Mutation testing

`seeded/LOG.jsonl` records every attempt: an edit of a model definition in a scratch copy, the properties that
the edit makes false, the lemmas and theorems that no longer compile, and the theorems that were tightened when
an edit went unnoticed. "Failed" lists every lemma or theorem whose proof breaks when the proofs are checked one
by one; "claims" lists the properties whose theorems rest on one of them.

## Index of properties

| id | title | status | theorems |
|---|---|---|---|
| C01 | External and internal ids are in bijection after set_event | proved | `C01_id_bijection` |
| C02 | Stored events decode back to the events that were given | proved | `C02_event_roundtrip` |
| C03 | Unknown external ids are never confused with known objects | proved | `C03_unknown_ids`, `C03_missing_array` |
| C04 | Event conversion accepts exactly well shaped arrays | partial | `C04_shapes`, `C04_scalar_missing_refuted`, `C04_scalar_missing_always_fails` |
| C05 | to_eid rejects every internal id that is not 0..n-1 | partial | `C05_to_eid_range_partial`, `C05_negative_wraps`, `C05_to_eid_negative_refuted`, `C05_unknown_type`, `C05_negative_type_wraps`, `C05_no_events` |
| C06 | Id assignment depends only on the set of ids that occur | proved | `C06_ids_depend_on_set`, `C06_event_order_irrelevant` |
| C07 | Containers cannot be created with invalid type declarations | proved | `C07_constructor` |
| C08 | set_event is all-or-nothing on badly shaped event arrays | proved | `C08_set_event_atomic` |
| C09 | set_feature attaches each feature row to the right object | proved | `C09_set_feature`, `C09_set_feature_total` |
| C10 | filter_event keeps exactly the selected events, with their scores and features | proved | `C10_filter_selects`, `C10_filter_total`, `C10_score_filter` |
| C11 | filter_event keeps exactly the objects that still occur and renumbers them densely | proved | `C11_filter_objects` |
| C12 | Object features follow their objects through filtering | proved | `C12_features_follow` |
| C13 | Filtering is canonical and composes | proved | `C13_filter_is_rebuild`, `C13_filter_composes`, `C13_composition_exists`, `C13_filter_all_is_identity` |
| C14 | A filtered container and its original never influence each other | proved | `C14_value_semantics`, `C14_independent`, `C14_histories` |
| C15 | A fitted recommender is insulated from later changes of the container it was fitted on | partial | `C15_tables_alias_partial`, `C15_insulated_partial`, `C15_insulated_refuted` |
| C16 | Containers stay consistent over every history of operations | partial | `C16_consistent_histories_partial`, `C16_scored_histories`, `C16_features_aligned_partial`, `C16_features_aligned_refuted` |
| C17 | The estimated score domain brackets the scores | proved | `C17_estimated_domain`, `C17_constant_scores_raise` |
| C18 | Number of score levels, score bins and digitized scores agree | partial | `C18_levels_bins_agree`, `C18_digitized_in_range`, `C18_digitize_total`, `C18_levels_refuted` |
| C19 | digitize_score maps a score to its nearest level | proved | `C19_digitize_monotone`, `C19_digitize_pointwise`, `C19_digitize_nearest` |
| C20 | Score levels and digitized scores are mutually inverse | proved | `C20_levels_inverse` |
| C21 | score_histogram counts every score exactly once | proved | `C21_histogram`, `C21_statistics`, `C21_scores`, `C21_additive`, `C21_order` |
| C22 | binarize_score thresholds scores and yields valid binary data | proved | `C22_binarize`, `C22_binarize_monotone`, `C22_binarize_idempotent`, `C22_binarize_total` |
| C23 | The number of score levels is right in floating point | partial | `C23_levels_refuted`, `C23_dyadic_levels_partial`, `C23_off_by_one` |
| C24 | Scores stay aligned with events | partial | `C24_length_refuted`, `C24_atomic_refuted`, `C24_alignment_partial`, `C24_failures_partial` |
| C25 | predict scores the objects the caller named | proved | `C25_predict_named`, `C25_code`, `C25_pmf`, `C25_logistic`, `C25_implicit`, `C25_pmf_fit_succeeds`, `C25_logistic_fit_succeeds`, `C25_implicit_fit_succeeds`, `C25_plsa`, `C25_plsa_fit_succeeds` |
| C26 | predict is right for every event_index and event_otypes the API accepts | partial | `C26_predict_partial`, `C26_reversed_columns_refuted`, `C26_reversed_types_refuted`, `C26_always_fails` |
| C27 | Batch prediction equals row-by-row prediction | proved | `C27_row_by_row`, `C27_selection`, `C27_pmf`, `C27_logistic`, `C27_plsa` |
| C28 | Removing training data does not change predictions | proved | `C28_remove_data`, `C28_fit_keeps_no_data` |
| C29 | Explicit item finders accept exactly binary-scored data and fail cleanly | partial | `C29_accepts_binary`, `C29_failed_fit_refuted`, `C29_failed_fit_partial` |
| C30 | Every event is used for training as the pair selected by event_index | proved | `C30_training_events`, `C30_accepted` |
| C31 | The implicit event matrix records which items each user consumed | partial | `C31_event_matrix_partial`, `C31_repeated_refuted`, `C31_reversed_refuted` |
| C32 | Model parameters occupy disjoint parts of the optimised vector | proved | `C32_layout` |
| C33 | PMF.grad_loss is the gradient of PMF.loss | proved | `C33_pmf_gradient` |
| C34 | LogisticPMF.grad_loss is the gradient of LogisticPMF.loss | partial | `C34_clipping_gap_partial`, `C34_logistic_gradient_partial`, `C34_logistic_gradient_refuted` |
| C35 | ImplicitLogisticPMF.grad_loss is the gradient of ImplicitLogisticPMF.loss | partial | `C35_implicit_is_logistic`, `C35_implicit_gradient_partial`, `C35_clipping_gap_partial`, `C35_implicit_gradient_refuted` |
| C36 | Losses are well defined and non-negative | partial | `C36_pmf_loss`, `C36_logistic_loss`, `C36_implicit_loss_partial`, `C36_implicit_loss_refuted` |
| C37 | Unknown users and items fall back to the remaining terms | proved | `C37_unknown_fallback`, `C37_cases`, `C25_pmf`, `C25_logistic`, `C25_implicit` |
| C38 | safe_sigmoid stays in the documented open interval, is monotone and symmetric | proved | `C38_range`, `C38_probability`, `C38_monotone`, `C38_exact_inside`, `C38_symmetric`, `C38_strict_inside`, `C38_predictions`, `C38_predict` |
| C39 | Initial biases are residual means and unseen objects start at zero | proved | `C39_logistic_initial`, `C39_pmf_initial`, `C39_unseen_initial`, `C39_implicit_initial`, `C39_implicit_no_objects` |
| C40 | Objects without events only feel the regulariser | proved | `C40_unseen_gradient`, `C40_unseen_stays_zero` |
| C41 | pLSA parameters are probability distributions at every iteration | proved | `C41_distributions`, `C41_total` |
| C42 | pLSA responsibilities are normalised | proved | `C42_responsibilities` |
| C43 | EM never worsens the penalised likelihood | proved | `C43_em_monotone`, `C43_loss`, `C43_loss_monotone`, `C43_fit_improves` |
| C44 | pLSA predictions lie inside the score range | proved | `C44_expectation`, `C44_mode`, `C44_fitted` |
| C45 | The EM loop reports its outcome truthfully | partial | `C45_report_partial`, `C45_success_refuted`, `C45_no_iteration_refuted`, `C45_perfect_refuted` |
| C46 | pLSA starts from a well defined state | proved | `C46_start`, `C46_preferred_level`, `C46_every_level`, `C46_problem` |
| C47 | KFoldWithinGroups partitions the samples | proved | `C47_partition` |
| C48 | KFoldWithinGroups is balanced inside every group | proved | `C48_balance`, `C48_errors` |
| C49 | ShuffleSplitWithinGroups tests the requested share of every group | proved | `C49_test_share`, `C49_errors` |
| C50 | ShuffleSplitWithinGroups honours train_size | partial | `C50_train_size_partial`, `C50_train_size_refuted` |
| C51 | InterlacedKFold deals samples round-robin | proved | `C51_interlaced`, `C51_init` |
| C52 | Error metrics satisfy their defining identities | proved | `C52_mean_absolute_error`, `C52_mean_squared_error`, `C52_mae_rmse`, `C52_triangle`, `C52_errors` |
| C53 | variance_with_gamma_prior is strictly positive | proved | `C53_gamma_variance`, `C53_only_finite`, `C53_shift`, `C53_nothing_finite` |
| C54 | statistics_mean averages statistics across collections | partial | `C54_dicts`, `C54_vectors`, `C54_order`, `C54_missing_key`, `C54_lists_refuted`, `C54_lists_never` |
| C55 | is_binary_score recognises exactly binary score lists | proved | `C55_is_binary` |
| C56 | Item-finder statistics demand binary truth and report AUC only when defined | proved | `C56_refuses`, `C56_statistics` |
| C57 | score_histogram accepts an integer number of bins | partial | `C57_int_bins_refuted`, `C57_np_int_partial`, `C57_np_int_bins_partial` |
| C58 | cv_test never tests on training events and keeps its outputs aligned | proved | `C58_cv_test`, `C58_user_share`, `C58_total`, `C58_target` |
| C59 | Merging one-fold runs reproduces the full cross validation | proved | `C59_merge`, `C59_single_runs_suffice` |
| C60 | The statistics script compares each prediction with its own truth | partial | `C60_aligned`, `C60_cv_runs`, `C60_merged_runs`, `C60_total_partial`, `C60_single_event_refuted` |
| C61 | json_decodable makes any result tree serialisable without changing its shape | partial | `C61_serialisable_partial`, `C61_fixed`, `C61_idempotent_partial`, `C61_structure`, `C61_complex_refuted`, `C61_keys_refuted`, `C61_idempotent_refuted`, `C61_top_level` |
| C62 | The hold-out report names the test file | partial | `C62_names_training_file`, `C62_test_file_refuted` |
| C63 | Recorded end times are end times | partial | `C63_training_partial`, `C63_testing_partial`, `C63_end_time_wrong`, `C63_testing_refuted` |
| C64 | Hold-out evaluation judges test scores on the training scale | proved | `C64_same_domain`, `C64_same_threshold` |
| C65 | Data converters lose and invent nothing | proved | `C65_sushi_events`, `C65_sushi_total`, `C65_sushi_users`, `C65_sushi_read_back`, `C65_fields_read_back`, `C65_mini`, `C65_genres`, `C65_genres_total`, `C65_ml1m_item`, `C65_ml1m_event_lossless`, `C65_ml1m_user_lossless`, `C65_ml100k_event`, `C65_ml100k_user_lossless`, `C65_ml100k_item`, `C65_flixster` |
| C66 | Loaded files become the events they contain | partial | `C66_load_event_partial`, `C66_load_scores_partial`, `C66_one_line_raises`, `C66_one_type_raises`, `C66_one_line_refuted` |
| C67 | pLSA scores unknown users and items with the marginal model | proved | `C67_unknown_user`, `C67_unknown_item`, `C67_average_user`, `C67_average_item` |
| C68 | pLSA can be fitted to every scored container | partial | `C25_plsa_fit_refuted`, `C25_plsa_fit_succeeds` |
| C69 | variance_with_gamma_prior refuses non-finite data when asked | partial | `C69_force_refuted`, `C69_force_partial`, `C69_empty` |
| C70 | The brief report and the full statistics agree | proved | `C70_report_agrees`, `C70_empty` |
| C71 | The order of events does not matter for training | proved | `C71_objective`, `C71_start`, `C71_matrix`, `C71_plsa`, `C71_pmf_fit`, `C71_logistic_fit`, `C71_implicit_fit`, `C71_plsa_fit` |
| C72 | At a stationary point predictions and scores balance | proved | `C72_gradient_residuals`, `C72_stationary`, `C72_biases_centred` |
| C73 | Fitting again forgets the previous fit | proved | `C73_pmf`, `C73_logistic`, `C73_plsa`, `C73_implicit`, `C73_predict` |
| C74 | Renaming identifiers does not change what is learnt | proved | `C74_tables`, `C74_fit` |
| C75 | Bundled loaders attach the right features | proved | `C75_features`, `C75_one_line_raises`, `C75_flixster` |
| C76 | The PCI sample has the documented domain | partial | `C76_pci_partial`, `C76_pci_names_refuted`, `C76_pci_levels_refuted` |
| C77 | Which queries predict accepts | proved | `C77_empty_query`, `C77_not_fitted`, `C77_extra_columns`, `C77_missing_column` |
| C78 | Digitising in floating point arithmetic finds the right level | proved | `C78_digitize_decimal`, `C78_digitize_dyadic` |
| C79 | Digitised scores are below n_score_levels in floating point arithmetic | partial | `C79_class_too_large_refuted`, `C79_spare_class_refuted`, `C79_plsa_decimal_refuted`, `C79_at_most_one_more`, `C79_dyadic_partial`, `C79_plsa_start_raises` |
| C80 | Constructor arguments reach the model and the optimiser | proved | `C80_arguments`, `C80_unknown_keyword`, `C80_topic_arguments` |
| C81 | Recommenders do not share optimiser options | partial | `C81_shared_refuted`, `C81_callers_options_refuted`, `C81_own_options`, `C81_other_dictionaries` |
| C82 | Command line options reach the model and the optimiser | proved | `C82_factorization`, `C82_topic` |
| C83 | EM for the topic model converges | proved | `C83_converges`, `C83_never`, `C83_bound` |
| C84 | Event files are read line by line as written | partial | `C84_text_ids_refuted`, `C84_rows`, `C84_refused`, `C84_load_scores`, `C84_load_events` |
| C85 | A converted data set loads as published | partial | `C85_hash_refuted`, `C85_movielens`, `C85_flixster`, `C85_sushi`, `C85_movies` |
| C86 | Adding a constant to all scores adds it to all predictions | proved | `C86_objective`, `C86_start`, `C86_predictions`, `C86_fit` |
| C87 | Swapping likes and dislikes mirrors the logistic models | proved | `C87_logistic`, `C87_implicit`, `C87_predictions` |
| C88 | The latent space has no preferred axes | proved | `C88_objective`, `C88_predictions` |
| C89 | Fitted parameters are bounded by the regulariser | proved | `C89_pmf`, `C89_logistic`, `C89_implicit`, `C89_zero_C` |
| C90 | With the factors of users or items fixed the loss is convex | partial | `C90_logistic_refuted`, `C90_pmf_exact`, `C90_pmf_optimal`, `C90_bias_model`, `C90_logistic_partial` |
| C91 | The numbering of the topics does not matter | proved | `C91_fit`, `C91_predictions` |
| C92 | Topics that start alike stay alike | proved | `C92_tied`, `C92_marginals`, `C92_predictions`, `C92_fit` |
| C93 | Prediction errors as statistics of pairs | proved | `C93_order`, `C93_report_order`, `C93_pooled`, `C93_bias`, `C93_constant` |
| C94 | Tested scores do not reach the training | partial | `C94_estimated_domain_refuted`, `C94_no_leak`, `C94_given_domain`, `C94_given_domain_item_finder` |
| C95 | What a complete experiment computes | proved | `C95_pmf`, `C95_logistic`, `C95_plsa`, `C95_error`, `C95_plsa_error`, `C95_pmf_runs`, `C95_plsa_runs` |
| C96 | What a hold-out experiment computes | proved | `C96_pmf`, `C96_logistic`, `C96_plsa`, `C96_error`, `C96_pmf_runs`, `C96_logistic_runs`, `C96_plsa_runs`, `C96_estimated_two_sided` |
| C97 | Options, repetition and merging of experiments | proved | `C97_repeatable`, `C97_models_repeatable`, `C97_options`, `C97_holdout_target`, `C97_scheme`, `C97_merged_statistics`, `C97_reordered_statistics`, `C97_finder_order`, `C97_statistics` |
| C98 | What the reported area under the curve measures | partial | `C98_clip_refuted`, `C98_pairs`, `C98_range`, `C98_perfect`, `C98_increasing`, `C98_reverse`, `C98_constant`, `C98_of_pairs`, `C98_sigmoid`, `C98_holdout` |
| C99 | Clipping keeps the sigmoid and the logistic loss numbers in floating point | proved | `C99_range`, `C99_close`, `C99_overflow`, `C99_nan`, `C99_loss_part`, `C99_loss`, `C99_residual`, `C99_rounded_expit`, `C99_rounded_log`, `C99_unclipped` |
| C100 | Accuracy of the reported errors in floating point | proved | `C100_mae`, `C100_mse`, `C100_not_nan`, `C100_symmetric`, `C100_self`, `C100_zero`, `C100_order` |
| C101 | The reported errors as exact statistics in floating point | partial | `C101_order_refuted`, `C101_zero_refuted`, `C101_constant_refuted`, `C101_stdev_nan_refuted` |
| C102 | When cross validation of the logistic model runs through | proved | `C102_cases`, `C102_runs`, `C102_one_sided` |
| C103 | A file with scores on both sides can be cross validated with the logistic model | partial | `C103_luck_refuted` |
| C104 | What the area under the curve of a cross validation measures | proved | `C104_pooled` |
| C105 | The area of a cross validation as mean over its folds | partial | `C105_mean_of_folds_refuted` |
| C106 | A fifth of the lines is tested, also in binary64 | proved | `C106_product_ok`, `C106_fifth`, `C106_fifth_of`, `C106_user_share` |
| C107 | A decimal test_size tests the decimal share | partial | `C107_decimal_refuted`, `C107_at_most_one_off` |
| C108 | The histogram counts the classes of the scores, in binary64 | proved | `C108_counts`, `C108_levels` |
| C109 | The scores of the histogram are the levels of the domain | partial | `C109_spare_bin_refuted`, `C109_listed_score_refuted` |
| C110 | variance_with_gamma_prior is the documented MAP estimate | partial | `C110_map_refuted`, `C110_mode`, `C110_log_scale` |
| C111 | variance_with_gamma_prior in binary64 | partial | `C111_positive`, `C111_lost_variance_refuted`, `C111_invented_variance_refuted` |
| C112 | The objective of every matrix factorization model has a minimum | proved | `C112_pmf`, `C112_logistic`, `C112_implicit`, `C112_optimum_stationary`, `C112_balanced_optimum` |
| C113 | There is an optimum for every accepted penalty weight | partial | `C113_no_penalty_refuted`, `C113_negative_penalty` |
| C114 | Matrix factorization models can be fitted to every data set | partial | `C114_refuted`, `C114_single`, `C114_same_init`, `C114_same_fit`, `C114_fit_succeeds_partial` |
| C115 | The squared loss is the documented objective | partial | `C115_documented_refuted`, `C115_documented_scale`, `C115_repeated`, `C115_repeated_optima` |
| C116 | EM rests exactly at the stationary points of the penalised likelihood and gets there | proved | `C116_stationary`, `C116_interior`, `C116_gain`, `C116_strict`, `C116_settles` |
| C117 | Fitting the topic model does not make the reported loss worse | partial | `C117_loss_refuted`, `C117_bound`, `C43_fit_improves` |
| C118 | With smoothing, fitting the topic model in binary64 never leaves the numbers | proved | `C118_healthy`, `C118_fit`, `C118_positive`, `C118_predict` |
| C119 | Without smoothing, fitting the topic model in binary64 does not end in NaN | partial | `C119_unsmoothed_refuted` |
| C120 | The topic model fitted in binary64 is close to that of exact arithmetic | proved | `C120_parameters`, `C120_relative`, `C120_prediction` |
| C121 | Predictions of PMF in binary64 are the formula's value up to the rounding of its terms | proved | `C121_prediction`, `C121_bounded`, `C121_overflow_refuted` |
| C122 | Loss and gradient of PMF in binary64 are close to those of exact arithmetic | proved | `C122_loss`, `C122_gradient`, `C122_overflow_refuted` |
| C123 | Predictions and gradient of LogisticPMF in binary64 are close to those of exact arithmetic | proved | `C123_prediction`, `C123_gradient` |
| C124 | The logistic loss is equally accurate for both labels | partial | `C123_loss_accuracy_refuted` |
| C125 | Malformed or missing scores of a file become NaN and change nothing else | proved | `C125_loaded` |
| C126 | Estimating the score domain refuses NaN and infinite scores | proved | `C126_nan`, `C126_infinite` |
| C127 | NaN and infinite scores are outside all score classes, and the topic model refuses them | proved | `C127_classes`, `C127_numbers`, `C127_fit_refused` |
| C128 | binarize_score makes positive only what lies above the threshold | partial | `C128_missing_is_positive_refuted`, `C128_numbers_partial` |
| C129 | One NaN score makes the loss of PMF NaN everywhere | proved | `C129_loss`, `C129_gradient` |
| C130 | Recording every event m times and multiplying the smoothing by m leaves the topic model unchanged | proved | `C130_same_run`, `C130_any_order`, `C130_proportions` |
| C131 | Writing into an array after passing it does not change a container or a recommender | partial | `C131_refuted`, `C131_by_value_partial`, `C131_events_partial` |
| C132 | The gradient of the implicit-feedback model in double precision is close to the exact one | proved | `C132_gradient` |
| C133 | How accurate the cross-entropy loss is in double precision | proved | `C133_event`, `C133_loss`, `C133_implicit` |
| C134 | Two runs of PMF without latent factors end close to each other | proved | `C134_monotone`, `C134_bias_runs` |
| C135 | When latent factors lower the loss of PMF at all | proved | `C135_exact`, `C135_padding`, `C135_certificate`, `C135_improves`, `C135_worth`, `C135_rows`, `C135_pairs` |
| C136 | What the penalty weight and the number of factors do to the optimum | proved | `C136_pmf`, `C136_logistic`, `C136_implicit`, `C136_factors`, `C136_mean` |
| C137 | How much one event can change the predictions of PMF without factors | proved | `C137_one_event` |
| C138 | How close the reported standard deviations in binary64 are to exact arithmetic | proved | `C138_mae`, `C138_mse`, `C138_million` |
| C139 | How close variance_with_gamma_prior in binary64 is to exact arithmetic | proved | `C139_close`, `C139_enough` |
| C140 | A command line sets exactly the options it names, in any spelling and order | proved | `C140_parsed`, `C140_order`, `C140_total`, `C140_merge` |
| C141 | Command lines that are refused | proved | `C141_exclusive`, `C141_refused`, `C141_quits`, `C141_too_few`, `C141_ambiguous` |
| C142 | INFILE and OUTFILE on the command line name the input and the output | partial | `C142_files`, `C142_torn`, `C142_too_many`, `C142_behind_in`, `C142_torn_refuted`, `C142_behind_in_refuted` |
| C143 | The experiment that is run is the one the command line describes | proved | `C143_experiment`, `C143_task`, `C143_described` |
| C144 | A run that is refused or fails leaves the output file alone | partial | `C144_no_test`, `C144_emptied_refuted`, `C144_same_file_refuted` |
| C145 | The documented options of the experiment scripts do what the documentation says | proved | `C145_settings`, `C145_score_predictor`, `C145_item_finder`, `C145_refused` |
| C146 | The result file of one script is read by the next as it was written | partial | `C146_result_file`, `C146_round_trip`, `C146_same`, `C146_rewrite`, `C146_valid`, `C146_fuel`, `C146_python39`, `C146_python39_refuted`, `C146_nan_refuted`, `C146_keys_refuted`, `C146_same_keys_refuted`, `C146_surrogates_refuted` |
| C147 | Merging one-fold result files gives the result file of the whole cross validation | partial | `C147_fold`, `C147_first`, `C147_rest`, `C147_notes`, `C147_order`, `C147_runs`, `C147_files`, `C147_python39_refuted`, `C147_mixed_refuted`, `C147_dropped_refuted`, `C147_again_refuted` |
| C148 | Evaluating a result file adds the statistics of all folds and changes nothing else | proved | `C148_statistics`, `C148_rest`, `C148_removed`, `C148_depends`, `C148_merged`, `C148_files` |
| C149 | Running the folds separately, merging the files and evaluating gives the statistics of the complete cross validation | proved | `C149_file`, `C149_merged`, `C149_files` |
| C150 | Fitting the topic model in binary64 makes exactly the EM iterations until the loss settles | proved | `C150_steps` |
| C151 | The statistics file has the statistics of all tested events | proved | `C151_scores`, `C151_finder`, `C151_file`, `C151_finder_file`, `C151_single`, `C151_cross` |
| C152 | Estimated score domains and the default threshold in binary64 | proved | `C152_domain`, `C152_nan`, `C152_threshold`, `C152_classes`, `C152_neighbours` |
| C153 | Hold-out result files: contents, statistics, merging | proved | `C153_file`, `C153_merge`, `C153_statistics`, `C153_single`, `C153_finder` |
| C154 | What a result file says about its experiment | proved | `C154_prepared`, `C154_file`, `C154_determined`, `C154_holdout` |
| C155 | System information | partial | `C155_system`, `C155_other_refuted` |
| C156 | Cross validation from the command line to the statistics, in one run or fold by fold | proved | `C156_cross`, `C156_command` |
| C157 | Item finders from the options to the statistics: cross validation and hold-out test | proved | `C157_cross`, `C157_command`, `C157_holdout` |
| C158 | From a cross validation to the text of the statistics file | proved | `C158_scores`, `C158_finder`, `C158_command`, `C158_finder_command` |
| C159 | From a hold-out test to the text of the statistics file | proved | `C159_scores`, `C159_finder`, `C159_command`, `C159_finder_command` |

## Assumptions of each theorem

What `Print Assumptions` lists, for every theorem in MANIFEST.json, grouped. The names are those of the
standard library: `sig_forall_dec` and `sig_not_dec` are `ClassicalDedekindReals.…`,
`functional_extensionality_dep` is `FunctionalExtensionality.…`, `classic` is `Classical_Prop.classic`.

### Closed under the global context

* `T_Alias`: C131_refuted, C131_by_value_partial, C131_events_partial
* `T_Args`: C140_parsed, C140_order, C140_total, C141_exclusive, C141_refused, C141_quits, C141_too_few, C141_ambiguous, C142_torn, C142_too_many
* `T_Args2`: C140_merge, C142_files, C142_behind_in
* `T_Args3`: C145_settings, C145_score_predictor, C145_item_finder, C145_refused
* `T_Chain`: C85_hash_refuted, C85_movielens, C85_flixster, C85_sushi, C85_movies
* `T_Convert`: C65_sushi_events, C65_sushi_total, C65_sushi_users, C65_sushi_read_back, C65_fields_read_back, C65_mini, C65_genres, C65_genres_total, C65_ml1m_item, C65_ml1m_event_lossless, C65_ml1m_user_lossless, C65_ml100k_event, C65_ml100k_user_lossless, C65_ml100k_item, C65_flixster
* `T_CvTree`: C149_file, C149_merged, C149_files
* `T_Data`: C01_id_bijection, C02_event_roundtrip, C03_unknown_ids, C03_missing_array, C04_shapes, C04_scalar_missing_refuted, C04_scalar_missing_always_fails, C05_to_eid_range_partial, C05_negative_wraps, C05_to_eid_negative_refuted, C06_ids_depend_on_set, C06_event_order_irrelevant, C07_constructor, C08_set_event_atomic, C09_set_feature, C09_set_feature_total
* `T_Data2`: C05_unknown_type, C05_negative_type_wraps, C05_no_events
* `T_Datasets`: C75_features, C75_one_line_raises, C75_flixster, C76_pci_partial, C76_pci_names_refuted, C76_pci_levels_refuted
* `T_Filter`: C10_filter_selects, C10_filter_total, C11_filter_objects, C12_features_follow, C13_filter_is_rebuild, C13_filter_composes, C13_composition_exists, C13_filter_all_is_identity, C16_consistent_histories_partial, C16_features_aligned_partial, C16_features_aligned_refuted
* `T_Float`: C23_levels_refuted
* `T_FloatBins`: C79_class_too_large_refuted, C79_spare_class_refuted, C79_at_most_one_more
* `T_FloatHist`: C109_spare_bin_refuted, C109_listed_score_refuted
* `T_FloatMet`: C100_symmetric, C101_order_refuted, C101_constant_refuted
* `T_FloatSig`: C99_overflow, C99_nan
* `T_FloatSplit`: C107_decimal_refuted
* `T_FloatTopic3`: C150_steps
* `T_Heap`: C14_value_semantics, C14_independent, C14_histories, C15_tables_alias_partial, C15_insulated_partial, C15_insulated_refuted
* `T_Hist`: C21_scores, C21_additive, C21_order, C57_np_int_bins_partial
* `T_HoTree`: C153_file, C153_merge
* `T_InfoTree`: C154_prepared, C154_file, C155_system, C155_other_refuted
* `T_InfoTree2`: C154_determined
* `T_Json`: C61_serialisable_partial, C61_fixed, C61_idempotent_partial, C61_structure, C61_complex_refuted, C61_keys_refuted, C61_idempotent_refuted, C61_top_level
* `T_JsonText`: C146_result_file, C146_round_trip, C146_same, C146_rewrite, C146_valid, C146_fuel, C146_python39, C146_python39_refuted, C146_nan_refuted, C146_keys_refuted, C146_same_keys_refuted, C146_surrogates_refuted
* `T_Leak`: C94_no_leak, C94_given_domain, C94_given_domain_item_finder
* `T_Load`: C66_load_event_partial, C66_load_scores_partial, C66_one_line_raises, C66_one_type_raises, C66_one_line_refuted
* `T_MF`: C32_layout
* `T_MF3`: C71_matrix
* `T_MFRec`: C31_event_matrix_partial, C31_repeated_refuted, C31_reversed_refuted
* `T_Main`: C142_torn_refuted, C142_behind_in_refuted, C143_experiment, C143_described, C144_no_test, C144_emptied_refuted, C144_same_file_refuted
* `T_Main2`: C143_task
* `T_Metrics2`: C54_lists_never, C55_is_binary
* `T_NanScore`: C125_loaded, C126_nan, C126_infinite, C127_classes, C127_numbers, C128_missing_is_positive_refuted, C128_numbers_partial, C129_loss, C129_gradient
* `T_NanScore2`: C152_nan
* `T_Opt`: C80_arguments, C80_unknown_keyword, C80_topic_arguments, C81_shared_refuted, C81_callers_options_refuted, C81_own_options, C81_other_dictionaries, C82_factorization, C82_topic
* `T_Query`: C77_empty_query, C77_not_fitted, C77_extra_columns, C77_missing_column
* `T_Rec`: C25_predict_named, C25_code, C26_predict_partial, C26_reversed_columns_refuted, C26_reversed_types_refuted, C26_always_fails, C27_row_by_row, C27_selection, C28_remove_data, C28_fit_keeps_no_data, C29_accepts_binary, C29_failed_fit_refuted, C29_failed_fit_partial, C30_training_events, C30_accepted
* `T_Rename`: C74_tables
* `T_Score`: C10_score_filter, C16_scored_histories, C17_estimated_domain, C17_constant_scores_raise, C18_levels_bins_agree, C18_digitized_in_range, C18_digitize_total, C18_levels_refuted, C19_digitize_monotone, C19_digitize_pointwise, C19_digitize_nearest, C20_levels_inverse, C21_histogram, C22_binarize, C22_binarize_monotone, C22_binarize_idempotent, C22_binarize_total, C24_length_refuted, C24_atomic_refuted, C24_alignment_partial, C24_failures_partial, C57_int_bins_refuted, C57_np_int_partial
* `T_Scripts`: C58_cv_test, C58_user_share, C58_total, C58_target, C59_merge, C59_single_runs_suffice, C60_aligned, C60_cv_runs, C60_merged_runs, C60_total_partial, C60_single_event_refuted, C62_names_training_file, C62_test_file_refuted, C63_training_partial, C63_testing_partial, C63_end_time_wrong, C63_testing_refuted, C64_same_domain, C64_same_threshold
* `T_Split`: C47_partition, C48_balance, C48_errors, C49_test_share, C49_errors, C50_train_size_partial, C50_train_size_refuted, C51_interlaced, C51_init
* `T_Task`: C96_estimated_two_sided
* `T_Task2`: C97_repeatable, C97_options, C97_holdout_target, C97_scheme
* `T_Text`: C84_text_ids_refuted, C84_rows, C84_refused, C84_load_scores, C84_load_events
* `T_Tree`: C147_fold, C147_first, C147_rest, C147_notes, C147_order, C147_runs, C147_files, C147_python39_refuted, C147_mixed_refuted, C147_dropped_refuted, C147_again_refuted, C148_statistics, C148_rest, C148_removed, C148_depends, C148_merged, C148_files

### `sig_forall_dec`

* `T_MFRec`: C27_pmf
* `T_NanScore`: C127_fit_refused
* `T_PLSA`: C46_every_level

### `sig_forall_dec`, `functional_extensionality_dep`

* `T_Auc`: C98_pairs, C98_range, C98_perfect, C98_increasing, C98_reverse, C98_constant, C98_of_pairs
* `T_Convex`: C89_zero_C
* `T_Exist`: C112_optimum_stationary, C113_no_penalty_refuted
* `T_Factors`: C135_rows, C135_pairs
* `T_FloatPLSA`: C79_plsa_decimal_refuted, C79_plsa_start_raises
* `T_MF`: C33_pmf_gradient
* `T_MF2`: C36_pmf_loss
* `T_MF3`: C72_biases_centred
* `T_MFInit`: C39_logistic_initial
* `T_Metrics`: C53_gamma_variance, C53_only_finite, C53_shift, C53_nothing_finite, C69_force_refuted, C69_force_partial, C69_empty
* `T_Metrics2`: C54_dicts, C54_vectors, C54_order, C54_missing_key, C54_lists_refuted
* `T_PLSA`: C46_start, C46_preferred_level, C46_problem
* `T_PLSA2`: C27_plsa
* `T_Path`: C136_pmf
* `T_Query`: C39_implicit_initial, C39_implicit_no_objects
* `T_Scale`: C115_documented_refuted, C115_documented_scale
* `T_Shift`: C86_objective, C86_predictions

### `sig_forall_dec`, `sig_not_dec`, `functional_extensionality_dep`

* `T_Auc`: C98_clip_refuted
* `T_Auc2`: C104_pooled, C105_mean_of_folds_refuted
* `T_Bias`: C134_monotone, C134_bias_runs
* `T_Convex`: C89_pmf, C90_pmf_exact, C90_pmf_optimal, C90_bias_model
* `T_Eval`: C95_pmf, C95_error, C95_pmf_runs
* `T_Factors`: C135_exact, C135_padding, C135_certificate, C135_improves, C135_worth
* `T_HoTree`: C153_statistics, C153_single, C153_finder
* `T_InfoTree2`: C154_holdout
* `T_InfoTree3`: C156_cross
* `T_InfoTree4`: C156_command
* `T_InfoTree5`: C157_cross, C157_holdout
* `T_InfoTree6`: C157_command
* `T_InfoTree7`: C158_scores, C158_finder, C159_scores, C159_finder
* `T_InfoTree8`: C158_command, C158_finder_command
* `T_InfoTree9`: C159_command, C159_finder_command
* `T_MF2`: C37_unknown_fallback, C37_cases, C40_unseen_gradient, C40_unseen_stays_zero
* `T_MF3`: C71_start, C72_gradient_residuals, C72_stationary
* `T_MFInit`: C39_pmf_initial, C39_unseen_initial
* `T_MFRec`: C25_pmf, C25_pmf_fit_succeeds, C27_logistic
* `T_MFRec2`: C73_pmf, C73_predict
* `T_MFSym`: C87_predictions, C88_predictions
* `T_Metrics`: C52_mean_absolute_error, C52_mean_squared_error, C52_mae_rmse, C52_triangle, C52_errors
* `T_Metrics2`: C21_statistics, C56_refuses, C56_statistics, C70_report_agrees, C70_empty
* `T_Path`: C136_mean, C137_one_event
* `T_Shift`: C86_start, C86_fit
* `T_Sigmoid`: C38_exact_inside, C38_symmetric
* `T_StatTree`: C151_scores, C151_finder, C151_file, C151_finder_file, C151_single, C151_cross
* `T_Stats`: C93_order, C93_report_order, C93_pooled, C93_bias, C93_constant
* `T_Task`: C96_pmf, C96_error, C96_pmf_runs
* `T_Task2`: C97_merged_statistics, C97_reordered_statistics, C97_finder_order, C97_statistics
* `T_View`: C114_same_init

### `sig_forall_dec`, `sig_not_dec`, `classic`, `functional_extensionality_dep`

* `T_Auc`: C98_sigmoid, C98_holdout
* `T_Average`: C67_average_user, C67_average_item
* `T_Converge`: C83_converges, C83_never, C83_bound
* `T_Convex`: C89_logistic, C89_implicit, C90_logistic_refuted, C90_logistic_partial
* `T_Critical`: C116_stationary, C116_interior, C116_gain, C116_strict, C116_settles, C117_loss_refuted, C117_bound
* `T_Eval`: C95_logistic, C95_plsa, C95_plsa_error, C95_plsa_runs
* `T_Eval2`: C102_cases, C102_runs, C102_one_sided, C103_luck_refuted
* `T_Exist`: C112_pmf, C112_logistic, C112_implicit, C112_balanced_optimum, C113_negative_penalty
* `T_Float`: C23_dyadic_levels_partial
* `T_Float2`: C23_off_by_one
* `T_FloatBins`: C78_digitize_decimal, C78_digitize_dyadic, C79_dyadic_partial
* `T_FloatHist`: C108_counts, C108_levels
* `T_FloatImp`: C132_gradient
* `T_FloatLoss`: C133_event, C133_loss, C133_implicit
* `T_FloatMF`: C121_prediction, C121_bounded
* `T_FloatMF2`: C122_loss, C122_gradient
* `T_FloatMF3`: C121_overflow_refuted, C122_overflow_refuted, C123_prediction, C123_gradient, C123_loss_accuracy_refuted
* `T_FloatMet`: C100_mae, C100_mse, C100_not_nan, C100_self, C100_zero, C100_order, C101_zero_refuted, C101_stdev_nan_refuted
* `T_FloatSig`: C99_range, C99_close, C99_loss_part, C99_loss, C99_residual, C99_rounded_expit, C99_rounded_log, C99_unclipped
* `T_FloatSplit`: C106_product_ok, C106_fifth, C106_fifth_of, C106_user_share, C107_at_most_one_off
* `T_FloatStd`: C138_mae, C138_mse, C138_million
* `T_FloatTopic`: C118_healthy, C118_fit, C118_positive, C118_predict, C119_unsmoothed_refuted
* `T_FloatTopic2`: C120_parameters, C120_relative, C120_prediction
* `T_FloatVar`: C111_positive, C111_lost_variance_refuted, C111_invented_variance_refuted
* `T_FloatVar2`: C139_close, C139_enough
* `T_GammaPrior`: C110_map_refuted, C110_mode, C110_log_scale
* `T_Implicit`: C35_implicit_is_logistic, C35_implicit_gradient_partial, C35_clipping_gap_partial, C35_implicit_gradient_refuted, C36_implicit_loss_partial, C36_implicit_loss_refuted
* `T_Leak`: C94_estimated_domain_refuted
* `T_MF`: C34_clipping_gap_partial, C34_logistic_gradient_partial, C34_logistic_gradient_refuted
* `T_MF2`: C36_logistic_loss
* `T_MF3`: C71_objective
* `T_MFRec`: C25_logistic, C25_implicit, C25_logistic_fit_succeeds, C25_implicit_fit_succeeds
* `T_MFRec2`: C71_pmf_fit, C71_logistic_fit, C71_implicit_fit, C71_plsa_fit, C73_logistic, C73_plsa, C73_implicit
* `T_MFSym`: C87_logistic, C87_implicit, C88_objective
* `T_NanScore2`: C152_domain, C152_threshold, C152_classes, C152_neighbours
* `T_PLSA`: C41_distributions, C41_total, C42_responsibilities, C43_em_monotone, C43_loss, C43_loss_monotone, C43_fit_improves, C45_report_partial, C45_success_refuted, C45_no_iteration_refuted, C45_perfect_refuted
* `T_PLSA2`: C25_plsa, C25_plsa_fit_succeeds, C44_expectation, C44_mode, C44_fitted, C67_unknown_user, C67_unknown_item, C25_plsa_fit_refuted
* `T_PLSA3`: C71_plsa
* `T_Path`: C136_logistic, C136_implicit, C136_factors
* `T_Query`: C38_predictions, C38_predict
* `T_Rename`: C74_fit
* `T_Replicate`: C130_same_run, C130_any_order, C130_proportions
* `T_Scale`: C115_repeated, C115_repeated_optima
* `T_Sigmoid`: C38_range, C38_probability, C38_monotone, C38_strict_inside
* `T_Task`: C96_logistic, C96_plsa, C96_logistic_runs, C96_plsa_runs
* `T_Task2`: C97_models_repeatable
* `T_Topics`: C91_fit, C91_predictions, C92_tied, C92_marginals, C92_predictions, C92_fit
* `T_View`: C114_refuted, C114_single, C114_same_fit, C114_fit_succeeds_partial
