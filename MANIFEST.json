{
 "claims": [
  {
   "property": "C01",
   "status": "proved",
   "theorems": [
    "C01_id_bijection"
   ],
   "note": ""
  },
  {
   "property": "C02",
   "status": "proved",
   "theorems": [
    "C02_event_roundtrip"
   ],
   "note": ""
  },
  {
   "property": "C03",
   "status": "proved",
   "theorems": [
    "C03_unknown_ids",
    "C03_missing_array"
   ],
   "note": ""
  },
  {
   "property": "C04",
   "status": "partial",
   "theorems": [
    "C04_shapes",
    "C04_scalar_missing_refuted",
    "C04_scalar_missing_always_fails"
   ],
   "note": "REFUTED in part: shapes are proved; a scalar missing_values always makes a 1-d query fail with TypeError."
  },
  {
   "property": "C05",
   "status": "partial",
   "theorems": [
    "C05_to_eid_range_partial",
    "C05_negative_wraps",
    "C05_to_eid_negative_refuted",
    "C05_unknown_type",
    "C05_negative_type_wraps",
    "C05_no_events"
   ],
   "note": "REFUTED for negative ids -n..-1, which wrap around; every other invalid id is proved to be rejected."
  },
  {
   "property": "C06",
   "status": "proved",
   "theorems": [
    "C06_ids_depend_on_set",
    "C06_event_order_irrelevant"
   ],
   "note": ""
  },
  {
   "property": "C07",
   "status": "proved",
   "theorems": [
    "C07_constructor"
   ],
   "note": ""
  },
  {
   "property": "C08",
   "status": "proved",
   "theorems": [
    "C08_set_event_atomic"
   ],
   "note": "Proved for the statement-level model set_event_imp; arrays of 3 or more axes are not modelled."
  },
  {
   "property": "C09",
   "status": "proved",
   "theorems": [
    "C09_set_feature",
    "C09_set_feature_total"
   ],
   "note": "A failing call is a value of the model; the only assignment is the last statement."
  },
  {
   "property": "C10",
   "status": "proved",
   "theorems": [
    "C10_filter_selects",
    "C10_filter_total",
    "C10_score_filter"
   ],
   "note": ""
  },
  {
   "property": "C11",
   "status": "proved",
   "theorems": [
    "C11_filter_objects"
   ],
   "note": ""
  },
  {
   "property": "C12",
   "status": "proved",
   "theorems": [
    "C12_features_follow"
   ],
   "note": ""
  },
  {
   "property": "C13",
   "status": "proved",
   "theorems": [
    "C13_filter_is_rebuild",
    "C13_filter_composes",
    "C13_composition_exists",
    "C13_filter_all_is_identity"
   ],
   "note": ""
  },
  {
   "property": "C14",
   "status": "proved",
   "theorems": [
    "C14_value_semantics",
    "C14_independent",
    "C14_histories"
   ],
   "note": "Heap-level programs with explicit references; refinement to independent values for all call sequences."
  },
  {
   "property": "C15",
   "status": "partial",
   "theorems": [
    "C15_tables_alias_partial",
    "C15_insulated_partial",
    "C15_insulated_refuted"
   ],
   "note": "REFUTED: fit aliases the id tables, and a later set_event on the container rewrites them in place. Proved: insulated from every call sequence without set_event on that container; exact characterisation of the aliasing."
  },
  {
   "property": "C16",
   "status": "partial",
   "theorems": [
    "C16_consistent_histories_partial",
    "C16_scored_histories",
    "C16_features_aligned_partial",
    "C16_features_aligned_refuted"
   ],
   "note": "REFUTED for feature arrays: a second set_event keeps stale features. Everything else is proved over all histories."
  },
  {
   "property": "C17",
   "status": "proved",
   "theorems": [
    "C17_estimated_domain",
    "C17_constant_scores_raise"
   ],
   "note": ""
  },
  {
   "property": "C18",
   "status": "partial",
   "theorems": [
    "C18_levels_bins_agree",
    "C18_digitized_in_range",
    "C18_digitize_total",
    "C18_levels_refuted"
   ],
   "note": "REFUTED when the stride does not divide the range (possible with an estimated domain); proved exactly when it does."
  },
  {
   "property": "C19",
   "status": "proved",
   "theorems": [
    "C19_digitize_monotone",
    "C19_digitize_pointwise",
    "C19_digitize_nearest"
   ],
   "note": ""
  },
  {
   "property": "C20",
   "status": "proved",
   "theorems": [
    "C20_levels_inverse"
   ],
   "note": ""
  },
  {
   "property": "C21",
   "status": "proved",
   "theorems": [
    "C21_histogram",
    "C21_statistics",
    "C21_scores",
    "C21_additive",
    "C21_order"
   ],
   "note": ""
  },
  {
   "property": "C22",
   "status": "proved",
   "theorems": [
    "C22_binarize",
    "C22_binarize_monotone",
    "C22_binarize_idempotent",
    "C22_binarize_total"
   ],
   "note": ""
  },
  {
   "property": "C23",
   "status": "partial",
   "theorems": [
    "C23_levels_refuted",
    "C23_dyadic_levels_partial",
    "C23_off_by_one"
   ],
   "note": "REFUTED for decimal domains such as (0, 0.3, 0.1); proved for all domains that are multiples of a power of two; for decimal domains the number is right or one too small."
  },
  {
   "property": "C24",
   "status": "partial",
   "theorems": [
    "C24_length_refuted",
    "C24_atomic_refuted",
    "C24_alignment_partial",
    "C24_failures_partial"
   ],
   "note": "REFUTED: lengths are not checked and a failing call may have replaced the events. Alignment is proved for histories that pass matching lengths; the failing calls are characterised."
  },
  {
   "property": "C25",
   "status": "proved",
   "theorems": [
    "C25_predict_named",
    "C25_code",
    "C25_pmf",
    "C25_logistic",
    "C25_implicit",
    "C25_pmf_fit_succeeds",
    "C25_logistic_fit_succeeds",
    "C25_implicit_fit_succeeds",
    "C25_plsa",
    "C25_plsa_fit_succeeds"
   ],
   "note": "C25_predict_named for any model; the others connect fit and predict of the three matrix factorisation models and of pLSA. scipy.minimize is an arbitrary function. Data with exactly one user or one item: see C114."
  },
  {
   "property": "C26",
   "status": "partial",
   "theorems": [
    "C26_predict_partial",
    "C26_reversed_columns_refuted",
    "C26_reversed_types_refuted",
    "C26_always_fails"
   ],
   "note": "REFUTED in general: exchanged columns or types score other objects; fewer columns than the events have make every prediction fail. Proved for the identity selection with compatible type numbers."
  },
  {
   "property": "C27",
   "status": "proved",
   "theorems": [
    "C27_row_by_row",
    "C27_selection",
    "C27_pmf",
    "C27_logistic",
    "C27_plsa"
   ],
   "note": "Any raw_predict that works row by row; shown for the matrix factorisation models and pLSA."
  },
  {
   "property": "C28",
   "status": "proved",
   "theorems": [
    "C28_remove_data",
    "C28_fit_keeps_no_data"
   ],
   "note": ""
  },
  {
   "property": "C29",
   "status": "partial",
   "theorems": [
    "C29_accepts_binary",
    "C29_failed_fit_refuted",
    "C29_failed_fit_partial"
   ],
   "note": "First half proved. Second half REFUTED: a rejected fit has already replaced the id tables."
  },
  {
   "property": "C30",
   "status": "proved",
   "theorems": [
    "C30_training_events",
    "C30_accepted"
   ],
   "note": ""
  },
  {
   "property": "C31",
   "status": "partial",
   "theorems": [
    "C31_event_matrix_partial",
    "C31_repeated_refuted",
    "C31_reversed_refuted"
   ],
   "note": "REFUTED for repeated events (entries count) and exchanged columns; proved for the default columns, with 0/1 entries if no event is repeated."
  },
  {
   "property": "C32",
   "status": "proved",
   "theorems": [
    "C32_layout"
   ],
   "note": ""
  },
  {
   "property": "C33",
   "status": "proved",
   "theorems": [
    "C33_pmf_gradient"
   ],
   "note": "Floats are modelled as reals."
  },
  {
   "property": "C34",
   "status": "partial",
   "theorems": [
    "C34_clipping_gap_partial",
    "C34_logistic_gradient_partial",
    "C34_logistic_gradient_refuted"
   ],
   "note": "REFUTED where the sigmoid is clipped: the loss is flat but grad_loss is not. Proved where no event is clipped; the exact difference is proved for all other points except the two kinks."
  },
  {
   "property": "C35",
   "status": "partial",
   "theorems": [
    "C35_implicit_is_logistic",
    "C35_implicit_gradient_partial",
    "C35_clipping_gap_partial",
    "C35_implicit_gradient_refuted"
   ],
   "note": "REFUTED where the sigmoid of a cell is clipped; proved elsewhere, with the exact difference."
  },
  {
   "property": "C36",
   "status": "partial",
   "theorems": [
    "C36_pmf_loss",
    "C36_logistic_loss",
    "C36_implicit_loss_partial",
    "C36_implicit_loss_refuted"
   ],
   "note": "REFUTED for the implicit model when an event is repeated (count 2 enters the cross entropy); everything else proved."
  },
  {
   "property": "C37",
   "status": "proved",
   "theorems": [
    "C37_unknown_fallback",
    "C37_cases",
    "C25_pmf",
    "C25_logistic",
    "C25_implicit"
   ],
   "note": "Floats are modelled as reals."
  },
  {
   "property": "C38",
   "status": "proved",
   "theorems": [
    "C38_range",
    "C38_probability",
    "C38_monotone",
    "C38_exact_inside",
    "C38_symmetric",
    "C38_strict_inside",
    "C38_predictions",
    "C38_predict"
   ],
   "note": "Floats are modelled as reals."
  },
  {
   "property": "C39",
   "status": "proved",
   "theorems": [
    "C39_logistic_initial",
    "C39_pmf_initial",
    "C39_unseen_initial",
    "C39_implicit_initial",
    "C39_implicit_no_objects"
   ],
   "note": "Explicit models and the implicit one; the generator is an argument. Without events numpy divides by zero, which the model reports as an exception."
  },
  {
   "property": "C40",
   "status": "proved",
   "theorems": [
    "C40_unseen_gradient",
    "C40_unseen_stays_zero"
   ],
   "note": ""
  },
  {
   "property": "C41",
   "status": "proved",
   "theorems": [
    "C41_distributions",
    "C41_total"
   ],
   "note": "Floats are modelled as reals."
  },
  {
   "property": "C42",
   "status": "proved",
   "theorems": [
    "C42_responsibilities"
   ],
   "note": "Floats are modelled as reals."
  },
  {
   "property": "C43",
   "status": "proved",
   "theorems": [
    "C43_em_monotone",
    "C43_loss",
    "C43_loss_monotone",
    "C43_fit_improves"
   ],
   "note": "Floats are modelled as reals."
  },
  {
   "property": "C44",
   "status": "proved",
   "theorems": [
    "C44_expectation",
    "C44_mode",
    "C44_fitted"
   ],
   "note": "C44_fitted connects fit and predict; the others hold for the parameters after any number of iterations."
  },
  {
   "property": "C45",
   "status": "partial",
   "theorems": [
    "C45_report_partial",
    "C45_success_refuted",
    "C45_no_iteration_refuted",
    "C45_perfect_refuted"
   ],
   "note": "REFUTED: convergence in the last allowed iteration is reported as failure, maxiter 0 reports one iteration, a loss of 0 never counts as converged. Proved: iteration count, losses and the stopping rule for maxiter >= 1."
  },
  {
   "property": "C46",
   "status": "proved",
   "theorems": [
    "C46_start",
    "C46_preferred_level",
    "C46_every_level",
    "C46_problem"
   ],
   "note": "The generator is an argument that returns positive vectors of sum 1."
  },
  {
   "property": "C47",
   "status": "proved",
   "theorems": [
    "C47_partition"
   ],
   "note": "The shuffle is any function returning a permutation; generators are modelled eagerly."
  },
  {
   "property": "C48",
   "status": "proved",
   "theorems": [
    "C48_balance",
    "C48_errors"
   ],
   "note": ""
  },
  {
   "property": "C49",
   "status": "proved",
   "theorems": [
    "C49_test_share",
    "C49_errors"
   ],
   "note": "The product of a fraction and a group size is an argument that stays within [0, size]; sizes in [0,1) or non-negative counts, at least one of them given."
  },
  {
   "property": "C50",
   "status": "partial",
   "theorems": [
    "C50_train_size_partial",
    "C50_train_size_refuted"
   ],
   "note": "REFUTED: with test_size 0.1 and train_size 0.5 nine of ten samples are used for training. Proved: honoured exactly when both sizes fill the group, in particular when only train_size is given."
  },
  {
   "property": "C51",
   "status": "proved",
   "theorems": [
    "C51_interlaced",
    "C51_init"
   ],
   "note": ""
  },
  {
   "property": "C52",
   "status": "proved",
   "theorems": [
    "C52_mean_absolute_error",
    "C52_mean_squared_error",
    "C52_mae_rmse",
    "C52_triangle",
    "C52_errors"
   ],
   "note": "Over the reals; rounding is not modelled."
  },
  {
   "property": "C53",
   "status": "proved",
   "theorems": [
    "C53_gamma_variance",
    "C53_only_finite",
    "C53_shift",
    "C53_nothing_finite"
   ],
   "note": "Over the reals."
  },
  {
   "property": "C54",
   "status": "partial",
   "theorems": [
    "C54_dicts",
    "C54_vectors",
    "C54_order",
    "C54_missing_key",
    "C54_lists_refuted",
    "C54_lists_never"
   ],
   "note": "REFUTED for lists: the list branch tests for dict again, so lists always raise TypeError. Proved for dictionaries with integer keys, scalar and vector statistics."
  },
  {
   "property": "C55",
   "status": "proved",
   "theorems": [
    "C55_is_binary"
   ],
   "note": ""
  },
  {
   "property": "C56",
   "status": "proved",
   "theorems": [
    "C56_refuses",
    "C56_statistics"
   ],
   "note": "sklearn's roc_auc_score is an argument. The error condition also covers non-finite entries and different lengths."
  },
  {
   "property": "C57",
   "status": "partial",
   "theorems": [
    "C57_int_bins_refuted",
    "C57_np_int_partial",
    "C57_np_int_bins_partial"
   ],
   "note": "REFUTED for python ints (TypeError); proved for numpy integers."
  },
  {
   "property": "C58",
   "status": "proved",
   "theorems": [
    "C58_cv_test",
    "C58_user_share",
    "C58_total",
    "C58_target"
   ],
   "note": "On loaded data; fit and predict of the recommender, the clock and the shuffling are arguments."
  },
  {
   "property": "C59",
   "status": "proved",
   "theorems": [
    "C59_merge",
    "C59_single_runs_suffice"
   ],
   "note": "For recommenders whose training does not use the global random generator (the scripts pass random_state to them) and a given seed."
  },
  {
   "property": "C60",
   "status": "partial",
   "theorems": [
    "C60_aligned",
    "C60_cv_runs",
    "C60_merged_runs",
    "C60_total_partial",
    "C60_single_event_refuted"
   ],
   "note": "Alignment proved for every result the script accepts. REFUTED for fold size 1: predict then returns a number instead of a list and np.concatenate raises ValueError."
  },
  {
   "property": "C61",
   "status": "partial",
   "theorems": [
    "C61_serialisable_partial",
    "C61_fixed",
    "C61_idempotent_partial",
    "C61_structure",
    "C61_complex_refuted",
    "C61_keys_refuted",
    "C61_idempotent_refuted",
    "C61_top_level"
   ],
   "note": "Proved for trees of numbers, strings, objects, lists, dictionaries and arrays. REFUTED for complex numbers and numpy keys (not serialisable) and for arrays without axis that hold an object (a second run changes the result)."
  },
  {
   "property": "C62",
   "status": "partial",
   "theorems": [
    "C62_names_training_file",
    "C62_test_file_refuted"
   ],
   "note": "REFUTED: line 178 stores the training file name as test file."
  },
  {
   "property": "C63",
   "status": "partial",
   "theorems": [
    "C63_training_partial",
    "C63_testing_partial",
    "C63_end_time_wrong",
    "C63_testing_refuted"
   ],
   "note": "Proved for training. REFUTED for testing: line 137 stores the start time as end time."
  },
  {
   "property": "C64",
   "status": "proved",
   "theorems": [
    "C64_same_domain",
    "C64_same_threshold"
   ],
   "note": ""
  },
  {
   "property": "C65",
   "status": "proved",
   "theorems": [
    "C65_sushi_events",
    "C65_sushi_total",
    "C65_sushi_users",
    "C65_sushi_read_back",
    "C65_fields_read_back",
    "C65_mini",
    "C65_genres",
    "C65_genres_total",
    "C65_ml1m_item",
    "C65_ml1m_event_lossless",
    "C65_ml1m_user_lossless",
    "C65_ml100k_event",
    "C65_ml100k_user_lossless",
    "C65_ml100k_item",
    "C65_flixster"
   ],
   "note": "python's int on text is an argument; the lines after the comment header."
  },
  {
   "property": "C66",
   "status": "partial",
   "theorems": [
    "C66_load_event_partial",
    "C66_load_scores_partial",
    "C66_one_line_raises",
    "C66_one_type_raises",
    "C66_one_line_refuted"
   ],
   "note": "REFUTED for one-line files and for events of a single identifier: loading always raises. Proved for every other file."
  },
  {
   "property": "C67",
   "status": "proved",
   "theorems": [
    "C67_unknown_user",
    "C67_unknown_item",
    "C67_average_user",
    "C67_average_item"
   ],
   "note": ""
  },
  {
   "property": "C68",
   "status": "partial",
   "theorems": [
    "C25_plsa_fit_refuted",
    "C25_plsa_fit_succeeds"
   ],
   "note": "REFUTED: scores 1, 3, 6 give a domain whose stride does not divide its range and fit raises IndexError. Proved for every domain whose stride divides the range."
  },
  {
   "property": "C69",
   "status": "partial",
   "theorems": [
    "C69_force_refuted",
    "C69_force_partial",
    "C69_empty"
   ],
   "note": "REFUTED for float arrays: as_float_array does not check them and the result is NaN. Proved for lists."
  },
  {
   "property": "C70",
   "status": "proved",
   "theorems": [
    "C70_report_agrees",
    "C70_empty"
   ],
   "note": ""
  },
  {
   "property": "C71",
   "status": "proved",
   "theorems": [
    "C71_objective",
    "C71_start",
    "C71_matrix",
    "C71_plsa",
    "C71_pmf_fit",
    "C71_logistic_fit",
    "C71_implicit_fit",
    "C71_plsa_fit"
   ],
   "note": "Reals for floats: rounding may depend on the order of summation. The two containers have the same score domain."
  },
  {
   "property": "C72",
   "status": "proved",
   "theorems": [
    "C72_gradient_residuals",
    "C72_stationary",
    "C72_biases_centred"
   ],
   "note": "Reals for floats. Stated for gradients bounded by eps, eps = 0 included."
  },
  {
   "property": "C73",
   "status": "proved",
   "theorems": [
    "C73_pmf",
    "C73_logistic",
    "C73_plsa",
    "C73_implicit",
    "C73_predict"
   ],
   "note": ""
  },
  {
   "property": "C74",
   "status": "proved",
   "theorems": [
    "C74_tables",
    "C74_fit"
   ],
   "note": ""
  },
  {
   "property": "C75",
   "status": "proved",
   "theorems": [
    "C75_features",
    "C75_one_line_raises",
    "C75_flixster"
   ],
   "note": "Parsing of text by numpy.genfromtxt is not modelled."
  },
  {
   "property": "C76",
   "status": "partial",
   "theorems": [
    "C76_pci_partial",
    "C76_pci_names_refuted",
    "C76_pci_levels_refuted"
   ],
   "note": "REFUTED: the domain is (1, 5, 0.5), which has nine levels, and names are cut after 18 characters."
  },
  {
   "property": "C77",
   "status": "proved",
   "theorems": [
    "C77_empty_query",
    "C77_not_fitted",
    "C77_extra_columns",
    "C77_missing_column"
   ],
   "note": "Integer queries; negative positions in the event index are left out of the statement about extra columns."
  },
  {
   "property": "C78",
   "status": "proved",
   "theorems": [
    "C78_digitize_decimal",
    "C78_digitize_dyadic"
   ],
   "note": "binary64 as specified by SpecFloat; numpy arange as start + i * delta. The bound on the domain is a visible hypothesis."
  },
  {
   "property": "C79",
   "status": "partial",
   "theorems": [
    "C79_class_too_large_refuted",
    "C79_spare_class_refuted",
    "C79_plsa_decimal_refuted",
    "C79_at_most_one_more",
    "C79_dyadic_partial",
    "C79_plsa_start_raises"
   ],
   "note": "REFUTED: 0.3 in the domain (0, 0.3, 0.1) is class 3 while n_score_levels is 3, and fit of MultinomialPLSA raises IndexError; proved for multiples of a power of two, and that the numbers differ by at most one."
  },
  {
   "property": "C80",
   "status": "proved",
   "theorems": [
    "C80_arguments",
    "C80_unknown_keyword",
    "C80_topic_arguments"
   ],
   "note": "float() and int() of arguments are parameters of the model."
  },
  {
   "property": "C81",
   "status": "partial",
   "theorems": [
    "C81_shared_refuted",
    "C81_callers_options_refuted",
    "C81_own_options",
    "C81_other_dictionaries"
   ],
   "note": "REFUTED when an options dictionary is passed: the constructor writes into it, and a second recommender given the same dictionary overwrites the number of iterations of the first. Proved when the dictionaries are different or none is passed."
  },
  {
   "property": "C82",
   "status": "proved",
   "theorems": [
    "C82_factorization",
    "C82_topic"
   ],
   "note": "argparse itself is not modelled: options are a record."
  },
  {
   "property": "C83",
   "status": "proved",
   "theorems": [
    "C83_converges",
    "C83_never",
    "C83_bound"
   ],
   "note": "Real arithmetic."
  },
  {
   "property": "C84",
   "status": "partial",
   "theorems": [
    "C84_text_ids_refuted",
    "C84_rows",
    "C84_refused",
    "C84_load_scores",
    "C84_load_events"
   ],
   "note": "REFUTED for identifiers that are not integers: genfromtxt turns each of them into -1, so all objects become one. The rest of the statement is proved. The text of np.genfromtxt is modelled from numpy 1.x; conversion of a field to a number is an argument."
  },
  {
   "property": "C85",
   "status": "partial",
   "theorems": [
    "C85_hash_refuted",
    "C85_movielens",
    "C85_flixster",
    "C85_sushi",
    "C85_movies"
   ],
   "note": "REFUTED for a movie title with the character #, which the loader takes for a comment. Proved for ratings, and for movies whose titles are free of it."
  },
  {
   "property": "C86",
   "status": "proved",
   "theorems": [
    "C86_objective",
    "C86_start",
    "C86_predictions",
    "C86_fit"
   ],
   "note": "Real arithmetic. The optimiser is any function that commutes with the translation; gradient descent is shown to."
  },
  {
   "property": "C87",
   "status": "proved",
   "theorems": [
    "C87_logistic",
    "C87_implicit",
    "C87_predictions"
   ],
   "note": "Real arithmetic."
  },
  {
   "property": "C88",
   "status": "proved",
   "theorems": [
    "C88_objective",
    "C88_predictions"
   ],
   "note": "Real arithmetic."
  },
  {
   "property": "C89",
   "status": "proved",
   "theorems": [
    "C89_pmf",
    "C89_logistic",
    "C89_implicit",
    "C89_zero_C"
   ],
   "note": "Real arithmetic; C89_zero_C shows that C > 0 is needed. For implicit data the entries of the matrix must be in [0, 1], see C31."
  },
  {
   "property": "C90",
   "status": "partial",
   "theorems": [
    "C90_logistic_refuted",
    "C90_pmf_exact",
    "C90_pmf_optimal",
    "C90_bias_model",
    "C90_logistic_partial"
   ],
   "note": "REFUTED for the logistic loss where safe_sigmoid clips; proved for it elsewhere and for PMF in full."
  },
  {
   "property": "C91",
   "status": "proved",
   "theorems": [
    "C91_fit",
    "C91_predictions"
   ],
   "note": "Real arithmetic."
  },
  {
   "property": "C92",
   "status": "proved",
   "theorems": [
    "C92_tied",
    "C92_marginals",
    "C92_predictions",
    "C92_fit"
   ],
   "note": "Real arithmetic."
  },
  {
   "property": "C93",
   "status": "proved",
   "theorems": [
    "C93_order",
    "C93_report_order",
    "C93_pooled",
    "C93_bias",
    "C93_constant"
   ],
   "note": "Real arithmetic; scores finite where means are compared."
  },
  {
   "property": "C94",
   "status": "partial",
   "theorems": [
    "C94_estimated_domain_refuted",
    "C94_no_leak",
    "C94_given_domain",
    "C94_given_domain_item_finder"
   ],
   "note": "REFUTED for the default domain 0 0 0, which is estimated from all scores; proved in full for a given domain."
  },
  {
   "property": "C95",
   "status": "proved",
   "theorems": [
    "C95_pmf",
    "C95_logistic",
    "C95_plsa",
    "C95_error",
    "C95_plsa_error",
    "C95_pmf_runs",
    "C95_plsa_runs"
   ],
   "note": "Real arithmetic; the optimiser, the random numbers and the clock are arguments."
  },
  {
   "property": "C96",
   "status": "proved",
   "theorems": [
    "C96_pmf",
    "C96_logistic",
    "C96_plsa",
    "C96_error",
    "C96_pmf_runs",
    "C96_logistic_runs",
    "C96_plsa_runs",
    "C96_estimated_two_sided"
   ],
   "note": "Real arithmetic; the optimiser, the random numbers and the clock are arguments."
  },
  {
   "property": "C97",
   "status": "proved",
   "theorems": [
    "C97_repeatable",
    "C97_models_repeatable",
    "C97_options",
    "C97_holdout_target",
    "C97_scheme",
    "C97_merged_statistics",
    "C97_reordered_statistics",
    "C97_finder_order",
    "C97_statistics"
   ],
   "note": "The area under the ROC curve is an argument, assumed to depend on the pairs of scores only. The NameError for an unknown scheme is finding 22."
  },
  {
   "property": "C98",
   "status": "partial",
   "theorems": [
    "C98_clip_refuted",
    "C98_pairs",
    "C98_range",
    "C98_perfect",
    "C98_increasing",
    "C98_reverse",
    "C98_constant",
    "C98_of_pairs",
    "C98_sigmoid",
    "C98_holdout"
   ],
   "note": "REFUTED in the last sentence: safe_sigmoid clips, so linear scores beyond the clipping bound become ties and a perfect order can drop to 1/2; proved where no linear score is beyond the bound. The rest is proved in full. scikit-learn's roc_auc_score is modelled from its documentation."
  },
  {
   "property": "C99",
   "status": "proved",
   "theorems": [
    "C99_range",
    "C99_close",
    "C99_overflow",
    "C99_nan",
    "C99_loss_part",
    "C99_loss",
    "C99_residual",
    "C99_rounded_expit",
    "C99_rounded_log",
    "C99_unclipped"
   ],
   "note": "expit and log are arguments with the stated accuracy (C99_rounded_expit and C99_rounded_log show that rounding the exact value meets it); np.sum is any tree of additions. The regularisation term can still overflow for coefficients beyond 1e154 and is outside the statement."
  },
  {
   "property": "C100",
   "status": "proved",
   "theorems": [
    "C100_mae",
    "C100_mse",
    "C100_not_nan",
    "C100_symmetric",
    "C100_self",
    "C100_zero",
    "C100_order"
   ],
   "note": "np.sum is any tree of additions over the entries and zeros. The accuracy of the standard deviations is not bounded."
  },
  {
   "property": "C101",
   "status": "partial",
   "theorems": [
    "C101_order_refuted",
    "C101_zero_refuted",
    "C101_constant_refuted",
    "C101_stdev_nan_refuted"
   ],
   "note": "REFUTED in each part, with concrete vectors: three results in two orders, an error of 2^-1074 among two results, three errors of 0.1, an error that overflows. What does hold is C100."
  },
  {
   "property": "C102",
   "status": "proved",
   "theorems": [
    "C102_cases",
    "C102_runs",
    "C102_one_sided"
   ],
   "note": ""
  },
  {
   "property": "C103",
   "status": "partial",
   "theorems": [
    "C103_luck_refuted"
   ],
   "note": "REFUTED: of a user with scores 1, 5, 5 one line is tested; if it is the line of score 1, fitting raises ValueError, otherwise the experiment runs. A sufficient condition that holds for every shuffling is C102_runs."
  },
  {
   "property": "C104",
   "status": "proved",
   "theorems": [
    "C104_pooled"
   ],
   "note": ""
  },
  {
   "property": "C105",
   "status": "partial",
   "theorems": [
    "C105_mean_of_folds_refuted"
   ],
   "note": "REFUTED: two folds, each of area 1, whose pooled area is 3/4. What the number is: C104."
  },
  {
   "property": "C106",
   "status": "proved",
   "theorems": [
    "C106_product_ok",
    "C106_fifth",
    "C106_fifth_of",
    "C106_user_share"
   ],
   "note": ""
  },
  {
   "property": "C107",
   "status": "partial",
   "theorems": [
    "C107_decimal_refuted",
    "C107_at_most_one_off"
   ],
   "note": "REFUTED: 0.07 of 100 samples are 8, since the product rounds up above 7. Off by more than one: never (C107_at_most_one_off)."
  },
  {
   "property": "C108",
   "status": "proved",
   "theorems": [
    "C108_counts",
    "C108_levels"
   ],
   "note": ""
  },
  {
   "property": "C109",
   "status": "partial",
   "theorems": [
    "C109_spare_bin_refuted",
    "C109_listed_score_refuted"
   ],
   "note": "REFUTED: (1, 1.3, 0.1) has four levels and five bins; 0.3 in (0, 1, 0.1) is counted under another listed number. What holds: C108_levels."
  },
  {
   "property": "C110",
   "status": "partial",
   "theorems": [
    "C110_map_refuted",
    "C110_mode",
    "C110_log_scale"
   ],
   "note": "REFUTED: the posterior density of the precision is largest where the variance is (2a + n)/(2a + n - 2) times the returned one (C110_mode). The returned value maximises the posterior density of the logarithm of the precision, and it alone (C110_log_scale)."
  },
  {
   "property": "C111",
   "status": "partial",
   "theorems": [
    "C111_positive",
    "C111_lost_variance_refuted",
    "C111_invented_variance_refuted"
   ],
   "note": "Positivity is proved. REFUTED: closeness; 2^40 and 2^40 + 1024 are reported with variance 1 instead of 262144, three equal numbers with 43690."
  },
  {
   "property": "C112",
   "status": "proved",
   "theorems": [
    "C112_pmf",
    "C112_logistic",
    "C112_implicit",
    "C112_optimum_stationary",
    "C112_balanced_optimum"
   ],
   "note": ""
  },
  {
   "property": "C113",
   "status": "partial",
   "theorems": [
    "C113_no_penalty_refuted",
    "C113_negative_penalty"
   ],
   "note": "REFUTED: with C = 0 the squared loss of eight scores of three users and three items comes arbitrarily close to 0 but is positive everywhere; with C < 0 the squared and the logistic loss are unbounded below for all data. For C > 0 see C112."
  },
  {
   "property": "C114",
   "status": "partial",
   "theorems": [
    "C114_refuted",
    "C114_single",
    "C114_same_init",
    "C114_same_fit",
    "C114_fit_succeeds_partial"
   ],
   "note": "REFUTED under numpy 1.x: with exactly one user or exactly one item every fit ends with a TypeError, because numpy reads the field (float, 1) as a number. Proved: with other counts fit is the fit of M_MFRec, and succeeds."
  },
  {
   "property": "C115",
   "status": "partial",
   "theorems": [
    "C115_documented_refuted",
    "C115_documented_scale",
    "C115_repeated",
    "C115_repeated_optima"
   ],
   "note": "REFUTED: no lambda independent of the number of events will do; lambda is C / (number of events). Giving every event m times has the effect of dividing C by m."
  },
  {
   "property": "C116",
   "status": "proved",
   "theorems": [
    "C116_stationary",
    "C116_interior",
    "C116_gain",
    "C116_strict",
    "C116_settles"
   ],
   "note": "Distances between successive iterations, not convergence of the parameters themselves; the slope is taken over all directions that keep the sums."
  },
  {
   "property": "C117",
   "status": "partial",
   "theorems": [
    "C117_loss_refuted",
    "C117_bound",
    "C43_fit_improves"
   ],
   "note": "REFUTED with the default alpha = 1: a problem for which every fit, whatever tol and maxiter, reports a final loss above the initial one. Proved for alpha = 0 (C43_fit_improves), and how far the loss can go up in general (C117_bound)."
  },
  {
   "property": "C118",
   "status": "proved",
   "theorems": [
    "C118_healthy",
    "C118_fit",
    "C118_positive",
    "C118_predict"
   ],
   "note": "np.log is an argument with a bound on its error (log_ok), np.sum any tree of additions, possibly a different one at each place. The draws are numbers between 0 and 1 with one of at least 2^-54 in each row."
  },
  {
   "property": "C119",
   "status": "partial",
   "theorems": [
    "C119_unsmoothed_refuted"
   ],
   "note": "REFUTED: a topic dies of underflow, from the second iteration on every parameter is NaN, the fit reports status 2 and every prediction is the lowest level. Proved for positive alpha (C118)."
  },
  {
   "property": "C120",
   "status": "proved",
   "theorems": [
    "C120_parameters",
    "C120_relative",
    "C120_prediction"
   ],
   "note": "The bound grows with 16^n, so it says something for about ten iterations (16^n (4 D + 5) below 2^52); the draws are the same floats in both."
  },
  {
   "property": "C121",
   "status": "proved",
   "theorems": [
    "C121_prediction",
    "C121_bounded",
    "C121_overflow_refuted"
   ],
   "note": "C121_overflow_refuted shows that the condition on overflow is needed: coefficients of 2^700 give the prediction NaN where the exact score is 0."
  },
  {
   "property": "C122",
   "status": "proved",
   "theorems": [
    "C122_loss",
    "C122_gradient",
    "C122_overflow_refuted"
   ],
   "note": "C122_overflow_refuted shows that the condition is needed: with C = 0 and biases of 2^600 the exact loss is 0 and the computed one NaN (0 times infinity)."
  },
  {
   "property": "C123",
   "status": "proved",
   "theorems": [
    "C123_prediction",
    "C123_gradient"
   ],
   "note": "expit is an argument, accurate to 2^-50 on the clipped domain; a function that rounds the exact value is one (C99_rounded_expit)."
  },
  {
   "property": "C124",
   "status": "partial",
   "theorems": [
    "C123_loss_accuracy_refuted"
   ],
   "note": "REFUTED: at the clipping bound the loss of an event with label 0 is off by at least 7e-4 whatever expit and log (1 - s has four bits left), that of the mirrored event with label 1 by at most 1e-12."
  },
  {
   "property": "C125",
   "status": "proved",
   "theorems": [
    "C125_loaded"
   ],
   "note": "The conversions of numpy are arguments; a field on which they fail gets the default of its type (M_NanScore, M_Text)."
  },
  {
   "property": "C126",
   "status": "proved",
   "theorems": [
    "C126_nan",
    "C126_infinite"
   ],
   "note": "The events are stored before the exception (C24)."
  },
  {
   "property": "C127",
   "status": "proved",
   "theorems": [
    "C127_classes",
    "C127_numbers",
    "C127_fit_refused"
   ],
   "note": ""
  },
  {
   "property": "C128",
   "status": "partial",
   "theorems": [
    "C128_missing_is_positive_refuted",
    "C128_numbers_partial"
   ],
   "note": "REFUTED: np.where(nan <= t, 0, 1) is 1. A rating file with an empty score field gives a positive event, and the data pass the test of the item finders. On numbers the statement holds."
  },
  {
   "property": "C129",
   "status": "proved",
   "theorems": [
    "C129_loss",
    "C129_gradient"
   ],
   "note": ""
  },
  {
   "property": "C130",
   "status": "proved",
   "theorems": [
    "C130_same_run",
    "C130_any_order",
    "C130_proportions"
   ],
   "note": "Over exact real arithmetic. With the same smoothing the copies do change the parameters (C130_nonvacuous)."
  },
  {
   "property": "C131",
   "status": "partial",
   "theorems": [
    "C131_refuted",
    "C131_by_value_partial",
    "C131_events_partial"
   ],
   "note": "REFUTED: score_domain and event_index are kept by np.asanyarray, which makes no copy. Proved: programs that leave passed arrays alone behave as with values; in every program events, identifiers, features and the number of scores do."
  },
  {
   "property": "C132",
   "status": "proved",
   "theorems": [
    "C132_gradient"
   ],
   "note": "expit is an argument, accurate to 2^-50 on the clipped domain; the orders in which np.sum adds are arguments."
  },
  {
   "property": "C133",
   "status": "proved",
   "theorems": [
    "C133_event",
    "C133_loss",
    "C133_implicit"
   ],
   "note": "expit and log are arguments, accurate to 2^-50; the orders in which np.sum adds are arguments. The positive side of C124, which is refuted."
  },
  {
   "property": "C134",
   "status": "proved",
   "theorems": [
    "C134_monotone",
    "C134_bias_runs"
   ],
   "note": "Over the reals; the optimiser is arbitrary."
  },
  {
   "property": "C135",
   "status": "proved",
   "theorems": [
    "C135_exact",
    "C135_padding",
    "C135_certificate",
    "C135_improves",
    "C135_worth",
    "C135_rows",
    "C135_pairs"
   ],
   "note": "Over the reals. The certificate concerns the exact loss; whether fmin_cg reaches a stationary point is not claimed."
  },
  {
   "property": "C136",
   "status": "proved",
   "theorems": [
    "C136_pmf",
    "C136_logistic",
    "C136_implicit",
    "C136_factors",
    "C136_mean"
   ],
   "note": "Over the reals. Optima exist for C > 0 by C112."
  },
  {
   "property": "C137",
   "status": "proved",
   "theorems": [
    "C137_one_event"
   ],
   "note": "Over the reals; with the additional event in front, which by C71 is no restriction."
  },
  {
   "property": "C138",
   "status": "proved",
   "theorems": [
    "C138_mae",
    "C138_mse",
    "C138_million"
   ],
   "note": "Relative to the root mean square: by C101 equal errors may be reported with a spread above zero, so no bound relative to the deviation itself holds."
  },
  {
   "property": "C139",
   "status": "proved",
   "theorems": [
    "C139_close",
    "C139_enough"
   ],
   "note": "The error is relative to the sum of squares, not to the variance: C111 shows that more is false."
  },
  {
   "property": "C140",
   "status": "proved",
   "theorems": [
    "C140_parsed",
    "C140_order",
    "C140_total",
    "C140_merge"
   ],
   "note": "argparse of Python 2.7 to 3.11; positional arguments in one block (C142 about others). The tables of the four scripts meet the hypotheses: exp_table, stats_table, merge_table."
  },
  {
   "property": "C141",
   "status": "proved",
   "theorems": [
    "C141_exclusive",
    "C141_refused",
    "C141_quits",
    "C141_too_few",
    "C141_ambiguous"
   ],
   "note": "argparse of Python 2.7 to 3.11."
  },
  {
   "property": "C142",
   "status": "partial",
   "theorems": [
    "C142_files",
    "C142_torn",
    "C142_too_many",
    "C142_behind_in",
    "C142_torn_refuted",
    "C142_behind_in_refuted"
   ],
   "note": "REFUTED for positional arguments torn apart by options and for OUTFILE behind -i; proved otherwise. argparse of Python 2.7 to 3.11: later versions accept some of the torn lines."
  },
  {
   "property": "C143",
   "status": "proved",
   "theorems": [
    "C143_experiment",
    "C143_task",
    "C143_described"
   ],
   "note": ""
  },
  {
   "property": "C144",
   "status": "partial",
   "theorems": [
    "C144_no_test",
    "C144_emptied_refuted",
    "C144_same_file_refuted"
   ],
   "note": "REFUTED: the output file is emptied while the command line is read."
  },
  {
   "property": "C145",
   "status": "proved",
   "theorems": [
    "C145_settings",
    "C145_score_predictor",
    "C145_item_finder",
    "C145_refused"
   ],
   "note": "Settings are stated in the vocabulary of the docstrings (wish, says_one); positional arguments and other spellings: C140."
  },
  {
   "property": "C146",
   "status": "partial",
   "theorems": [
    "C146_result_file",
    "C146_round_trip",
    "C146_same",
    "C146_rewrite",
    "C146_valid",
    "C146_fuel",
    "C146_python39",
    "C146_python39_refuted",
    "C146_nan_refuted",
    "C146_keys_refuted",
    "C146_same_keys_refuted",
    "C146_surrogates_refuted"
   ],
   "note": "REFUTED for Python 3.9 and later: json.load(fp, encoding=...) raises TypeError, so neither merging nor evaluating works (C146_python39_refuted). Before, proved for everything do_task can collect. NaN and infinities are written as tokens that are not JSON (C146_nan_refuted); keys that are numbers come back as texts (C146_keys_refuted) and coincide with equal texts (C146_same_keys_refuted); halves of surrogate pairs merge (C146_surrogates_refuted). That repr and float are inverse to each other is a hypothesis on each float (faithful)."
  },
  {
   "property": "C147",
   "status": "partial",
   "theorems": [
    "C147_fold",
    "C147_first",
    "C147_rest",
    "C147_notes",
    "C147_order",
    "C147_runs",
    "C147_files",
    "C147_python39_refuted",
    "C147_mixed_refuted",
    "C147_dropped_refuted",
    "C147_again_refuted"
   ],
   "note": "REFUTED where the files do not belong together, which the script does not check: results of different methods are merged under the name of the first (C147_mixed_refuted), predictions the first file lacks are dropped (C147_dropped_refuted), and of two files about the same fold one is lost (C147_again_refuted). With Python 3.9 or later nothing can be merged (C147_python39_refuted). For files of different folds of one experiment proved in full, on trees and on the text of files."
  },
  {
   "property": "C148",
   "status": "proved",
   "theorems": [
    "C148_statistics",
    "C148_rest",
    "C148_removed",
    "C148_depends",
    "C148_merged",
    "C148_files"
   ],
   "note": "score_predictor_statistics and item_finder_statistics, followed by json_decodable, are arguments here; what they compute is proved in other properties. On files for Python before 3.9 (see C146)."
  },
  {
   "property": "C149",
   "status": "proved",
   "theorems": [
    "C149_file",
    "C149_merged",
    "C149_files"
   ],
   "note": "The hypotheses on clock, random state, shuffling and fitting are those of C59. Given a seed; without one the runs draw different splits. C149_files for Python before 3.9 (see C146) and for numbers that repr writes so that they are read back."
  },
  {
   "property": "C150",
   "status": "proved",
   "theorems": [
    "C150_steps"
   ],
   "note": "For maxiter at least 1. No condition on the numbers: NaN and infinities included."
  },
  {
   "property": "C151",
   "status": "proved",
   "theorems": [
    "C151_scores",
    "C151_finder",
    "C151_file",
    "C151_finder_file",
    "C151_single",
    "C151_cross"
   ],
   "note": "Statistics are computed exactly and then converted to floats by an arbitrary function (for rounding see C100, C101, C138). Non-empty lists of finite numbers. C151_cross has the hypotheses of C149, recommenders that return one score per row, and scores and predictions that are finite floats."
  },
  {
   "property": "C152",
   "status": "proved",
   "theorems": [
    "C152_domain",
    "C152_nan",
    "C152_threshold",
    "C152_classes",
    "C152_neighbours"
   ],
   "note": "Scores of type float. C152_threshold and C152_classes for domains whose maximum minus minimum is finite. C152_neighbours shows that the exception in C152_classes occurs."
  },
  {
   "property": "C153",
   "status": "proved",
   "theorems": [
    "C153_file",
    "C153_merge",
    "C153_statistics",
    "C153_single",
    "C153_finder"
   ],
   "note": "info has the sections that the scripts prepare (prepared). C153_statistics assumes that the stored score domain is the one in force, with positive stride, and that scores and predictions are finite numbers."
  },
  {
   "property": "C154",
   "status": "proved",
   "theorems": [
    "C154_prepared",
    "C154_file",
    "C154_determined",
    "C154_holdout"
   ],
   "note": "C154_determined assumes that different option values are written differently and never as text. C154_holdout assumes two or more test lines, a positive stride, and that scores, predictions and domain are finite numbers."
  },
  {
   "property": "C155",
   "status": "partial",
   "theorems": [
    "C155_system",
    "C155_other_refuted"
   ],
   "note": "REFUTED for other systems: the function opens '/dev/null' first and fails where that cannot be opened, as on Windows, so that its branch for other systems is not reached (C155_other_refuted). C155_system proves the claim whenever the function returns."
  },
  {
   "property": "C156",
   "status": "proved",
   "theorems": [
    "C156_cross",
    "C156_command"
   ],
   "note": "Scores, predictions and domain are finite numbers and the stride is positive. The system information can be had. Fitting is deterministic for a given state of the random generator, and shuffling is a permutation."
  },
  {
   "property": "C157",
   "status": "proved",
   "theorems": [
    "C157_cross",
    "C157_command",
    "C157_holdout"
   ],
   "note": "Predictions are finite numbers, and the file of a cross validation has two users or more. The system information can be had. Fitting is deterministic for a given state of the random generator, and shuffling is a permutation."
  },
  {
   "property": "C158",
   "status": "proved",
   "theorems": [
    "C158_scores",
    "C158_finder",
    "C158_command",
    "C158_finder_command"
   ],
   "note": "Conditions of C156 and C157; also every float is read as it was written, str() and all texts of the environment are unicode, the trees of times, options and event features contain only what JSON can hold, and their names are distinct. Under Python 3.9 or later json.load fails with its argument encoding (C146)."
  },
  {
   "property": "C159",
   "status": "proved",
   "theorems": [
    "C159_scores",
    "C159_finder",
    "C159_command",
    "C159_finder_command"
   ],
   "note": "Conditions of C154 and C157 for the run, and those of C158 for the texts."
  }
 ]
}