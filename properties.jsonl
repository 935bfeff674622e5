{"id": "C01", "title": "External and internal ids are in bijection after set_event", "statement": "After data.set_event(E) succeeds, for every object type t the internal ids are exactly 0..n_objects[t]-1, to_eid(t, .) enumerates in increasing order exactly the external ids occurring in the columns of E that have type t, each once, and to_iid(t, .) is its inverse; to_iid of any other id raises ValueError.", "quantifier": "for every number of object types, every event-type assignment, every rectangular event array (any size, any ids, integers or strings) and every object type and id", "why_tests_cant": "The id space and the event arrays are infinite; tests only inspect one sample file.", "anchors": ["kamrecsys/data/base.py: ObjectUtilMixin.to_eid, ObjectUtilMixin.to_iid, ObjectUtilMixin._gen_id", "kamrecsys/data/event.py: EventData.set_event"]}
{"id": "C02", "title": "Stored events decode back to the events that were given", "statement": "After data.set_event(E) succeeds, to_eid_event(data.event) equals E row for row, to_iid_event(E) equals data.event, and data.n_events equals the number of rows.", "quantifier": "for every event array, event-type assignment and number of types, including types used by several columns or by none", "why_tests_cant": "A test compares a few decoded rows; a wrong column/type pairing shows up only for some type assignments.", "anchors": ["kamrecsys/data/event.py: EventUtilMixin.to_eid_event, EventUtilMixin.to_iid_event, EventData.set_event"]}
{"id": "C03", "title": "Unknown external ids are never confused with known objects", "statement": "to_iid_event on a container never raises for a well shaped event; it maps each known id to its internal id and each unknown id to n_objects of the type of that column (or to the caller-supplied missing value), which is the internal id of no object.", "quantifier": "for every container obtained from set_event and every 1-d or 2-d query event with known and unknown ids mixed arbitrarily", "why_tests_cant": "Needs every id that is not in the data; the complement of a finite set.", "anchors": ["kamrecsys/data/event.py: EventUtilMixin.to_iid_event"]}
{"id": "C04", "title": "Event conversion accepts exactly well shaped arrays", "statement": "to_eid_event and to_iid_event raise TypeError exactly when the argument is neither a vector of s_event entries nor a 2-d array with s_event columns; a scalar missing_values (documented as allowed) works as one value for all columns.", "quantifier": "for all array shapes and all missing_values forms", "why_tests_cant": "All shapes have to be considered; the scalar form is never exercised by the tests.", "anchors": ["kamrecsys/data/event.py: EventUtilMixin.to_eid_event, EventUtilMixin.to_iid_event"]}
{"id": "C05", "title": "to_eid rejects every internal id that is not 0..n-1", "statement": "to_eid(t, i) raises ValueError for every integer i that is not an internal id of type t, as documented.", "quantifier": "for every container and every integer i, negative ones included", "why_tests_cant": "Infinitely many invalid ids; tests try one too-large id only.", "anchors": ["kamrecsys/data/base.py: ObjectUtilMixin.to_eid"]}
{"id": "C06", "title": "Id assignment depends only on the set of ids that occur", "statement": "Two event arrays whose columns of type t contain the same set of external ids give the same internal numbering for type t, whatever the order or multiplicity of the events; the numbering preserves the order of external ids.", "quantifier": "for every pair of event arrays", "why_tests_cant": "Quantifies over pairs of arbitrary arrays.", "anchors": ["kamrecsys/data/base.py: ObjectUtilMixin._gen_id", "kamrecsys/data/event.py: EventData.set_event"]}
{"id": "C07", "title": "Containers cannot be created with invalid type declarations", "statement": "EventData(n_otypes, event_otypes) succeeds exactly when n_otypes >= 1 and event_otypes is absent or is a non-empty vector with entries in 0..n_otypes-1; otherwise ValueError. A new container has no events and no objects.", "quantifier": "for every integer n_otypes and every event_otypes argument", "why_tests_cant": "Unbounded argument space.", "anchors": ["kamrecsys/data/base.py: BaseData.__init__", "kamrecsys/data/event.py: EventData.__init__"]}
{"id": "C08", "title": "set_event is all-or-nothing on badly shaped event arrays", "statement": "set_event raises exactly when the array is not 2-d with one column per declared event type, and then leaves the container unchanged.", "quantifier": "for every container state and every event argument", "why_tests_cant": "Exception safety over every prior state.", "anchors": ["kamrecsys/data/event.py: EventData.set_event"]}
{"id": "C09", "title": "set_feature attaches each feature row to the right object", "statement": "If set_feature(t, ids, F) succeeds, the stored feature row of every object of type t is the row of F at the last position of that object's external id in ids; when F has as many rows as ids, set_feature succeeds exactly when every object of type t occurs in ids and otherwise raises leaving the container unchanged; rows for ids that are not objects are ignored.", "quantifier": "for every container, id list (any order, duplicates, extra ids) and feature array", "why_tests_cant": "Alignment under arbitrary permutations, duplicates and omissions.", "anchors": ["kamrecsys/data/base.py: BaseData.set_feature"]}
{"id": "C10", "title": "filter_event keeps exactly the selected events, with their scores and features", "statement": "For a boolean mask or an integer index array, the k-th event of filter_event(cond), read through external ids, is the k-th selected event of the original, with the same score and event feature; n_events is the number selected; score domain and number of levels are unchanged.", "quantifier": "for every container reachable through the API and every mask or index array (with repeats and negative indices)", "why_tests_cant": "Quantifies over all masks, exponentially many even for small data.", "anchors": ["kamrecsys/data/event.py: EventData.filter_event", "kamrecsys/data/event_with_score.py: EventWithScoreData.filter_event", "kamrecsys/data/base.py: ObjectUtilMixin._gen_id_substitution_table"]}
{"id": "C11", "title": "filter_event keeps exactly the objects that still occur and renumbers them densely", "statement": "After filtering, the objects of each type are exactly those whose external ids occur in the surviving events, in the same relative order, numbered 0..n-1; to_iid and to_eid of the result are mutually inverse.", "quantifier": "for every reachable container and every filter condition", "why_tests_cant": "All masks and all containers.", "anchors": ["kamrecsys/data/event.py: EventData.filter_event", "kamrecsys/data/base.py: ObjectUtilMixin._gen_id_substitution_table"]}
{"id": "C12", "title": "Object features follow their objects through filtering", "statement": "After filter_event the feature row of each surviving object (identified by its external id) is its feature row in the original container.", "quantifier": "for every reachable container with features and every filter condition", "why_tests_cant": "All masks; renumbering bugs appear only for particular gaps in the ids.", "anchors": ["kamrecsys/data/event.py: EventData.filter_event"]}
{"id": "C13", "title": "Filtering is canonical and composes", "statement": "Filtering a container equals building a new container from the selected rows of the original external-id events; filtering twice equals filtering once by the composed selection; selecting every event gives back the same container.", "quantifier": "for every reachable container and every pair of filter conditions", "why_tests_cant": "Equational law over all pairs of conditions.", "anchors": ["kamrecsys/data/event.py: EventData.filter_event, EventData.set_event"]}
{"id": "C14", "title": "A filtered container and its original never influence each other", "statement": "filter_event does not change the original container, and whatever sequence of operations (set_event, set_feature, binarize_score, further filtering) is applied later to one of them, everything observable on the other stays the same.", "quantifier": "for every heap, every container and every later sequence of operations", "why_tests_cant": "Aliasing over unbounded operation sequences.", "anchors": ["kamrecsys/data/event.py: EventData.filter_event", "kamrecsys/data/event_with_score.py: EventWithScoreData.filter_event", "kamrecsys/data/base.py: BaseData.set_feature"]}
{"id": "C15", "title": "A fitted recommender is insulated from later changes of the container it was fitted on", "statement": "After rec.fit(data), no later operation on data changes the id tables through which rec.predict translates external ids.", "quantifier": "for every container and every later sequence of operations on it", "why_tests_cant": "Aliasing of arrays shared between objects over operation histories.", "anchors": ["kamrecsys/data/base.py: ObjectUtilMixin._set_object_info", "kamrecsys/data/event.py: EventData.set_event", "kamrecsys/base/base.py: BaseRecommender.fit"]}
{"id": "C16", "title": "Containers stay consistent over every history of operations", "statement": "In every container reachable from the constructor by set_event, filter_event, set_feature and binarize_score (failed calls included), every stored event entry is a valid internal id of its column type, tables are mutually inverse, n_objects and n_events match the tables, every object of a used type occurs in some event, and every feature array has one row per object.", "quantifier": "for every finite sequence of API calls with arbitrary arguments", "why_tests_cant": "Induction over unbounded call histories.", "anchors": ["kamrecsys/data/event.py: EventData", "kamrecsys/data/base.py: BaseData", "kamrecsys/data/event_with_score.py: EventWithScoreData"]}
{"id": "C17", "title": "The estimated score domain brackets the scores", "statement": "With score_domain=None, set_event stores (min score, max score, smallest gap between distinct scores), so every score lies between the first two; it raises ValueError when all scores are equal.", "quantifier": "for every list of scores", "why_tests_cant": "All score lists.", "anchors": ["kamrecsys/data/event_with_score.py: EventWithScoreData.set_event"]}
{"id": "C18", "title": "Number of score levels, score bins and digitized scores agree", "statement": "n_score_levels equals the number of bins generated by generate_score_bins and every digitized score is in 0..n_score_levels-1.", "quantifier": "for every score domain with positive stride, given or estimated from the data", "why_tests_cant": "Needs every domain; fails only if the stride does not divide the range, which no test data exhibits.", "anchors": ["kamrecsys/data/event_with_score.py: ScoreUtilMixin.generate_score_bins, EventWithScoreData.set_event, EventWithScoreData.digitize_score", "kamrecsys/metrics/base.py: generate_score_bins"]}
{"id": "C19", "title": "digitize_score maps a score to its nearest level", "statement": "digitize_score is monotone, and for a score inside a domain whose stride divides its range the level it selects is at distance at most half a stride (ties go up); scores outside are mapped to the first or last level.", "quantifier": "for every domain and every rational score", "why_tests_cant": "Dense infinite input space with ties at bin edges.", "anchors": ["kamrecsys/data/event_with_score.py: EventWithScoreData.digitize_score", "kamrecsys/metrics/base.py: generate_score_bins"]}
{"id": "C20", "title": "Score levels and digitized scores are mutually inverse", "statement": "get_score_levels lists min, min+stride, ..., max in increasing order, and digitizing the k-th level gives k.", "quantifier": "for every score domain whose stride divides its range", "why_tests_cant": "All domains and numbers of levels.", "anchors": ["kamrecsys/data/event_with_score.py: ScoreUtilMixin.get_score_levels, EventWithScoreData.digitize_score"]}
{"id": "C21", "title": "score_histogram counts every score exactly once", "statement": "The counts returned by score_histogram sum to the number of scores, the k-th count is the number of scores digitized to k, and densities in score_predictor_statistics sum to 1 for non-empty input.", "quantifier": "for every score domain with positive stride and every list of finite scores, inside or outside the domain", "why_tests_cant": "All lists of scores, including values on bin edges and outside the domain.", "anchors": ["kamrecsys/metrics/real.py: score_histogram", "kamrecsys/metrics/base.py: generate_score_bins", "kamrecsys/metrics/score_predictor.py: score_predictor_statistics"]}
{"id": "C22", "title": "binarize_score thresholds scores and yields valid binary data", "statement": "After binarize_score(t) each score is 1 exactly when the old score exceeded t (default: the middle of the domain) and 0 otherwise, the domain is (0,1,1) with 2 levels, events and ids are untouched, binarization is monotone, and binarizing again with the default changes nothing.", "quantifier": "for every container with scores and every threshold", "why_tests_cant": "All scores and thresholds, values equal to the threshold included.", "anchors": ["kamrecsys/data/event_with_score.py: EventWithScoreData.binarize_score"]}
{"id": "C23", "title": "The number of score levels is right in floating point", "statement": "For score_domain (a, a+n*s, s) given as the nearest binary64 numbers, n_score_levels is n+1.", "quantifier": "for all domains representable in decimal", "why_tests_cant": "Fails only for particular roundings.", "anchors": ["kamrecsys/data/event_with_score.py: EventWithScoreData.set_event"]}
{"id": "C24", "title": "Scores stay aligned with events", "statement": "set_event rejects a score list whose length differs from the number of events, so len(score) = n_events in every reachable container; if set_event raises, the container is unchanged.", "quantifier": "for every event array and score list", "why_tests_cant": "All mismatching lengths and all failing calls.", "anchors": ["kamrecsys/data/event_with_score.py: EventWithScoreData.set_event"]}
{"id": "C25", "title": "predict scores the objects the caller named", "statement": "For user-item data (two types, events (user,item)) and any trained parameters, predict(rows) is the model formula applied to the internal ids of the named user and item, an id unseen in training being treated as the extra unknown object; it never reads another object's parameters.", "quantifier": "for every training set, every trained parameter vector and every query batch of integers", "why_tests_cant": "Parameters and queries are arbitrary; unseen ids are infinitely many.", "anchors": ["kamrecsys/base/base.py: BaseEventRecommender.fit, BaseEventRecommender.predict", "kamrecsys/data/event.py: EventUtilMixin.to_iid_event", "kamrecsys/score_predictor/matrix_factorization.py: PMF.raw_predict"]}
{"id": "C26", "title": "predict is right for every event_index and event_otypes the API accepts", "statement": "The guarantee of C25 holds whatever event_otypes the container declares and whatever event_index is passed to fit.", "quantifier": "for every event_otypes vector and event_index accepted by fit", "why_tests_cant": "Only the default configuration is tested.", "anchors": ["kamrecsys/base/base.py: BaseEventRecommender.fit, BaseEventRecommender.predict", "kamrecsys/data/event.py: EventUtilMixin.to_iid_event"]}
{"id": "C27", "title": "Batch prediction equals row-by-row prediction", "statement": "The k-th value of predict(rows) equals predict of the k-th row alone; hence permuting, splitting or repeating rows permutes, splits or repeats the predictions.", "quantifier": "for every fitted recommender and every batch", "why_tests_cant": "All batches.", "anchors": ["kamrecsys/base/base.py: BaseEventRecommender.predict", "kamrecsys/score_predictor/matrix_factorization.py: PMF.raw_predict", "kamrecsys/item_finder/matrix_factorization.py: LogisticPMF.raw_predict", "kamrecsys/score_predictor/topic_model.py: MultinomialPLSA.raw_predict"]}
{"id": "C28", "title": "Removing training data does not change predictions", "statement": "remove_data erases the stored events, event features, scores and random state but no prediction changes.", "quantifier": "for every fitted recommender and query", "why_tests_cant": "All parameters and queries.", "anchors": ["kamrecsys/base/base.py: BaseEventRecommender.remove_data", "kamrecsys/score_predictor/base.py: BaseScorePredictor.remove_data", "kamrecsys/item_finder/base.py: BaseExplicitItemFinder"]}
{"id": "C29", "title": "Explicit item finders accept exactly binary-scored data and fail cleanly", "statement": "fit of an explicit item finder raises ValueError exactly when the score domain is not (0,1,1), or the number of levels is not 2, or the scores are not exactly the set {0,1}; a fit that raises leaves a previously fitted recommender's predictions unchanged.", "quantifier": "for every container and every previously fitted recommender", "why_tests_cant": "All score lists and all earlier states.", "anchors": ["kamrecsys/item_finder/base.py: BaseExplicitItemFinder.fit", "kamrecsys/utils/base.py: is_binary_score"]}
{"id": "C30", "title": "Every event is used for training as the pair selected by event_index", "statement": "After fit, row k of the recommender's training events is the event_index-selection of row k of data.event, its n_objects gives the number of objects of each selected column, and every training entry is below it.", "quantifier": "for every container and event_index within range", "why_tests_cant": "All containers and selections.", "anchors": ["kamrecsys/base/base.py: BaseEventRecommender.fit, BaseEventRecommender.get_event", "kamrecsys/score_predictor/base.py: BaseScorePredictor.fit"]}
{"id": "C31", "title": "The implicit event matrix records which items each user consumed", "statement": "get_event_array gives a matrix with one row per user and one column per item whose entry is 1 if the user consumed the item and 0 otherwise.", "quantifier": "for every event list, repeated events included, and every event_index", "why_tests_cant": "All event lists; repeated events never occur in the test data.", "anchors": ["kamrecsys/item_finder/base.py: BaseImplicitItemFinder.get_event_array"]}
{"id": "C32", "title": "Model parameters occupy disjoint parts of the optimised vector", "statement": "The views mu, bu, bi, p, q partition the coefficient vector: every position belongs to exactly one named parameter entry and the vector has 1 + n_users + n_items + k*(n_users+n_items) positions.", "quantifier": "for every number of users, items and factors", "why_tests_cant": "Layout for every dimension.", "anchors": ["kamrecsys/score_predictor/matrix_factorization.py: PMF._init_coef, PMF.loss", "kamrecsys/item_finder/matrix_factorization.py: LogisticPMF._init_coef, ImplicitLogisticPMF._init_coef"]}
{"id": "C33", "title": "PMF.grad_loss is the gradient of PMF.loss", "statement": "For every coefficient vector and direction v, the derivative at 0 of loss(coef + t*v) is the inner product of grad_loss(coef) with v.", "quantifier": "for every data set, dimension, regularisation constant, coefficient vector and direction", "why_tests_cant": "A continuum of points and directions; numeric tests sample one point with tolerance.", "anchors": ["kamrecsys/score_predictor/matrix_factorization.py: PMF.loss, PMF.grad_loss"]}
{"id": "C34", "title": "LogisticPMF.grad_loss is the gradient of LogisticPMF.loss", "statement": "Same as C33 for the logistic model at every coefficient vector.", "quantifier": "for every data set, dimension, regularisation constant, coefficient vector and direction", "why_tests_cant": "A continuum of points; fails only where the sigmoid argument is clipped.", "anchors": ["kamrecsys/item_finder/matrix_factorization.py: LogisticPMF.loss, LogisticPMF.grad_loss", "kamrecsys/utils/kammath.py: safe_sigmoid"]}
{"id": "C35", "title": "ImplicitLogisticPMF.grad_loss is the gradient of ImplicitLogisticPMF.loss", "statement": "Same as C34 for the implicit-feedback model, whose loss sums over all user-item cells.", "quantifier": "for every event matrix, dimension, regularisation constant, coefficient vector and direction", "why_tests_cant": "A continuum of points.", "anchors": ["kamrecsys/item_finder/matrix_factorization.py: ImplicitLogisticPMF.loss, ImplicitLogisticPMF.grad_loss", "kamrecsys/utils/kammath.py: safe_sigmoid"]}
{"id": "C36", "title": "Losses are well defined and non-negative", "statement": "With C >= 0, PMF.loss >= 0; for 0/1 scores LogisticPMF.loss >= 0 and every logarithm argument is strictly positive, so the loss is finite for every coefficient vector; ImplicitLogisticPMF.loss >= 0 for every event list.", "quantifier": "for every coefficient vector and data set", "why_tests_cant": "All reals, including saturated sigmoids; repeated events.", "anchors": ["kamrecsys/score_predictor/matrix_factorization.py: PMF.loss", "kamrecsys/item_finder/matrix_factorization.py: LogisticPMF.loss, ImplicitLogisticPMF.loss"]}
{"id": "C37", "title": "Unknown users and items fall back to the remaining terms", "statement": "After fit of any matrix-factorisation model, the score of a known pair is mu+bu+bi+p.q; an unknown user drops bu and p.q, an unknown item drops bi and p.q, both leave mu (passed through the sigmoid for logistic models).", "quantifier": "for every optimiser result and every pair of ids", "why_tests_cant": "The optimiser result is arbitrary.", "anchors": ["kamrecsys/score_predictor/matrix_factorization.py: PMF.fit, PMF.raw_predict", "kamrecsys/item_finder/matrix_factorization.py: LogisticPMF.fit, LogisticPMF.raw_predict, ImplicitLogisticPMF.fit"]}
{"id": "C38", "title": "safe_sigmoid stays in the documented open interval, is monotone and symmetric", "statement": "safe_sigmoid(x) lies in [1e-15, 1-1e-15], is non-decreasing, equals 1/(1+exp(-x)) when |x| is below the clipping point, and safe_sigmoid(-x) = 1 - safe_sigmoid(x); hence logistic predictions are probabilities strictly between 0 and 1.", "quantifier": "for every real x", "why_tests_cant": "A continuum of arguments; the bound depends on a 17-digit constant.", "anchors": ["kamrecsys/utils/kammath.py: safe_sigmoid", "kamrecsys/item_finder/matrix_factorization.py: LogisticPMF.raw_predict, ImplicitLogisticPMF.raw_predict"]}
{"id": "C39", "title": "Initial biases are residual means and unseen objects start at zero", "statement": "The initial mu is the mean score, bu of a user with events is the mean of score-mu over the user's events, bi the mean of the remaining residual over the item's events; biases and factors of objects without events are 0. In the implicit model mu is the share of set cells of the event matrix, and bu and bi are the means of its rows and columns.", "quantifier": "for every event and score list", "why_tests_cant": "All data sets.", "anchors": ["kamrecsys/score_predictor/matrix_factorization.py: PMF._init_coef", "kamrecsys/item_finder/matrix_factorization.py: LogisticPMF._init_coef, ImplicitLogisticPMF._init_coef"]}
{"id": "C40", "title": "Objects without events only feel the regulariser", "statement": "The gradient with respect to parameters of an object that occurs in no training event is C times the parameter, so a zero parameter stays zero under any gradient step.", "quantifier": "for every data set, coefficient vector and object without events", "why_tests_cant": "All coefficient vectors.", "anchors": ["kamrecsys/score_predictor/matrix_factorization.py: PMF.grad_loss", "kamrecsys/item_finder/matrix_factorization.py: LogisticPMF.grad_loss"]}
{"id": "C41", "title": "pLSA parameters are probability distributions at every iteration", "statement": "After any number of EM iterations p[z] sums to 1 over z, and for each z p[r|z], p[x|z], p[y|z] sum to 1, all entries being positive when alpha > 0.", "quantifier": "for every data set, number of topics and iterations, alpha > 0 and initial responsibilities", "why_tests_cant": "Unbounded iterations over the reals.", "anchors": ["kamrecsys/score_predictor/topic_model.py: MultinomialPLSA.maximization_step, MultinomialPLSA.fit"]}
{"id": "C42", "title": "pLSA responsibilities are normalised", "statement": "After every E-step each event's responsibilities are positive and sum to 1.", "quantifier": "for every data set and every reachable parameter state", "why_tests_cant": "Unbounded iterations over the reals.", "anchors": ["kamrecsys/score_predictor/topic_model.py: MultinomialPLSA.fit"]}
{"id": "C43", "title": "EM never worsens the penalised likelihood", "statement": "Each EM iteration does not increase -log likelihood - alpha*sum(log parameters), for every iteration; with alpha = 0 (and positive parameters) the reported loss itself never increases.", "quantifier": "for every data set, alpha, topic number, start and iteration", "why_tests_cant": "Needs Jensen/Gibbs inequality over all reals.", "anchors": ["kamrecsys/score_predictor/topic_model.py: MultinomialPLSA.fit, MultinomialPLSA.maximization_step, MultinomialPLSA.loss"]}
{"id": "C44", "title": "pLSA predictions lie inside the score range", "statement": "With expectation prediction every prediction, for known and unknown users and items, lies between the smallest and largest score level; with mode prediction it is one of the score levels, one of maximal probability.", "quantifier": "for every trained model, event and score domain", "why_tests_cant": "All parameters and events.", "anchors": ["kamrecsys/score_predictor/topic_model.py: MultinomialPLSA.raw_predict"]}
{"id": "C45", "title": "The EM loop reports its outcome truthfully", "statement": "fit performs at most maxiter iterations, stops at the first iteration whose relative loss change is below tol, reports the number of iterations performed, the last loss, and success exactly when the tolerance was reached.", "quantifier": "for every maxiter, tol and sequence of losses", "why_tests_cant": "All loss sequences, in particular convergence exactly at the last allowed iteration.", "anchors": ["kamrecsys/score_predictor/topic_model.py: MultinomialPLSA.fit", "kamrecsys/utils/base.py: get_fit_status_message"]}
{"id": "C46", "title": "pLSA starts from a well defined state", "statement": "For digitized scores below the number of levels the initial responsibilities are defined for every event, every topic is attached to exactly one preferred score level, and when there are at least as many topics as levels each level has a preferred topic.", "quantifier": "for every number of topics and levels", "why_tests_cant": "All dimensions.", "anchors": ["kamrecsys/score_predictor/topic_model.py: MultinomialPLSA._init_params"]}
{"id": "C47", "title": "KFoldWithinGroups partitions the samples", "statement": "split yields n_splits folds, every sample is in exactly one test set, each training set is the complement of its test set in increasing order.", "quantifier": "for every sample size, grouping, n_splits and shuffle result", "why_tests_cant": "All groupings and permutations.", "anchors": ["kamrecsys/model_selection/split.py: KFoldWithinGroups._iter_test_masks, KFoldWithinGroups.split"]}
{"id": "C48", "title": "KFoldWithinGroups is balanced inside every group", "statement": "Within each group the test-fold sizes differ by at most one and every fold tests at least one sample of each group; split raises ValueError exactly when n_splits <= 1, n_splits exceeds the number of samples or of the members of some group.", "quantifier": "for every grouping and shuffle result", "why_tests_cant": "All group sizes.", "anchors": ["kamrecsys/model_selection/split.py: KFoldWithinGroups"]}
{"id": "C49", "title": "ShuffleSplitWithinGroups tests the requested share of every group", "statement": "In every split each group of size m contributes exactly the number of test samples requested (ceil(test_size*m) for a fraction), training and test sets are complementary and sorted.", "quantifier": "for every grouping, sizes and shuffle results", "why_tests_cant": "All groupings and permutations.", "anchors": ["kamrecsys/model_selection/split.py: ShuffleSplitWithinGroups"]}
{"id": "C50", "title": "ShuffleSplitWithinGroups honours train_size", "statement": "If train_size is given, each group contributes exactly the requested number of training samples.", "quantifier": "for every grouping, train_size and test_size", "why_tests_cant": "The tests never pass both sizes.", "anchors": ["kamrecsys/model_selection/split.py: ShuffleSplitWithinGroups._iter_test_masks"]}
{"id": "C51", "title": "InterlacedKFold deals samples round-robin", "statement": "Fold f tests exactly the samples whose position is congruent to f modulo n_splits; the folds partition the samples, sizes differ by at most one, no two samples closer than n_splits share a fold; ValueError exactly when n_splits <= 1 or n_splits > number of samples.", "quantifier": "for every n_splits and number of samples", "why_tests_cant": "All sizes.", "anchors": ["kamrecsys/model_selection/split.py: InterlacedKFold"]}
{"id": "C52", "title": "Error metrics satisfy their defining identities", "statement": "mean_absolute_error and mean_squared_error return non-negative values, zero exactly when prediction and truth coincide, symmetric in their arguments; rmse squared is the mean, MAE <= RMSE, and the reported deviation satisfies stdev^2 = mean of squares - mean^2.", "quantifier": "for all equally long non-empty lists of reals", "why_tests_cant": "Inequalities over all real vectors.", "anchors": ["kamrecsys/metrics/real.py: mean_absolute_error, mean_squared_error"]}
{"id": "C53", "title": "variance_with_gamma_prior is strictly positive", "statement": "For a, b > 0 the result is strictly positive, equals (2b + sum of squared deviations)/(2a + n), lies between the prior mean and the sample variance, and ignores non-finite entries on request.", "quantifier": "for every list of numbers and every a, b > 0", "why_tests_cant": "Cauchy-Schwarz over all real vectors.", "anchors": ["kamrecsys/metrics/real.py: variance_with_gamma_prior"]}
{"id": "C54", "title": "statistics_mean averages statistics across collections", "statement": "Given any number of dictionaries of values, or lists of values, statistics_mean applies the function position by position (key by key) and averages, independently of the order in which keys were inserted.", "quantifier": "for every number and size of collections", "why_tests_cant": "The list form is not tested; all sizes.", "anchors": ["kamrecsys/metrics/base.py: statistics_mean"]}
{"id": "C55", "title": "is_binary_score recognises exactly binary score lists", "statement": "is_binary_score(s) is true exactly when s contains both 0 and 1 and nothing else, or, if allow_uniform, when it is non-empty and all 0 or all 1.", "quantifier": "for every list of scores", "why_tests_cant": "All lists.", "anchors": ["kamrecsys/utils/base.py: is_binary_score"]}
{"id": "C56", "title": "Item-finder statistics demand binary truth and report AUC only when defined", "statement": "item_finder_statistics raises ValueError exactly when the truth is not binary (uniform allowed), reports an area under the curve exactly when both classes occur, and its ratio of positives lies in [0,1].", "quantifier": "for every pair of lists", "why_tests_cant": "All lists.", "anchors": ["kamrecsys/metrics/item_finder.py: item_finder_statistics, item_finder_report"]}
{"id": "C57", "title": "score_histogram accepts an integer number of bins", "statement": "Passing an int as score_domain counts all scores in that many equal-width bins, as documented.", "quantifier": "for every positive int", "why_tests_cant": "Argument type space.", "anchors": ["kamrecsys/metrics/real.py: score_histogram"]}
{"id": "C58", "title": "cv_test never tests on training events and keeps its outputs aligned", "statement": "In every fold the training and test events are disjoint and together are all events; the recorded event, true score, predicted score and event feature at each position belong to the same event; fold keys are the fold numbers.", "quantifier": "for every data set, number of folds and random state", "why_tests_cant": "All shuffles and data sets.", "anchors": ["scripts/exp_recsys_util.py: cv_test"]}
{"id": "C59", "title": "Merging one-fold runs reproduces the full cross validation", "statement": "With a fixed integer seed, running exp_recsys once per target fold and merging the files gives the same training, test and prediction results per fold as one run over all folds.", "quantifier": "for every number of folds, data set, seed and deterministic recommender", "why_tests_cant": "Whole-program relation over all folds.", "anchors": ["scripts/exp_recsys_util.py: cv_test", "scripts/exp_recsys_fold_merge.py: first_fold, rest_fold, do_task"]}
{"id": "C60", "title": "The statistics script compares each prediction with its own truth", "statement": "The concatenated true and predicted scores are aligned pair by pair and contain each fold's predictions exactly once.", "quantifier": "for every number of folds and fold sizes", "why_tests_cant": "All fold structures.", "anchors": ["scripts/stats_recsys.py: do_task"]}
{"id": "C61", "title": "json_decodable makes any result tree serialisable without changing its shape", "statement": "After json_decodable every leaf is a plain bool, int, float or string, dictionaries keep their keys and order, lists their lengths, numbers their values; running it twice changes nothing more.", "quantifier": "for every finite nested structure of dictionaries, lists, arrays and scalars", "why_tests_cant": "All trees.", "anchors": ["kamrecsys/utils/kamexputils.py: json_decodable"]}
{"id": "C62", "title": "The hold-out report names the test file", "statement": "After holdout_test the recorded test file is the file the test data were read from.", "quantifier": "for every pair of file names", "why_tests_cant": "The record is never inspected by tests.", "anchors": ["scripts/exp_recsys_util.py: holdout_test 150-203"]}
{"id": "C63", "title": "Recorded end times are end times", "statement": "The end_time recorded by training and testing is the time the task ended, so elapsed_time = end_time - start_time.", "quantifier": "for every pair of clock readings", "why_tests_cant": "Depends on the clock.", "anchors": ["scripts/exp_recsys_util.py: training, testing"]}
{"id": "C64", "title": "Hold-out evaluation judges test scores on the training scale", "statement": "When no score domain is given, the domain estimated from the training file is also used for the test file, so training and test scores are binarised with the same threshold.", "quantifier": "for every pair of files", "why_tests_cant": "All data files.", "anchors": ["scripts/exp_recsys_sp.py: load_data", "scripts/exp_recsys_if.py: load_data", "scripts/exp_recsys_util.py: holdout_test 150-203"]}
{"id": "C65", "title": "Data converters lose and invent nothing", "statement": "The sushi3 converter emits exactly one event per non-missing rating; the movielens-1m converter sets exactly the genre flags named; movielens_mini keeps exactly the events whose user and item ids are at most 10; the event and user converters lose no field except the end of long zip codes.", "quantifier": "for every input file", "why_tests_cant": "All input files.", "anchors": ["data/sushi3.py", "data/movielens1m.py", "data/movielens_mini.py"]}
{"id": "C66", "title": "Loaded files become the events they contain", "statement": "load_event and load_event_with_score give a container whose external-id events and scores are the rows of the file, for every non-empty file.", "quantifier": "for every file content, one-line files included", "why_tests_cant": "All files.", "anchors": ["kamrecsys/datasets/base.py: load_event, load_event_with_score"]}
{"id": "C67", "title": "pLSA scores unknown users and items with the marginal model", "statement": "The mass a trained pLSA gives to a level for an unknown user (item) is the sum of the masses over all known users (items), so predictions for unknown objects average over the known ones.", "quantifier": "for every training problem, iteration number, item or user and level", "why_tests_cant": "All data sets and all parameter states.", "anchors": ["kamrecsys/score_predictor/topic_model.py: fit, raw_predict"]}
{"id": "C68", "title": "pLSA can be fitted to every scored container", "statement": "fit of MultinomialPLSA succeeds for every non-empty user-item container with one score per event, whatever the scores.", "quantifier": "for every container built through the API, alpha >= 0, number of topics, tolerance and maximum of iterations", "why_tests_cant": "All score lists; the failure needs gaps between scores that do not divide the range.", "anchors": ["kamrecsys/score_predictor/topic_model.py: fit, _init_params", "kamrecsys/data/event_with_score.py: set_event"]}
{"id": "C69", "title": "variance_with_gamma_prior refuses non-finite data when asked", "statement": "With force_all_finite=True, data containing NaN or infinity raise ValueError, and finite data give the same variance as without the flag.", "quantifier": "for every list or array of numbers", "why_tests_cant": "Depends on the container type of the input; tests use finite data.", "anchors": ["kamrecsys/metrics/real.py: variance_with_gamma_prior"]}
{"id": "C70", "title": "The brief report and the full statistics agree", "statement": "For the same true and predicted scores score_predictor_report and score_predictor_statistics give the same mean absolute error, root mean squared error, sample size, means and standard deviations.", "quantifier": "for all equally long non-empty lists of scores and every score domain with positive stride", "why_tests_cant": "One uses sklearn's errors, the other the package's own; equality over all vectors.", "anchors": ["kamrecsys/metrics/score_predictor.py: score_predictor_report, score_predictor_statistics"]}
{"id": "C71", "title": "The order of events does not matter for training", "statement": "Recording the same events with the same scores in another order leaves loss, gradient, starting point and event matrix unchanged as functions of the coefficients, so fit ends with the same exception or with the same recommender; for pLSA the same holds when the initial responsibilities move along with their events.", "quantifier": "for every list of scored events, every permutation, every optimiser and every draw", "why_tests_cant": "All permutations of all event lists, with an arbitrary optimiser.", "anchors": ["kamrecsys/score_predictor/matrix_factorization.py: PMF._init_coef, loss, grad_loss, fit", "kamrecsys/item_finder/matrix_factorization.py: LogisticPMF, ImplicitLogisticPMF", "kamrecsys/score_predictor/topic_model.py: MultinomialPLSA.fit", "kamrecsys/data/event_with_score.py: set_event"]}
{"id": "C72", "title": "At a stationary point predictions and scores balance", "statement": "The entries of the gradient of the explicit matrix factorisation models are sums of prediction minus score over the events of a user, an item or all events, plus the regularisation; so where the gradient vanishes the predictions of the training events sum to the scores, and the user biases and the item biases each sum to zero.", "quantifier": "for every coefficient vector, all events and scores, every regularisation constant", "why_tests_cant": "All coefficient vectors; a test sees the one point the optimiser stopped at.", "anchors": ["kamrecsys/score_predictor/matrix_factorization.py: PMF.grad_loss, raw_predict", "kamrecsys/item_finder/matrix_factorization.py: LogisticPMF.grad_loss, raw_predict"]}
{"id": "C73", "title": "Fitting again forgets the previous fit", "statement": "Given the same random draws, fit ends with the same exception whatever was fitted before, and if it succeeds it leaves the recommender that a new recommender would become.", "quantifier": "for every two states of a recommender, every container, event_index, optimiser and hyperparameter", "why_tests_cant": "Tests fit new recommenders; the claim is about every history.", "anchors": ["kamrecsys/base/base.py: BaseEventRecommender.fit", "kamrecsys/score_predictor/matrix_factorization.py: PMF.fit", "kamrecsys/score_predictor/topic_model.py: MultinomialPLSA.fit", "kamrecsys/item_finder/matrix_factorization.py: LogisticPMF.fit, ImplicitLogisticPMF.fit"]}
{"id": "C74", "title": "Renaming identifiers does not change what is learnt", "statement": "If the external identifiers of each object type are replaced by others in the same order, set_event stores the same internal events, sizes and features, and its id tables are the renamed ones. Given the same random draws, fit of every model ends with the same exception, learns the same parameters, and answers renamed queries as the first recommender answers the original ones, including queries about unknown objects.", "quantifier": "for every container, every event table, every order preserving renaming of each type, every model, optimiser and query", "why_tests_cant": "Tests use the identifiers of one data file; the claim is about all identifiers and all renamings.", "anchors": ["kamrecsys/data/base.py: ObjectUtilMixin._gen_id", "kamrecsys/data/event.py: EventData.set_event", "kamrecsys/base/base.py: BaseEventRecommender.fit, predict"]}
{"id": "C75", "title": "Bundled loaders attach the right features", "statement": "load_movielens100k, load_movielens_mini, load_movielens1m, load_sushi3b_score and load_flixster_rating return a container that holds the events, scores and event features of the event file in order, with the documented number of score levels; the feature row of every user and item that occurs in an event is the one of its last line in the feature file. If a user or an item of an event has no line, they raise IndexError.", "quantifier": "for every event file and every pair of feature files with two lines or more", "why_tests_cant": "The tests load the one file of each data set and compare a few rows.", "anchors": ["kamrecsys/datasets/movielens.py: load_movielens100k, load_movielens_mini, load_movielens1m", "kamrecsys/datasets/sushi3.py: load_sushi3b_score", "kamrecsys/datasets/flixster.py: load_flixster_rating", "kamrecsys/data/base.py: BaseData.set_feature"]}
{"id": "C76", "title": "The PCI sample has the documented domain", "statement": "load_pci_sample keeps users and items apart by name and has the documented five score levels 1, 2, 3, 4, 5.", "quantifier": "for every event file", "why_tests_cant": "The bundled file has no names of more than 18 characters.", "anchors": ["kamrecsys/datasets/others.py: load_pci_sample"]}
{"id": "C77", "title": "Which queries predict accepts", "statement": "predict raises ValueError for an array without rows or columns or with three axes, trained or not. A recommender that was never fitted raises TypeError for every other query. After fit, a query whose rows lack one of the columns of the event index raises IndexError, and columns behind the largest one of the index have no influence on the answer.", "quantifier": "for every recommender state, every raw_predict and every query", "why_tests_cant": "Tests ask well formed pairs on one fitted model.", "anchors": ["kamrecsys/base/base.py: BaseEventRecommender.predict"]}
{"id": "C78", "title": "Digitising in floating point arithmetic finds the right level", "statement": "In binary64 arithmetic, digitize_score returns j for the j-th level of a score domain whose ends and stride are decimals (or multiples of a power of two), although the ends, the stride, the bin edges and the scores are all rounded.", "quantifier": "for every decimal domain with up to 15 places and every level, if the number of levels times the distance from zero in strides is at most 2^46", "why_tests_cant": "Rounding errors differ for every domain; tests use integer domains, which have none.", "anchors": ["kamrecsys/metrics/base.py: generate_score_bins", "kamrecsys/data/event_with_score.py: EventWithScoreData.digitize_score"]}
{"id": "C79", "title": "Digitised scores are below n_score_levels in floating point arithmetic", "statement": "In binary64 arithmetic, the number of classes digitize_score can return equals n_score_levels, so that digitised scores can be used as indices into arrays of n_score_levels entries, as MultinomialPLSA does.", "quantifier": "for every decimal domain", "why_tests_cant": "Tests use integer domains.", "anchors": ["kamrecsys/data/event_with_score.py: EventWithScoreData.set_event, digitize_score", "kamrecsys/metrics/base.py: generate_score_bins", "kamrecsys/score_predictor/topic_model.py: MultinomialPLSA._init_params"]}
{"id": "C80", "title": "Constructor arguments reach the model and the optimiser", "statement": "PMF, LogisticPMF and ImplicitLogisticPMF convert C and k (default 1) and keep random_state; fit then calls scipy's minimize with the given method ('CG' if none), hands on tol, callback and its other arguments unchanged, and passes the given options with disp False unless set there and with maxiter where maxiter was given and is not None. A keyword neither side knows is accepted by the constructor and makes fit raise TypeError. MultinomialPLSA uses its arguments with defaults 1, 1.0, True, None, 100 iterations and tolerance 1e-10.", "quantifier": "for every set of keyword arguments and every options dictionary", "why_tests_cant": "Tests construct recommenders with a handful of argument combinations and do not look at what minimize receives.", "anchors": ["kamrecsys/score_predictor/matrix_factorization.py: PMF.__init__, fit", "kamrecsys/item_finder/matrix_factorization.py: LogisticPMF.__init__, ImplicitLogisticPMF.__init__, fit", "kamrecsys/score_predictor/topic_model.py: MultinomialPLSA.__init__"]}
{"id": "C81", "title": "Recommenders do not share optimiser options", "statement": "Building a recommender changes neither the dictionaries of the caller nor what the optimiser of a recommender built earlier is given.", "quantifier": "for every two constructor calls and every heap of dictionaries", "why_tests_cant": "Aliasing shows only when one options dictionary is used for two recommenders.", "anchors": ["kamrecsys/score_predictor/matrix_factorization.py: PMF.__init__", "kamrecsys/item_finder/matrix_factorization.py: LogisticPMF.__init__, ImplicitLogisticPMF.__init__"]}
{"id": "C82", "title": "Command line options reach the model and the optimiser", "statement": "The recommender which the experiment scripts build has the C, k, alpha, seed and kind of prediction asked for on the command line; its optimiser gets the tolerance asked for and a limit on iterations exactly if one was asked for (100 for the topic model otherwise).", "quantifier": "for every combination of command line options of both scripts", "why_tests_cant": "The scripts have no tests.", "anchors": ["scripts/exp_recsys_sp.py: init_info", "scripts/exp_recsys_if.py: init_info"]}
{"id": "C83", "title": "EM for the topic model converges", "statement": "For any positive tolerance, MultinomialPLSA.fit ends with success after a number of iterations which does not depend on maxiter, unless all events are the same rating and that rating has probability one (no smoothing, or one user, item and level only); in that case it always uses up maxiter iterations and reports failure. Without smoothing, with two different ratings among the events, (iterations - 1) * tol * ln 2 is at most the number of events times the initial loss.", "quantifier": "for every training set, start, smoothing parameter, number of topics, tolerance and maxiter above the number found", "why_tests_cant": "Convergence is a statement about all data sets and about infinitely many iterations; with smoothing the reported loss may also increase, so that watching it in a test shows nothing.", "anchors": ["kamrecsys/score_predictor/topic_model.py: MultinomialPLSA.fit", "kamrecsys/score_predictor/topic_model.py: MultinomialPLSA.maximization_step"]}
{"id": "C84", "title": "Event files are read line by line as written", "statement": "Loading a tab separated event file gives the container of the events its lines show: comments and blank lines anywhere are skipped, columns beyond those asked for are ignored, and a file is refused with ValueError exactly if two lines have different numbers of columns or there are too few. Identifiers that are not integers should be refused.", "quantifier": "for every file, number of identifiers and of event features, and all types of objects", "why_tests_cant": "Tests load the bundled files only; they contain no malformed lines and no identifiers that are not numbers.", "anchors": ["kamrecsys/datasets/base.py: load_event, load_event_with_score"]}
{"id": "C85", "title": "A converted data set loads as published", "statement": "Ratings in the published format of MovieLens 100k, MovieLens 1M, Flixster or Sushi, passed through the converter and then read by the loader, give the container with exactly these users, items, scores and time stamps; movies keep their identifier, title, year and genres.", "quantifier": "for every list of ratings or movies and every comment header", "why_tests_cant": "Converters have no tests and the bundled sample files were converted once; nothing checks converter and loader together.", "anchors": ["data/movielens100k.py", "data/movielens1m.py", "data/flixster.py", "data/sushi3.py", "kamrecsys/datasets/base.py: load_event_with_score", "kamrecsys/datasets/movielens.py: load_movielens1m"]}
{"id": "C86", "title": "Adding a constant to all scores adds it to all predictions", "statement": "If every score of the training data is increased by the same constant, PMF with the same draws starts from the same point with the constant added to the global bias, loss and gradient are the same at corresponding points, and after fitting with an optimiser that has no preferred origin every query is answered as before plus the constant, or refused as before.", "quantifier": "for every container, constant, regulariser, number of factors, draws and optimiser that commutes with the translation", "why_tests_cant": "Tests compare a fit with stored numbers for one data set; a wrong centring of the start values would only show as slightly different numbers.", "anchors": ["kamrecsys/score_predictor/matrix_factorization.py: _init_coef, loss, grad_loss, fit, raw_predict"]}
{"id": "C87", "title": "Swapping likes and dislikes mirrors the logistic models", "statement": "If every binary score s is replaced by 1 - s, then negating the biases and the factors of the users gives the same loss, the correspondingly negated gradient and predictions p replaced by 1 - p; for explicit and implicit feedback.", "quantifier": "for all parameters, data of matching size and regularisers", "why_tests_cant": "Tests use one data set with one polarity.", "anchors": ["kamrecsys/item_finder/matrix_factorization.py: loss, grad_loss, raw_predict", "kamrecsys/utils/kammath.py: safe_sigmoid"]}
{"id": "C88", "title": "The latent space has no preferred axes", "statement": "Multiplying the factors of users and items by one orthogonal matrix (for example renumbering the factors or changing signs) changes neither loss nor predictions of the three matrix factorisation models, and turns the gradient in the same way.", "quantifier": "for all parameters, data, numbers of factors and orthogonal matrices", "why_tests_cant": "Needs a comparison over all orthogonal matrices; a factor loop that misses or repeats an index may still fit small data.", "anchors": ["kamrecsys/score_predictor/matrix_factorization.py: loss, grad_loss, raw_predict", "kamrecsys/item_finder/matrix_factorization.py: loss, grad_loss, raw_predict"]}
{"id": "C89", "title": "Fitted parameters are bounded by the regulariser", "statement": "With C > 0, parameters whose loss does not exceed the loss at the start satisfy C times the sum of squares of all parameters but the global bias <= 2 times the initial loss; each of them and, for PMF, each training error is bounded by a constant known before optimisation.", "quantifier": "for all data, starting points and results of the optimiser that do not increase the loss", "why_tests_cant": "Quantifies over every possible result of the optimiser.", "anchors": ["kamrecsys/score_predictor/matrix_factorization.py: loss", "kamrecsys/item_finder/matrix_factorization.py: loss"]}
{"id": "C90", "title": "With the factors of users or items fixed the loss is convex", "statement": "If two parameter vectors have the same factors of the users or the same factors of the items, the loss at the second is at least the linear extrapolation of loss and gradient at the first; so where the gradient vanishes for all parameters that may change, the loss is minimal, and for C > 0 the minimum is unique. In particular a stationary point of a model without factors is the global optimum.", "quantifier": "for all pairs of parameter vectors and all data, for the squared and the logistic loss", "why_tests_cant": "Tests cannot compare a point with all others.", "anchors": ["kamrecsys/score_predictor/matrix_factorization.py: loss, grad_loss", "kamrecsys/item_finder/matrix_factorization.py: loss, grad_loss"]}
{"id": "C91", "title": "The numbering of the topics does not matter", "statement": "If the initial responsibilities of MultinomialPLSA have their topic columns permuted, training makes the same number of iterations with the same losses and the same report, the learnt parameters are permuted in the same way, and every prediction is unchanged.", "quantifier": "for all data, all permutations of the topics, all tolerances and numbers of iterations", "why_tests_cant": "There are k! permutations and infinitely many starting points.", "anchors": ["kamrecsys/score_predictor/topic_model.py: maximization_step, fit, raw_predict"]}
{"id": "C92", "title": "Topics that start alike stay alike", "statement": "Topics with equal initial responsibilities have equal parameters after any number of iterations. If all topics start alike, in particular if there is only one, then after at least one iteration the parameters are the smoothed marginal frequencies, every prediction is the same smoothed mean of the score levels for whatever user and item, and with tol > 0 and maxiter >= 3 training reports success after at most two iterations.", "quantifier": "for all data, starts, smoothing parameters and numbers of iterations", "why_tests_cant": "Quantifies over all iterations and all queries.", "anchors": ["kamrecsys/score_predictor/topic_model.py: maximization_step, fit, raw_predict"]}
{"id": "C93", "title": "Prediction errors as statistics of pairs", "statement": "The reports on predicted scores depend only on the multiset of pairs of true and predicted score; the errors of two test sets taken together are the averages of their errors weighted by size; the bias is at most the mean absolute error, the mean squared error is the squared bias plus the variance of the error and lies between the bounds given by the bias and the two standard deviations; for a constant prediction it is the variance of the true scores plus the squared distance from their mean.", "quantifier": "for all pairs of vectors of true and predicted scores", "why_tests_cant": "Quantifies over all permutations and all data.", "anchors": ["kamrecsys/metrics/score_predictor.py: score_predictor_statistics, score_predictor_report", "kamrecsys/metrics/real.py: mean_absolute_error, mean_squared_error"]}
{"id": "C94", "title": "Tested scores do not reach the training", "statement": "In a cross-validation run for one fold with an explicitly given score domain, changing the scores of the tested lines of the input file changes nothing but the recorded true scores: the split, the training data and training results, the predictions, the recorded events and features and the state of the random generator stay the same, for the score-prediction and for the item-finding script. With the default domain this must hold as well.", "quantifier": "for all input files, all recommenders, all splits, all changes of the tested scores", "why_tests_cant": "Quantifies over all recommenders and all pairs of files that differ in the tested scores.", "anchors": ["scripts/exp_recsys_util.py: cv_test", "scripts/exp_recsys_sp.py: load_data", "scripts/exp_recsys_if.py: load_data", "kamrecsys/data/event_with_score.py: filter_event"]}
{"id": "C95", "title": "What a complete experiment computes", "statement": "A cross-validation run of the experiment script on a file of user, item and score: for every fold, training and tested lines are complementary, users and items are numbered by the sorted names in the training lines, the coefficients are what the optimiser returns for the loss and gradient of exactly these numbered ratings, and the prediction for every tested line is the model's score for its user and item, with the bias-only fallback for names not in the training lines (PMF, and logistic PMF with scores made binary at the middle of the domain); with the topic model all predictions lie in the score domain, or are levels of it. The mean absolute error computed from the output is the mean of |score in the file - prediction| over all tested lines of all folds, and for the topic model at most the width of the domain. If some user has two ratings the PMF and topic-model runs complete.", "quantifier": "for all files, optimisers, random generators, hyperparameters, numbers of folds and target folds", "why_tests_cant": "Spans loading, renumbering, splitting, training, prediction and evaluation for unboundedly many inputs and arbitrary optimiser behaviour.", "anchors": ["scripts/exp_recsys_util.py: cv_test, training, testing", "scripts/exp_recsys_sp.py: load_data", "scripts/exp_recsys_if.py: load_data", "scripts/stats_recsys.py: do_task", "kamrecsys/score_predictor/matrix_factorization.py: PMF.fit, raw_predict", "kamrecsys/score_predictor/topic_model.py: MultinomialPLSA.fit, raw_predict", "kamrecsys/metrics/real.py: mean_absolute_error"]}
{"id": "C96", "title": "What a hold-out experiment computes", "statement": "A hold-out run of the experiment scripts on a training and a test file of user, item and score: the optimiser is given the loss and gradient of exactly the training lines, users and items numbered by the sorted names in the training file; every test line gets the model's score for its user and item, with the bias-only fallback for names not in the training file (PMF, and logistic PMF with the scores of both files made binary at the middle of the domain in force for the training file); with the topic model all predictions lie in that domain. The mean absolute error computed from the output is the mean over the test lines. The run completes whenever both files have two lines and a domain is given or can be estimated; the logistic model in addition needs training lines on both sides of the middle, which an estimated domain guarantees, and raises ValueError otherwise.", "quantifier": "for all pairs of files, optimisers, random generators, hyperparameters and domains", "why_tests_cant": "Spans loading, renumbering, training, prediction and evaluation for unboundedly many pairs of files and arbitrary optimiser behaviour.", "anchors": ["scripts/exp_recsys_util.py: holdout_test, training, testing", "scripts/exp_recsys_sp.py: load_data", "scripts/exp_recsys_if.py: load_data", "scripts/stats_recsys.py: do_task", "kamrecsys/item_finder/matrix_factorization.py: LogisticPMF.fit"]}
{"id": "C97", "title": "Options, repetition and merging of experiments", "statement": "do_task runs only for the schemes 'holdout' and 'cv' and a target fold in range; a target fold out of range is a TypeError whatever the scheme, a valid one changes nothing in a hold-out test, and an unknown scheme ends in a NameError instead of the announced TypeError. With an integer random_state the outcome is the same whenever and in whatever state of the process the run is repeated, times apart, including the exceptions. Running the folds one by one in any order, merging the files and computing statistics gives exactly the statistics of the run over all folds, for score predictors and item finders. The statistics script reports the number of scores, their mean absolute error and histograms, or the area under the curve if both classes occur, and refuses other task types and item finders with scores other than 0 and 1.", "quantifier": "for all options, data files, recommenders, random generators, orders of folds and measures that depend on pairs of scores", "why_tests_cant": "Quantifies over all pairs of process states, over all orders of the folds and all recommenders.", "anchors": ["scripts/exp_recsys_util.py: do_task, cv_test, holdout_test", "scripts/stats_recsys.py: do_task", "scripts/exp_recsys_fold_merge.py: do_task", "kamrecsys/metrics/item_finder.py: item_finder_statistics"]}
{"id": "C98", "title": "What the reported area under the curve measures", "statement": "For true scores of both classes the area under the ROC curve that the item-finder statistics report is the share of pairs of a positive and a negative example that the predictions order well, ties counting one half: it lies in [0, 1], is 1 exactly if all positive examples are above all negative ones, 1/2 for constant predictions, becomes one minus itself when the predictions are negated, does not change under strictly increasing transformations and depends on the pairs of true and predicted score only. For a hold-out experiment of the logistic model it is this share over the pairs of test lines above and not above the middle of the training domain. The area for the predicted probabilities equals the area for the linear scores.", "quantifier": "for all vectors of true scores with both classes and all predictions, all files, optimisers and random generators", "why_tests_cant": "Quantifies over all score vectors, all monotone maps and all experiments.", "anchors": ["kamrecsys/metrics/item_finder.py: item_finder_statistics, item_finder_report", "kamrecsys/utils/kammath.py: safe_sigmoid", "scripts/stats_recsys.py: do_task", "kamrecsys/item_finder/matrix_factorization.py: LogisticPMF.raw_predict"]}
{"id": "C99", "title": "Clipping keeps the sigmoid and the logistic loss numbers in floating point", "statement": "In binary64, safe_sigmoid of any score that is not a NaN, including infinite ones, is a number s with 1e-16 <= s <= 1 - 1e-16, and so is the computed 1 - s, provided scipy's expit is right to within four units in the last place; for finite scores it is within this accuracy of the sigmoid over the reals. Hence, whatever the coefficients, each event's part of the logistic loss is a number in [-64, 0), the data term is a number between 0 and 64 times the number of events in whatever order numpy adds, and the factor common to the gradients is a number that is positive for score 0 and negative for score 1. Without the clipping the part of an event predicted right with a linear score of 60 is a NaN.", "quantifier": "for all binary64 scores, all expit and log functions of the stated accuracy, all orders of summation and all numbers of events up to 2^53", "why_tests_cant": "There are 2^64 arguments and unboundedly many event lists, and the order of summation depends on the machine.", "anchors": ["kamrecsys/utils/kammath.py: safe_sigmoid", "kamrecsys/item_finder/matrix_factorization.py: LogisticPMF.loss, LogisticPMF.grad_loss"]}
{"id": "C100", "title": "Accuracy of the reported errors in floating point", "statement": "For non-empty vectors of finite binary64 scores whose errors do not overflow when added, mean_absolute_error and mean_squared_error return means within ((1+u)^(d+2) - 1), respectively ((1+u)^(d+4) - 1), of the exact mean error, relatively, and a few times 2^-1075 absolutely, where u = 2^-53 and d bounds the additions an entry takes part in; the RMSE is the correctly rounded root of the reported mean. However large the scores are, the means are not negative and never NaN. Exchanging true and predicted scores changes no bit. Equal vectors give exactly 0. Conversely, if 0 is reported, each error is at most n * 2^-1074. Listing the results in another order, or adding in another way, changes the mean by at most twice the accuracy.", "quantifier": "for all vectors of up to 2^53 binary64 scores and all orders of summation", "why_tests_cant": "Quantifies over all vectors of floating point numbers and over every order in which numpy may add.", "anchors": ["kamrecsys/metrics/real.py: mean_absolute_error, mean_squared_error", "kamrecsys/metrics/score_predictor.py: score_predictor_statistics"]}
{"id": "C101", "title": "The reported errors as exact statistics in floating point", "statement": "In binary64 the reported mean absolute error does not depend on the order of the results and is 0 only if all predictions are right, and the reported standard deviation is a number for all finite scores and is 0 if all errors are equal.", "quantifier": "for all vectors of binary64 scores", "why_tests_cant": "Failures need particular roundings, underflow or overflow, which tests with tolerances and ordinary scores do not see.", "anchors": ["kamrecsys/metrics/real.py: mean_absolute_error"]}
{"id": "C102", "title": "When cross validation of the logistic model runs through", "statement": "On a file that load_data accepts and in which some user has two lines, cross validation of the logistic model either runs through or raises ValueError, and it raises only if the training part of some fold, which holds all but a fifth of each user's lines, has all its scores on one side of the middle of the domain. So it runs through, whatever the shuffling, if some user has more lines of low score than are tested of them and some user more lines of high score. On a file with all scores on one side it always raises, as soon as a fold is asked for.", "quantifier": "for all files, domains, numbers of folds, target folds, shufflings, draws and minimisers that keep the length", "why_tests_cant": "Quantifies over every shuffling in every fold; a test sees the shuffling of its seed.", "anchors": ["scripts/exp_recsys_util.py: cv_test, training", "scripts/exp_recsys_if.py: load_data", "kamrecsys/item_finder/matrix_factorization.py: LogisticPMF.fit", "kamrecsys/utils/base.py: is_binary_score"]}
{"id": "C103", "title": "A file with scores on both sides can be cross validated with the logistic model", "statement": "If a file has lines on both sides of the middle of the domain and a user with two lines, cross validation of the logistic model runs through.", "quantifier": "for all files and shufflings", "why_tests_cant": "Whether a given file passes depends on the shuffling, so a passing test with one seed shows nothing.", "anchors": ["scripts/exp_recsys_util.py: cv_test", "kamrecsys/item_finder/base.py: BaseExplicitItemFinder.fit"]}
{"id": "C104", "title": "What the area under the curve of a cross validation measures", "statement": "The area under the curve that the statistics script reports for a cross validation of a binarised file is the share of the pairs of a tested line with a score above the middle of the domain and a tested line with a score not above it, of the same fold or of different ones, in which the first has the larger prediction, ties counting one half; the number of samples is that of all tested lines of all folds.", "quantifier": "for all files, domains, sets of folds and predictions with a tested line of each kind", "why_tests_cant": "Relates the reported number to the lines of the file through splitting, binarising, merging and the library's ROC computation, for all of them.", "anchors": ["scripts/stats_recsys.py: do_task", "kamrecsys/metrics/item_finder.py: item_finder_statistics", "scripts/exp_recsys_util.py: cv_test"]}
{"id": "C105", "title": "The area of a cross validation as mean over its folds", "statement": "The area under the curve reported for a cross validation is the mean of the areas of its folds.", "quantifier": "for all experiments with both kinds of lines tested in each fold", "why_tests_cant": "Holds whenever the folds' predictions have the same scale, as in small tests.", "anchors": ["scripts/stats_recsys.py: do_task"]}
{"id": "C106", "title": "A fifth of the lines is tested, also in binary64", "statement": "The scripts' test_size 0.2, multiplied by a number of lines in binary64 arithmetic, is rounded up to exactly the smallest whole number that is at least a fifth of it, so each fold of a cross validation tests exactly ceil(m/5) of the m lines of each user.", "quantifier": "for all numbers of lines up to 2^52, files, shufflings, folds", "why_tests_cant": "Depends on the rounding of 0.2 * m for every m; an exact product with the binary64 number 0.2 would already give 2 of 5 lines.", "anchors": ["kamrecsys/model_selection/split.py: ShuffleSplitWithinGroups._iter_test_masks", "scripts/exp_recsys_util.py: cv_test"]}
{"id": "C107", "title": "A decimal test_size tests the decimal share", "statement": "For a test_size given as a decimal fraction, the number of tested samples of a group of m is the smallest whole number that is at least the decimal fraction times m.", "quantifier": "for all decimal fractions and group sizes", "why_tests_cant": "The counterexamples are isolated pairs of a fraction and a size.", "anchors": ["kamrecsys/model_selection/split.py: ShuffleSplitWithinGroups._iter_test_masks"]}
{"id": "C108", "title": "The histogram counts the classes of the scores, in binary64", "statement": "Wherever digitize_score accepts a domain, score_histogram does, its bin i counts exactly the numbers that digitize_score puts into class i, the counts add up to the number of samples, and as many scores are listed as bins. For scores that are levels of a decimal domain, bin i counts the scores of level i, the score listed for it is an eighth of a stride from the level at most, and there is at most one further bin, which is empty.", "quantifier": "for all lists of finite binary64 numbers and finite domains; for all decimal domains of moderate size and lists of levels", "why_tests_cant": "Quantifies over all binary64 inputs, whose edges are computed with rounding.", "anchors": ["kamrecsys/metrics/real.py: score_histogram", "kamrecsys/metrics/base.py: generate_score_bins", "kamrecsys/data/event_with_score.py: EventWithScoreData.digitize_score"]}
{"id": "C109", "title": "The scores of the histogram are the levels of the domain", "statement": "For a decimal domain with n + 1 levels score_histogram returns n + 1 counts, and the score listed for each is the level counted in it.", "quantifier": "for all decimal domains", "why_tests_cant": "Holds for integers and halves, which tests use.", "anchors": ["kamrecsys/metrics/real.py: score_histogram", "kamrecsys/metrics/base.py: generate_score_bins"]}
{"id": "C110", "title": "variance_with_gamma_prior is the documented MAP estimate", "statement": "For normally distributed data of known mean with a Gamma prior on the precision, as in the equations the docstring cites, the reciprocal of the returned variance is the precision of maximal posterior density.", "quantifier": "for all data with a finite entry and all a, b > 0", "why_tests_cant": "Compares a density at one point with its values at all positive numbers.", "anchors": ["kamrecsys/metrics/real.py: variance_with_gamma_prior"]}
{"id": "C111", "title": "variance_with_gamma_prior in binary64", "statement": "In binary64 arithmetic the returned variance is never zero or negative as long as b/a is a positive number, and it is close to the exact value.", "quantifier": "for all lists of binary64 numbers with a finite entry", "why_tests_cant": "Quantifies over all binary64 inputs; tests use small numbers, for which cancellation does no harm.", "anchors": ["kamrecsys/metrics/real.py: variance_with_gamma_prior"]}
{"id": "C112", "title": "The objective of every matrix factorization model has a minimum", "statement": "If the weight C of the penalty is positive, some parameter vector has the least loss of all, for the squared, the logistic and the implicit model. At an optimum of the squared loss grad_loss returns zeros, so the predicted training scores add up to the given ones and the biases of users and of items add up to zero.", "quantifier": "for all C > 0, sizes, numbers of factors and training events (scores in [0, 1] for the logistic models)", "why_tests_cant": "A test can compare finitely many parameter vectors; that no vector is better is a statement about all of them.", "anchors": ["kamrecsys/score_predictor/matrix_factorization.py: PMF.loss, PMF.grad_loss", "kamrecsys/item_finder/matrix_factorization.py: LogisticPMF.loss, ImplicitLogisticPMF.loss"]}
{"id": "C113", "title": "There is an optimum for every accepted penalty weight", "statement": "The constructors accept every number C; the loss that fit minimises has a minimum for each.", "quantifier": "for all C, sizes and training events", "why_tests_cant": "Concerns the infimum over all parameter vectors; an optimiser stops somewhere in any case.", "anchors": ["kamrecsys/score_predictor/matrix_factorization.py: PMF.__init__, PMF.loss, PMF.fit", "kamrecsys/item_finder/matrix_factorization.py: LogisticPMF.loss"]}
{"id": "C114", "title": "Matrix factorization models can be fitted to every data set", "statement": "fit of PMF, LogisticPMF and ImplicitLogisticPMF succeeds on every scored user-item data set with at least one event (binary scores for LogisticPMF).", "quantifier": "for all reachable containers, optimisers, random draws, C >= 0 and k", "why_tests_cant": "Test data have several users and items; the failing data are those with exactly one of either.", "anchors": ["kamrecsys/score_predictor/matrix_factorization.py: PMF._init_coef, PMF.fit", "kamrecsys/item_finder/matrix_factorization.py: LogisticPMF._init_coef, ImplicitLogisticPMF._init_coef"]}
{"id": "C115", "title": "The squared loss is the documented objective", "statement": "PMF.loss is, up to a factor, the documented objective: the squared errors divided by the number of events plus lambda times the squared norms, with lambda determined by C.", "quantifier": "for all parameters and training events", "why_tests_cant": "Compares the optima of two objectives over all parameter vectors; on one data set a suitable lambda always exists.", "anchors": ["kamrecsys/score_predictor/matrix_factorization.py: PMF (Notes), PMF.loss"]}
{"id": "C116", "title": "EM rests exactly at the stationary points of the penalised likelihood and gets there", "statement": "An EM iteration leaves parameters inside the simplex unchanged exactly when the penalised likelihood has slope zero in every direction that keeps the sums; every iteration lowers it by at least alpha/4 times the squared distance moved; and for every eps there is an explicitly bounded number of iterations after which no parameter moves by eps or more.", "quantifier": "for every data set, alpha (positive for the last part), topic number, start, iteration and eps", "why_tests_cant": "Directional derivatives in all directions and sequences of all lengths.", "anchors": ["kamrecsys/score_predictor/topic_model.py: MultinomialPLSA.fit, MultinomialPLSA.maximization_step"]}
{"id": "C117", "title": "Fitting the topic model does not make the reported loss worse", "statement": "The final_loss reported by MultinomialPLSA.fit is at most its initial_loss.", "quantifier": "for every data set, alpha, topic number, start, tol and maxiter >= 1", "why_tests_cant": "On ordinary data the loss goes down; the failing data and start must be such that smoothing wins over the likelihood in every one of arbitrarily many iterations.", "anchors": ["kamrecsys/score_predictor/topic_model.py: MultinomialPLSA.fit, MultinomialPLSA.loss"]}
{"id": "C118", "title": "With smoothing, fitting the topic model in binary64 never leaves the numbers", "statement": "With a positive finite alpha, MultinomialPLSA.fit in binary64 arithmetic raises nothing and never produces a NaN or an infinity: after every iteration every parameter is a number between 0 and 1 and the loss one between -512 and 512; parameters are positive unless alpha itself is next to the smallest number; and if alpha is at least 2^-100, every user and item, unknown ones included, gets a positive probability for every level, and the predicted level is one of the largest probability.", "quantifier": "for every data set with fewer than 2^53 smoothed counts, alpha, topic number, draws, tol (NaN included), maxiter and order of summation", "why_tests_cant": "Underflow and division by zero occur only for rare combinations of draws and data after many iterations; the order of summation depends on the machine.", "anchors": ["kamrecsys/score_predictor/topic_model.py: MultinomialPLSA.fit, MultinomialPLSA.maximization_step, MultinomialPLSA.loss, MultinomialPLSA.raw_predict"]}
{"id": "C119", "title": "Without smoothing, fitting the topic model in binary64 does not end in NaN", "statement": "MultinomialPLSA.fit with alpha = 0 and positive draws ends with parameters that are numbers, or with an exception.", "quantifier": "for every data set, topic number, draws, tol and maxiter", "why_tests_cant": "A topic must first get so small that its products underflow.", "anchors": ["kamrecsys/score_predictor/topic_model.py: MultinomialPLSA.fit, MultinomialPLSA.raw_predict"]}
{"id": "C120", "title": "The topic model fitted in binary64 is close to that of exact arithmetic", "statement": "With alpha >= 2^-100, every parameter of MultinomialPLSA after n iterations in binary64 equals that of exact arithmetic up to a factor of (1 + 2^-53)^(16^n (4 D + 5)), D being the number of events or the deepest nesting of a sum; the predicted level is the same unless two levels are as probable up to such a factor.", "quantifier": "for every data set, alpha >= 2^-100, draws, number of iterations, order of summation, user and item (unknown ones included)", "why_tests_cant": "The exact parameters are not available to a test, and rounding errors of all orders of summation cannot be tried.", "anchors": ["kamrecsys/score_predictor/topic_model.py: MultinomialPLSA.fit, MultinomialPLSA.maximization_step, MultinomialPLSA.raw_predict"]}
{"id": "C121", "title": "Predictions of PMF in binary64 are the formula's value up to the rounding of its terms", "statement": "For finite learned coefficients, the score PMF predicts for a pair in binary64 differs from mu + b_u + b_i + p_u . q_i (unknown parts left out) by at most (1 + 2^-53)^(d+3) - 1 times the sum of the absolute values of the terms plus k 2^-1022, d being the depth of the summation, unless that sum overflows; with coefficients bounded by B the error is at most (d+4) 2^-53 (3 B + k (B^2 + 1)).", "quantifier": "for every finite coefficient vector, numbers of users, items and factors, list of pairs (unknown users and items included) and order of summation", "why_tests_cant": "A test compares with another computation in the same arithmetic, for a few vectors and one order of summation.", "anchors": ["kamrecsys/score_predictor/matrix_factorization.py: PMF.fit, PMF.raw_predict"]}
{"id": "C122", "title": "Loss and gradient of PMF in binary64 are close to those of exact arithmetic", "statement": "The loss and every component of the gradient that PMF computes in binary64 differ from the exact ones by at most (1 + 2^-53)^n - 1 times the same quantity with all coefficients, C and scores made to add up (coefficients and C replaced by absolute values, scores by minus their absolute values) plus a multiple of 2^-1022, with n = 3 d + 11 for the loss and n = 2 d + N + 7 for the gradient, N being the number of events and d the depth of summation; the only condition is that these bounds do not overflow.", "quantifier": "for every finite coefficient vector, C, list of events and scores, order of summation and component", "why_tests_cant": "The errors depend on the order of summation and on cancellation; the exact values are not available to a test.", "anchors": ["kamrecsys/score_predictor/matrix_factorization.py: PMF.loss, PMF.grad_loss"]}
{"id": "C123", "title": "Predictions and gradient of LogisticPMF in binary64 are close to those of exact arithmetic", "statement": "Whenever the computed score is not NaN, the prediction of the logistic models in binary64 is a number between 1e-16 and 1 - 1e-16; it differs from the clipped sigmoid of the exact score by at most 2^-50 plus a quarter of the error of the score. Every component of the gradient differs from the exact one by at most (1 + 2^-53)^(2 d + N + 15) - 1 times a bound in absolute values.", "quantifier": "for every finite coefficient vector, C, labels between 0 and 1, pairs and events, order of summation, and expit accurate to 2^-50", "why_tests_cant": "Accuracy of a library function and all orders of summation are quantified over; clipping and overflow need extreme scores.", "anchors": ["kamrecsys/item_finder/matrix_factorization.py: LogisticPMF.raw_predict, LogisticPMF.grad_loss, ImplicitLogisticPMF.raw_predict", "kamrecsys/utils/kammath.py: safe_sigmoid"]}
{"id": "C124", "title": "The logistic loss is equally accurate for both labels", "statement": "The loss of one event computed in binary64 is as close to the exact cross entropy for label 0 as it is for label 1, with accurate expit and log.", "quantifier": "for every score, and every expit and log accurate to 2^-50", "why_tests_cant": "The loss of accuracy shows only for scores near the clipping bound and against exact values.", "anchors": ["kamrecsys/item_finder/matrix_factorization.py: LogisticPMF.loss"]}
{"id": "C125", "title": "Malformed or missing scores of a file become NaN and change nothing else", "statement": "With a given score domain, load_event_with_score reads a file in which some score fields are empty or no numbers exactly like the same file without its scores: same events, objects and event features, the same refusals; the score array holds NaN exactly where the field is no number and its value elsewhere.", "quantifier": "for every file with comments and blank lines, number of object types, event types, event features, domain, int and float conversion and numpy version", "why_tests_cant": "The sample files have no such fields; a test shows single files.", "anchors": ["kamrecsys/datasets/base.py: load_event_with_score"]}
{"id": "C126", "title": "Estimating the score domain refuses NaN and infinite scores", "statement": "set_event without a score domain raises ValueError if some score is NaN, and raises if some score is infinite, whatever the other scores.", "quantifier": "for every container, events and scores in binary64, and for both behaviours of np.unique on NaN", "why_tests_cant": "Position and number of the NaNs, all other scores and the numpy version are arbitrary.", "anchors": ["kamrecsys/data/event_with_score.py: set_event"]}
{"id": "C127", "title": "NaN and infinite scores are outside all score classes, and the topic model refuses them", "statement": "digitize_score gives a NaN and an infinite score the number of classes, which is no class and no row of n_score_levels rows; every other score, also minus infinity, gets a class. MultinomialPLSA.fit then raises IndexError before any parameter is estimated. On all scores but NaN this is the binary64 function of C78.", "quantifier": "for every score domain and list of scores in binary64, number of topics and draws", "why_tests_cant": "Tests digitise the levels themselves; n_score_levels and the bins are rounded independently.", "anchors": ["kamrecsys/data/event_with_score.py: digitize_score", "kamrecsys/score_predictor/topic_model.py: MultinomialPLSA._init_params"]}
{"id": "C128", "title": "binarize_score makes positive only what lies above the threshold", "statement": "After binarize_score a score is 1 only if the original score is greater than the threshold, and 0 if it is at most the threshold.", "quantifier": "for every container with binary64 scores, given or default threshold", "why_tests_cant": "NaN scores come only from malformed files.", "anchors": ["kamrecsys/data/event_with_score.py: binarize_score"]}
{"id": "C129", "title": "One NaN score makes the loss of PMF NaN everywhere", "statement": "If one score of the training data is NaN, PMF.loss is NaN for every coefficient vector, and the component of grad_loss for the global bias is NaN.", "quantifier": "for every coefficient vector, regularisation, events, other scores and order of summation", "why_tests_cant": "All coefficient vectors and orders of summation are quantified over.", "anchors": ["kamrecsys/score_predictor/matrix_factorization.py: PMF.loss, PMF.grad_loss"]}
{"id": "C130", "title": "Recording every event m times and multiplying the smoothing by m leaves the topic model unchanged", "statement": "MultinomialPLSA fitted to m copies of the events, in any order, each with the initial responsibilities of its original, and with m times the smoothing alpha has the same parameters, initial and final losses, number of iterations, status and message as fitted to the events once; it raises exactly when the original does. Without smoothing only the proportions of the events matter.", "quantifier": "for every number of copies, events, responsibilities, smoothing, tolerance and iteration limit", "why_tests_cant": "Equality of whole runs for all data and all numbers of copies; in floating point a test could only compare approximately.", "anchors": ["kamrecsys/score_predictor/topic_model.py: MultinomialPLSA.fit, maximization_step, loss"]}
{"id": "C131", "title": "Writing into an array after passing it does not change a container or a recommender", "statement": "A program in which a caller passes arrays to set_event and fit and writes into them later behaves like the program that passes their values.", "quantifier": "for every program of constructor, set_event, set_feature, binarize_score, filter_event and fit calls on any number of containers, interleaved with arbitrary writes into the caller's arrays", "why_tests_cant": "All interleavings of calls and writes; the tests pass literals.", "anchors": ["kamrecsys/data/event_with_score.py: EventWithScoreData.set_event", "kamrecsys/base/base.py: BaseEventRecommender.fit"]}
{"id": "C132", "title": "The gradient of the implicit-feedback model in double precision is close to the exact one", "statement": "ImplicitLogisticPMF.grad_loss in binary64, accumulating over the users, gives numbers, and every entry differs from the entry of the gradient in exact arithmetic by at most (1 + 2^-53)^(2 d + users + 15) - 1 times the same gradient formula on absolute values, d being the depth of numpy's summation trees: the number of items enters through d only.", "quantifier": "for all coefficients, sizes, matrices of event counts up to 2^53, penalties, orders of summation that may differ from call to call, and expit functions accurate to 2^-50", "why_tests_cant": "Rounding errors over all coefficients, sizes and orders of summation; tests compare a few values to a tolerance.", "anchors": ["kamrecsys/item_finder/matrix_factorization.py: ImplicitLogisticPMF.grad_loss"]}
{"id": "C133", "title": "How accurate the cross-entropy loss is in double precision", "statement": "With expit and log accurate to 2^-50, the loss of one event computed by LogisticPMF.loss is within 2^-43 of the exact one for label 1, and within 2^-43 + 9 * 2^-50 / (1 - sigmoid(score)) for label 0. The loss of a whole set of events (LogisticPMF.loss) or of the whole matrix of counts (ImplicitLogisticPMF.loss) is a number, and differs from the loss in exact arithmetic by at most the rounding of the scores, 2^-43 per event, 27 * 2^-50 times the sum of 1 / (1 - sigmoid(score)) over the events of label 0, and (1 + 2^-53)^n - 1 times the size of the loss and the penalty.", "quantifier": "for all coefficients, sizes, events with labels 0 and 1 or matrices of counts up to 2^53, penalties, orders of summation, and expit and log functions accurate to 2^-50", "why_tests_cant": "Rounding errors over all coefficients and orders of summation; the events that lose digits are those of label 0 with a large score, which a test with a tolerance would need to hit.", "anchors": ["kamrecsys/item_finder/matrix_factorization.py: LogisticPMF.loss, ImplicitLogisticPMF.loss", "kamrecsys/utils/kammath.py: safe_sigmoid"]}
{"id": "C134", "title": "Two runs of PMF without latent factors end close to each other", "statement": "With k = 0 and C > 0, wherever two optimisation runs on the same events stop, if the gradients there are at most e and e' in every coordinate, then the squared differences of their predictions for the training events plus C times the squared differences of their user and item biases are at most (e + e')^2 * (1 + 2 (users + items + 2) / C), and no prediction, unknown users and items included, differs by more than (e + e') times the square root of that factor times 1 + 3 / sqrt(C). More generally, between two points with the same user factors (or the same item factors) the gradient is monotone.", "quantifier": "for all events, scores, numbers of users and items, penalties C > 0, stopping points and queries", "why_tests_cant": "Relates every pair of stopping points of every optimiser and seed; a test compares a few runs.", "anchors": ["kamrecsys/score_predictor/matrix_factorization.py: PMF.loss, PMF.grad_loss, PMF.fit, PMF.raw_predict"]}
{"id": "C135", "title": "When latent factors lower the loss of PMF at all", "statement": "Let c be a point where the gradient of PMF vanishes. If for all weights x of the users and z of the items the residuals satisfy sum_n (s_n - y_n) x(u_n) z(i_n) <= C/2 (sum x^2 + sum z^2), then no model with any number of latent factors has a smaller loss, and every model with the same loss makes the same predictions for the training events. If not, one more factor makes the loss smaller. The condition holds if the absolute residuals of every user and of every item add up to at most C; it fails if the residuals of some pair of a user and an item add up to more than C in absolute value. A model can be padded with zero factors without changing its loss or any prediction, and stays stationary.", "quantifier": "for all events, scores, numbers of users, items and factors, penalties C >= 0 and coefficients", "why_tests_cant": "A statement about global minima over all coefficients and all numbers of factors; a test sees where single runs of an optimiser stop.", "anchors": ["kamrecsys/score_predictor/matrix_factorization.py: PMF.loss, PMF.grad_loss, PMF.raw_predict"]}
{"id": "C136", "title": "What the penalty weight and the number of factors do to the optimum", "statement": "Between two optima of the same matrix factorization model on the same data for penalty weights C1 < C2, the one for C2 fits the training data no better (loss without penalty), has a sum of squared biases and factors that is no larger, and a total loss that is no smaller; this holds for PMF, LogisticPMF and ImplicitLogisticPMF. The smallest loss of PMF and LogisticPMF does not grow with the number of factors. Every prediction of PMF, unknown users and items included, is within 4 sqrt(l0 / C) + 2 l0 / C of the mean score, where l0 is any bound on the loss reached, if the residuals add up to zero.", "quantifier": "for all data sets, sizes, numbers of factors, penalty weights and optima, however found", "why_tests_cant": "Compares global optima over all real coefficients and all C; a test compares a few runs of an optimiser.", "anchors": ["kamrecsys/score_predictor/matrix_factorization.py: PMF.loss, PMF.grad_loss", "kamrecsys/item_finder/matrix_factorization.py: LogisticPMF.loss, ImplicitLogisticPMF.loss"]}
{"id": "C137", "title": "How much one event can change the predictions of PMF without factors", "statement": "With k = 0 and C > 0, let one model be fitted to a set of events and another one to the same events and one more. No prediction, for known or unknown users and items, differs by more than (|r| + e + e') sqrt(1 + 2 (users + items + 2) / C) (1 + 3 / sqrt(C)), where r is the residual of the additional event in the second model and e, e' are the largest coordinates of the gradients at which the two runs stopped.", "quantifier": "for all data sets, additional events, penalty weights C > 0, stopping points and queries", "why_tests_cant": "A statement about the influence of any event on any data set and all predictions.", "anchors": ["kamrecsys/score_predictor/matrix_factorization.py: PMF.loss, PMF.grad_loss, PMF.raw_predict"]}
{"id": "C138", "title": "How close the reported standard deviations in binary64 are to exact arithmetic", "statement": "mean_absolute_error and mean_squared_error report, in binary64 and however numpy orders its additions, a standard deviation that is a number >= 0 and differs from the exact standard deviation of the exact errors by at most ((1 + 2^-53)^(2 d + 7) - 1) times the root mean square of the errors plus (1 + 2^-53)^(d + 5) 2^-536 ((2 d + 9), (2 d + 6) and 2^-535 for the squared errors), where d bounds the additions an entry goes through and the sums of squares are far from overflow. Up to a million errors below 2^400, added one by one, give at most (2 n + 8) 2^-53 times the root mean square plus 2^-535.", "quantifier": "for all finite scores and predictions, up to 2^53 events and all orders of addition", "why_tests_cant": "All floats, lengths and summation orders; a test compares a few arrays with another rounded computation.", "anchors": ["kamrecsys/metrics/real.py: mean_absolute_error, mean_squared_error"]}
{"id": "C139", "title": "How close variance_with_gamma_prior in binary64 is to exact arithmetic", "statement": "For a, b > 0 the variance returned in binary64, however numpy orders its additions, differs from the exact (2 b + sum of squared deviations) / (2 a + n) by at most err = ((1 + 2^-53)^(2 d + 6) - 1) (2 (b + sum of squares) + (n + 1) 2^-1022) / (2 a + n) + 2^-1075, or b / a is returned and the exact variance is at most err. If the exact variance without prior term exceeds err, the first case applies. Non-finite entries are left out and the number of the others is returned.", "quantifier": "for all arrays of binary64 numbers with a finite entry, priors a, b > 0 and orders of addition, if the sums are far from overflow", "why_tests_cant": "All floats, lengths and orders; the formula cancels, and how far off it can be is not visible in single runs.", "anchors": ["kamrecsys/metrics/real.py: variance_with_gamma_prior"]}
{"id": "C140", "title": "A command line sets exactly the options it names, in any spelling and order", "statement": "A command line made of well-formed options and at most as many positional arguments as there are, in one block, is accepted. Each option may be written in full, by its short name, by an unambiguous abbreviation, with its argument apart, glued on or after '='. The last option for a destination wins, positional arguments go to their destinations in order, everything else keeps its default, and the files opened are the ones named, in that order. Options for different destinations can be written in any order with the same result. Parsing always ends. exp_recsys_fold_merge.py gets all its input files in order.", "quantifier": "for all command lines, conversions of texts to numbers and file systems, for the parsers of the four scripts", "why_tests_cant": "Unboundedly many command lines; spellings, abbreviations and orders combine.", "anchors": ["scripts/exp_recsys_sp.py: command_line_parser (175-257)", "scripts/exp_recsys_if.py: command_line_parser (180-262)", "scripts/stats_recsys.py: command_line_parser (161-200)", "scripts/exp_recsys_fold_merge.py: command_line_parser (205-222)"]}
{"id": "C141", "title": "Command lines that are refused", "statement": "After a well-formed beginning: two flags that exclude each other, or an option without enough arguments (a negative number with an exponent counts as an option and so is not one), end the script with status 2 whatever follows; an argument that cannot be read ends it with status 2, and help and version with status 0, when only well-formed options follow, and then exactly the files named before have been opened. A name that abbreviates several options ends the script with status 2 wherever it stands before a '--', and nothing has been opened.", "quantifier": "for all command lines with such a part, all conversions and file systems", "why_tests_cant": "All positions in the command line and all continuations.", "anchors": ["scripts/exp_recsys_sp.py: command_line_parser (175-257)", "scripts/exp_recsys_if.py: command_line_parser (180-262)", "scripts/stats_recsys.py: command_line_parser (161-200)", "scripts/exp_recsys_fold_merge.py: command_line_parser (205-222)"]}
{"id": "C142", "title": "INFILE and OUTFILE on the command line name the input and the output", "statement": "The two positional arguments name the file read and the file written, wherever they stand, and each can be replaced by its option. (Refuted: with an option between them the line is refused with status 2, and after '-i a' a single positional argument b is opened as a second input while the results go to standard output. Proved: in one block and without -i or -o they are as expected; with both options they are opened and ignored.)", "quantifier": "for all command lines of exp_recsys_sp.py, exp_recsys_if.py and stats_recsys.py", "why_tests_cant": "All placements of options around the positional arguments.", "anchors": ["scripts/exp_recsys_sp.py: command_line_parser (175-257)", "scripts/exp_recsys_if.py: command_line_parser (180-262)", "scripts/stats_recsys.py: command_line_parser (161-200)"]}
{"id": "C143", "title": "The experiment that is run is the one the command line describes", "statement": "For a well-formed command line, main runs do_task with the training, test and output file, the model class and its constructor arguments (C, k, tol, alpha, maxiter, random_state), score domain, timestamp flag, scheme, number of folds and target fold that the line gives, by their last mention, and defaults for the rest; the global seed is the same --rseed. Every well-formed line gives a value of the right kind for each of these.", "quantifier": "for all well-formed command lines of both experiment scripts, data, models and random states", "why_tests_cant": "All combinations of options, their orders and repetitions.", "anchors": ["scripts/exp_recsys_sp.py: init_info, main (260-337)", "scripts/exp_recsys_if.py: init_info, main (265-321)", "scripts/exp_recsys_util.py: do_task (278-332)"]}
{"id": "C144", "title": "A run that is refused or fails leaves the output file alone", "statement": "If a script ends with an error, the file named as output is as it was. (Refuted: the output file is emptied while the command line is read, so a mistake further on in the line, -h, or an error in the experiment leaves an empty file; the default scheme holdout without -t always ends in this way, since the missing test file is found out only after the training data have been loaded; stats_recsys.py writing to the file it reads has emptied it before reading.)", "quantifier": "for all command lines and file systems", "why_tests_cant": "All command lines and all points of failure.", "anchors": ["scripts/exp_recsys_sp.py: command_line_parser (175-257)", "scripts/exp_recsys_if.py: command_line_parser (180-262)", "scripts/stats_recsys.py: command_line_parser (161-200)", "scripts/exp_recsys_util.py: holdout_test (150-203)"]}
{"id": "C145", "title": "The documented options of the experiment scripts do what the documentation says", "statement": "Every command line made of the options listed in the module docstrings of exp_recsys_sp.py and exp_recsys_if.py, under their long or short names, runs the experiment that results from the documented defaults by letting each option, from left to right, change the one setting it is documented to change and nothing else; the files opened are those named, in that order. -q changes no setting. Only --timestamp and --no-timestamp do not go together.", "quantifier": "for all such command lines of any length, all arguments that can be read, data, models and random states", "why_tests_cant": "All sequences of options with all arguments.", "anchors": ["scripts/exp_recsys_sp.py: docstring (30-80), command_line_parser, init_info, main (175-337)", "scripts/exp_recsys_if.py: docstring (34-83), command_line_parser, init_info, main (180-321)"]}
{"id": "C146", "title": "The result file of one script is read by the next as it was written", "statement": "What an experiment script collects and writes with json.dumps is a plain ASCII file which json.load turns back into the same tree, objects replaced by their text and keys that are numbers by their digits; written again, the file is the same letter by letter; without NaN and infinities it is JSON by RFC 8259. The scripts that merge and evaluate results read it this way.", "quantifier": "for all trees of any depth, texts in Unicode, integers of any size and floats whose shortest representation is read back, and all Python versions", "why_tests_cant": "All trees, all texts including control characters and characters beyond the basic plane, and all numbers; the parser has to be right for what follows each value.", "anchors": ["scripts/exp_recsys_util.py: finalize_info, do_task (json.dumps, 330)", "scripts/exp_recsys_fold_merge.py: json.load 93, 124, json.dumps 176", "scripts/stats_recsys.py: json.load 105, json.dumps 131", "kamrecsys/utils/kamexputils.py: json_decodable (23-100)"]}
{"id": "C147", "title": "Merging one-fold result files gives the result file of the whole cross validation", "statement": "exp_recsys_fold_merge.py writes a file in which every place kept fold by fold (training and test results, predictions, event features) has the folds of all files in the order of the files, each as in its own file, the environment of each run under its fold, and everything else as in the first file. It succeeds whenever the first file has the usual sections and the others have what is to be copied.", "quantifier": "for all numbers of files, all trees in them including entries the scripts do not know, all fold names, and all texts json.dumps can write", "why_tests_cant": "Any number of files and folds and any further content of the files; a frame condition says of infinitely many places that they stay.", "anchors": ["scripts/exp_recsys_fold_merge.py: first_fold 77-108, rest_fold 111-145, do_task 148-178"]}
{"id": "C148", "title": "Evaluating a result file adds the statistics of all folds and changes nothing else", "statement": "stats_recsys.py adds under 'statistics' what the metric functions give for the true and predicted values of all folds one after the other (or of the one test set), for the task and score domain noted in the file; without the option to keep data it removes the predictions; everything else stays. A merged file and the file of the complete cross validation with the same folds in the same order get the same statistics.", "quantifier": "for all result files, numbers of folds, metric functions and texts json.dumps can write", "why_tests_cant": "All trees and all folds; equality of statistics for every way of splitting the folds over files.", "anchors": ["scripts/stats_recsys.py: do_task 91-138", "scripts/exp_recsys_fold_merge.py: first_fold, rest_fold, do_task"]}
{"id": "C149", "title": "Running the folds separately, merging the files and evaluating gives the statistics of the complete cross validation", "statement": "If the complete cross validation runs, then with the same seed each one-fold run succeeds, whatever the clocks, hosts and states before; its file has under prediction the events, true scores, predictions and test indices of its fold; exp_recsys_fold_merge.py merges these files; the merged file has the same predictions and event features as the file of the complete run; and stats_recsys.py finds the same statistics (or fails in the same way) in both.", "quantifier": "for all data, numbers of folds, seeds, recommenders whose fitting depends on the world only through the random state, info dictionaries, metric functions, and states and times of the separate runs", "why_tests_cant": "Any number of folds and any recommender; the equality spans four scripts and the text of their files.", "anchors": ["scripts/exp_recsys_util.py: cv_test 206-275, do_task 278-332", "scripts/exp_recsys_fold_merge.py: do_task 148-178", "scripts/stats_recsys.py: do_task 91-138"]}
{"id": "C150", "title": "Fitting the topic model in binary64 makes exactly the EM iterations until the loss settles", "statement": "Whatever the numbers, if fit returns then there is a chain of parameters that starts with the M-step on the initial responsibilities; each next one is the M-step of the E-step of the one before; the chain has n_iterations_ steps, between 1 and maxiter; the loss changed by at least tol relative to the new loss at every step but the last; at the last it changed by less, unless maxiter is reached; the returned parameters and final loss are those of the end of the chain, the initial loss that of its start, and fit_status is 2 exactly when maxiter iterations were made.", "quantifier": "for all events, scores, numbers of topics, initial responsibilities, tolerances, alpha, summation orders and logarithm functions, NaN and infinities included, and maxiter at least 1", "why_tests_cant": "Any number of iterations and any binary64 values; a discarded step leaves plausible parameters that no assertion on the result notices.", "anchors": ["kamrecsys/score_predictor/topic_model.py: fit 249-302"]}
{"id": "C151", "title": "The statistics file has the statistics of all tested events", "statement": "The file that stats_recsys.py writes has under statistics, for the concatenated true and predicted scores: the number of samples; mean and standard deviation of the absolute and of the squared errors and the root of the mean squared error; mean, standard deviation, histogram and histogram density of both lists; the score levels from the lower bound in steps of the stride to the upper bound; for an item finder the means, standard deviations and, exactly if both scores occur, the area under the curve. After a cross validation, complete or run fold by fold and merged, these are over one pair for each test of an event. A fold with a single tested event makes the script fail with ValueError.", "quantifier": "for all result files, numbers and sizes of folds, score domains with positive stride, recommenders and AUC functions", "why_tests_cant": "Any files and any number of folds; the statement spans the experiment, merging and statistics scripts.", "anchors": ["scripts/stats_recsys.py: do_task 91-138", "kamrecsys/metrics/score_predictor.py: score_predictor_statistics 104-170", "kamrecsys/metrics/item_finder.py: item_finder_statistics 107-157"]}
{"id": "C152", "title": "Estimated score domains and the default threshold in binary64", "statement": "set_event without a score domain, on finite scores of which two differ, stores the least score, the greatest score and the least of the rounded differences of two different scores; the stride is positive, and a stored number of levels is at least 2. If no two scores differ it raises ValueError and leaves the new scores with the old domain. With a NaN and a number among the scores it raises ValueError and leaves a domain of three NaNs. The default threshold of binarize_score is between minimum and maximum and within rounding of their mean, so the least score becomes 0, and the greatest becomes 1 unless the scores lie within a few roundings of each other.", "quantifier": "for all lists of binary64 scores, in any order, and all domains whose difference does not overflow", "why_tests_cant": "Rounded differences, subnormal strides and thresholds that round to a bound occur for few scores.", "anchors": ["kamrecsys/data/event_with_score.py: set_event 148-158", "kamrecsys/data/event_with_score.py: binarize_score 199-206"]}
{"id": "C153", "title": "Hold-out result files: contents, statistics, merging", "statement": "The file of a hold-out test gives the numbers of events, users and items of both data sets, one fold, the tested pairs in the order of the test file, their scores and the predictions, each list as long as the test file; as name of the test file it gives the training file. With two or more test lines the statistics are those of comparing, line by line, the scores of the test file with what the recommender fitted to the training file predicts, in the score domain in force for the training file; for item finders the scores are 0 and 1, split at the middle of that domain. With one test line the prediction is written as a number, and stats_recsys.py raises TypeError. exp_recsys_fold_merge.py accepts a single hold-out file, keeping its predictions, and raises TypeError for two or more.", "quantifier": "for all training and test files, conditions, recommenders that predict row by row, clocks and contents of info, and all numbers of merged files", "why_tests_cant": "Which file, domain and order an entry comes from shows only when runs over all pairs of files are compared.", "anchors": ["scripts/exp_recsys_util.py: holdout_test 150-203, do_task 278-332", "scripts/stats_recsys.py: do_task 91-138", "scripts/exp_recsys_fold_merge.py: first_fold, rest_fold, do_task"]}
{"id": "C154", "title": "What a result file says about its experiment", "statement": "The dictionary that init_info, do_task and load_data fill in has all sections that the tests need, whenever the system information can be had. The file of a finished experiment contains the method's name, exactly the model options given on the command line (the regularisation parameter of the chosen method, number of factors, tolerance, maxiter only if given, seed, and for topic models the prediction rule), the class and task type, the score domain in force, scheme, number of folds, time-stamp flag, training file and output file. Hence equal files come from experiments with the same method, options, seed, scheme, flags, training file name and domain. And for a hold-out run of the score-prediction script the statistics of the file are those of comparing the scores of the test file with the predictions of the recommender with these options, fitted to the training file. A missing seed is written as the text 'None', and the test file's name is that of the training file.", "quantifier": "for all options, methods, files, machines, clocks and fitting and prediction functions", "why_tests_cant": "The claim is about every combination of options and every outcome, and the last part joins parsing-level options, loading, fitting, the written tree and the evaluation script.", "anchors": ["scripts/exp_recsys_sp.py: init_info 260-321", "scripts/exp_recsys_if.py: init_info 265-308", "scripts/exp_recsys_util.py: do_task 278-332", "scripts/exp_recsys_util.py: holdout_test 150-203"]}
{"id": "C155", "title": "System information", "statement": "get_system_info returns the names of the system and, as hardware, a list of lines without line ends: on Linux and FreeBSD joined by line ends they are the output of the program asked; on macOS they are the lines but the first four and last two, without leading spaces; on any other system the list is empty. The host name is present exactly when asked for. Making the result JSON-decodable leaves it unchanged.", "quantifier": "for all machines, program outputs and both values of output_node_info", "why_tests_cant": "A test runs on one system with one output; the claim covers all outputs (no final line end, empty, fewer than six lines) and all systems.", "anchors": ["kamrecsys/utils/kamexputils.py: get_system_info 103-155", "kamrecsys/utils/kamexputils.py: get_version_info 158-180"]}
{"id": "C156", "title": "Cross validation from the command line to the statistics, in one run or fold by fold", "statement": "If the score-prediction script, called with a command line that asks for cross validation with a seed and no fold number, finishes, then for every fold j the same command line followed by '-o name -n j' finishes too, whenever it is run, and opens in addition only that output file for writing; exp_recsys_fold_merge.py accepts the files of all folds; and stats_recsys.py gives for the merged file and for the file of the complete run the same statistics: those of comparing, over all tests of all folds, the scores of the tested lines with the predictions of the recommender that has the options given and was fitted to the other lines. If the file has two users, every fold tests two lines or more, so that the exception for folds with one tested event cannot occur.", "quantifier": "for all command lines with the options in any order and spelling, files with lines of two users or more, numbers of folds, clocks, and fitting and prediction functions that depend on the random generator only through its state", "why_tests_cant": "It joins the option parser, loading, splitting, fitting, the written trees, merging and evaluation, for every command line and every order of runs.", "anchors": ["scripts/exp_recsys_sp.py: command_line_parser 175-257", "scripts/exp_recsys_sp.py: init_info 260-321", "scripts/exp_recsys_util.py: cv_test 206-275", "scripts/exp_recsys_util.py: do_task 278-332", "scripts/exp_recsys_fold_merge.py: do_task 148-187", "scripts/stats_recsys.py: do_task 91-138"]}
{"id": "C157", "title": "Item finders from the options to the statistics: cross validation and hold-out test", "statement": "The item-finding script differs from the score-prediction script in that scores are split at the middle of the score domain. If it is called for cross validation with a seed and finishes, then every fold can be run on its own by adding '-o name -n j' to the command line, the files of the folds can be merged, and the merged file and the file of the complete run have the same statistics. These compare, over all tests of all folds, the predictions with 1 where the score of the tested line in the input file is above the middle of the domain, and with 0 elsewhere; the domain is the one used for splitting all lines. If it is called for a hold-out test with two test lines or more and finishes, the statistics compare the predictions for the test lines with the test scores split at the middle of the domain taken from the options or, where missing, the training scores. The area under the curve is written exactly if both 0 and 1 occur.", "quantifier": "for all command lines, input files, numbers of folds, clocks, and fitting and prediction functions that depend on the random generator only through its state", "why_tests_cant": "It joins the option parser, loading, binarisation, splitting, fitting, the written trees, merging and evaluation for every input.", "anchors": ["scripts/exp_recsys_if.py: load_data 134-168", "scripts/exp_recsys_if.py: init_info 265-308", "scripts/exp_recsys_util.py: cv_test 206-275", "scripts/exp_recsys_util.py: holdout_test 150-203", "scripts/exp_recsys_util.py: do_task 278-332", "scripts/exp_recsys_fold_merge.py: do_task 148-187", "scripts/stats_recsys.py: do_task 91-138"]}
{"id": "C158", "title": "From a cross validation to the text of the statistics file", "statement": "Let an experiment script, for score prediction or item finding, finish a cross validation with a seed. Under a Python before 3.9, its result can be written as a JSON text, every fold can be run on its own, by adding '-o name -n j' to the command line, and written as a text, and the merging script reads the texts of the folds and writes a text. The statistics script reads either text, the one of the complete run or the merged one, and writes a printable text. Reading that text gives the statistics of all tests of all folds, with every number as it was computed: for score prediction they compare the predictions with the scores of the tested lines of the input file in the domain of the run, and for item finding with 1 where that score is above the middle of the domain and 0 elsewhere.", "quantifier": "for all command lines, models, options, input files, numbers of folds, clocks, and fitting and prediction functions that depend on the random generator only through its state; for all unicode texts in the system information and all ways of writing floats that read back the same", "why_tests_cant": "It joins loading, splitting, fitting, the trees, the JSON writer and reader, merging and evaluation for every input and every machine.", "anchors": ["scripts/exp_recsys_util.py: cv_test 206-275", "scripts/exp_recsys_util.py: do_task 278-332", "scripts/exp_recsys_fold_merge.py: do_task 148-187", "scripts/stats_recsys.py: do_task 91-138", "kamrecsys/utils/kamexputils.py: json_decodable 49-100", "kamrecsys/utils/kamexputils.py: get_system_info 103-155"]}
{"id": "C159", "title": "From a hold-out test to the text of the statistics file", "statement": "Let an experiment script, for score prediction or item finding, finish a hold-out test with two test lines or more. Under a Python before 3.9, its result can be written as a JSON text, and the statistics script reads that text and writes a printable text. Reading the latter gives the statistics of the test, with every number as it was computed: for score prediction they compare the predictions for the lines of the test file with their scores in the domain of the run; for item finding with 1 where the score is above the middle of the domain, taken from the options or, where missing, the training scores, and with 0 elsewhere. The predictions are those of the model fitted to the training file.", "quantifier": "for all command lines, models, options, training and test files, clocks, fitting and prediction functions; for all unicode texts in the system information and all ways of writing floats that read back the same", "why_tests_cant": "It joins loading, fitting, the tree, the JSON writer and reader and evaluation for every input and every machine.", "anchors": ["scripts/exp_recsys_util.py: holdout_test 150-203", "scripts/exp_recsys_util.py: do_task 278-332", "scripts/stats_recsys.py: do_task 91-138", "kamrecsys/utils/kamexputils.py: json_decodable 49-100", "kamrecsys/utils/kamexputils.py: get_system_info 103-155"]}
