"""Generates /verif/properties.jsonl from the table below."""
import json
P = []
def p(title, statement, quantifier, why, anchors):
  P.append(dict(id='C%02d' % (len(P) + 1), title=title, statement=statement,
                quantifier=quantifier, why_tests_cant=why, anchors=anchors))
R = 'src/waymo_open_dataset/'

# --- compression -----------------------------------------------------------
p('Delta codec round trip',
  'Decompressing the metadata-plus-payload produced by compressing a range image (after quantisation) returns exactly the quantised image, channel by channel, pixel by pixel, for every shape.',
  'every height, width, channel count and every pixel content',
  'Tests try a handful of shapes; the codec has data dependent branches (first mask bit, runs, zero pixels, channel transposition) for which only an all-inputs proof excludes a corrupting image.',
  [R+'utils/compression/delta_encoder.py: compress, decompress, _compute_mask, _compute_residual, _rlencode, _rldecode, _compute_metadata'])
p('Run length coding round trip',
  'Run-length decoding the run-length encoding of any nonempty 0/1 mask gives the mask back, every run after the first is positive, and the run lengths sum to the mask length.',
  'every nonempty 0/1 sequence of any length',
  'Masks are exponentially many; boundary handling at the first element and last run cannot be enumerated.',
  [R+'utils/compression/delta_encoder.py: _rlencode, _rldecode'])
p('Delta codec quantisation error and idempotence',
  'For positive precision p, every value decoded from a compressed image is within p/2 of the original value, and compressing an already quantised image loses nothing.',
  'every rational pixel value and positive precision',
  'A worst-case error bound over a continuum of values is not a testable statement.',
  [R+'utils/compression/delta_encoder.py: compress, decompress'])
p('Tile extraction and combination are inverse',
  'Cutting an image into tiles and combining the tiles restores the image exactly for every image size whose padding is admissible, and the number and size of tiles is exactly as documented.',
  'every image height, width, depth, tile size',
  'Padding and cropping off-by-ones depend on the residue of the image size modulo the tile size.',
  [R+'utils/compression/tiling.py: extract_tiles, combine_tiles'])
# --- matching --------------------------------------------------------------
p('Hungarian matching is a maximum weight assignment',
  'For every square matrix of non-negative integer weights the matching algorithm terminates without failing an internal check and returns a permutation whose total weight is at least that of every other permutation.',
  'every n and every n by n matrix of non-negative integers',
  'Optimality quantifies over n! assignments and termination over an unbounded search.',
  [R+'metrics/hungarian.cc: Hungarian, ImproveFeasibleLabeling, AugmentMatching, AddNeighbours, PickY'])
p('Hungarian matcher output is a valid one-to-one matching',
  'Matches reported by the Hungarian matcher are mutually inverse partial injections between predictions and ground truths, contain only pairs whose IoU reaches the type threshold, and have maximum total quantised IoU among all such one-to-one matchings.',
  'every prediction and ground truth set, every subset selection, every IoU function, every threshold',
  'Requires all partial matchings of all inputs to be compared.',
  [R+'metrics/matcher.cc: HungarianMatcher::Match, Matcher::CanMatch, Matcher::MatchingWeight'])
p('Score-first matcher output is a valid one-to-one matching',
  'The score-first matcher returns mutually inverse partial injections containing only pairs whose IoU reaches the threshold, and a prediction stays unmatched only if every ground truth it could match is taken; with non-trivial subsets the selected ground truth is however not the one with the largest IoU because subset indices are used where global ones are expected.',
  'every prediction and ground truth set, subset selection, IoU function, threshold',
  'The defect is only visible for subset selections that are not initial segments, and the validity claim is about all inputs.',
  [R+'metrics/matcher.cc: ScoreFirstMatcher::Match'])
# --- tracking --------------------------------------------------------------
p('MOT correspondence map stays one-to-one',
  'After any sequence of frames with unique ids per frame, the tracker evaluation keeps a one-to-one ground-truth-to-prediction correspondence, never triggers its internal fatal checks, and only ever records pairs that were matchable in the frame that recorded them.',
  'every frame sequence, every matcher outcome consistent with its contract',
  'An invariant over unbounded histories.',
  [R+'metrics/mot.cc: Eval, InitializeNewMapping, Match'])
p('MOT accounting identity',
  'For every frame, the ground truth objects of the evaluated difficulty are partitioned into matches and misses, and the unmatched predictions into false positives and ignored ones, so the reported counters add up.',
  'every frame and history',
  'Counters are accumulated across branches over unbounded histories; tests sample a few.',
  [R+'metrics/mot.cc: Eval, Match, ComputeNumMismatches'])
p('Tracking measurements merge is a commutative monoid on counters',
  'Merging per-frame or per-scene tracking measurements adds every counter, so the total is independent of the order and grouping in which scenes are merged.',
  'every list of measurements and every permutation and grouping of it',
  'Distributed evaluation merges in arbitrary trees; all trees cannot be tested.',
  [R+'metrics/tracking_metrics.cc: MergeTrackingMeasurements, ToTrackingMetrics'])
# --- detection -------------------------------------------------------------
p('Detection outcome accounting',
  'For every matching result, true positives never exceed either the number of predictions or the number of ground truths, and every evaluated prediction or ground truth is counted in at most one of TP, FP, FN; a match failing the heading accuracy threshold is counted nowhere.',
  'every matching, difficulty assignment, heading accuracy function',
  'Double counting occurs only under particular combinations of NLZ, difficulty and match status.',
  [R+'metrics/detection_metrics.cc: ComputeDetectionMeasurementFromMatchingResult', R+'metrics/metrics_utils.cc: IsTP, IsFP, IsDetectionFN, IsTrackingFN'])
p('Detection measurement merging is order independent on counters',
  'Merging detection measurements adds the TP, FP, FN counters and heading accuracy per score cutoff, independent of order and grouping; the optional per-object details are not merged associatively.',
  'every list of measurements, permutation and grouping',
  'Merge trees are unbounded.',
  [R+'metrics/detection_metrics.cc: MergeDetectionMeasurements'])
p('Precision and recall lie in the unit interval',
  'Every precision, recall and average precision reported for nonnegative counters lies in [0,1], and has its exact defining value; recall is 0 when undefined and a point without true positives is reported with precision 1.',
  'every nonnegative counter list',
  'A bound over all inputs.',
  [R+'metrics/detection_metrics.cc: ToDetectionMetrics', R+'metrics/metrics_utils.cc: ComputeMeanAveragePrecision'])
p('Mean average precision is bounded, order independent and monotone-envelope',
  'The reported mean average precision does not depend on the order in which (precision, recall) samples are supplied, lies in [0,1] for samples in the unit square, and never decreases when a precision increases.',
  'every finite list of precision/recall samples and every permutation',
  'Permutation invariance of a sort-and-scan algorithm with ties.',
  [R+'metrics/metrics_utils.cc: ComputeMeanAveragePrecision'])
p('Score cutoffs are sorted and sized',
  'The cutoffs derived from prediction scores have exactly the configured count. One cutoff is 0; with no more scores than cutoffs they are uniform from 0 to 1; otherwise they are the lowest score, the scores separating buckets of nearly equal size, and 1. For scores in the unit interval they are ascending and stay in it; this fails for scores above 1.',
  'every score list and configured count',
  'Index arithmetic depends on list length modulo cutoff count.',
  [R+'metrics/metrics_utils.cc: DecideScoreCutoffs'])
p('Heading accuracy is symmetric, bounded and periodic',
  'The heading accuracy of two headings lies in [0,1], is symmetric, is 1 exactly when the headings agree modulo a full turn, and is unchanged when either heading is shifted by full turns.',
  'every pair of real headings',
  'Angle normalisation bugs appear only near branch cuts.',
  [R+'metrics/metrics_utils.cc: ComputeHeadingAccuracy, NormalizeAngle'])
p('Segmentation IoU equals its set definition',
  'After any sequence of frames the reported per-class IoU equals |prediction and ground truth| / |prediction or ground truth| over the points accepted since the last reset, where a prediction of the class only counts when its ground truth is one of the configured classes; it lies in [0,1] and is 1 when the class never occurs.',
  'every sequence of frames and label maps',
  'Accumulation over unbounded histories.',
  [R+'metrics/segmentation_metrics.cc: SegmentationMetricsIOU'])
p('Segmentation accumulation is order independent and failure-atomic',
  'Accumulating frames in any order and merging accumulators in any grouping yields the same result as one accumulator over the concatenation, and a rejected frame leaves the state unchanged.',
  'every split, order and rejected frame',
  'All interleavings.',
  [R+'metrics/segmentation_metrics.cc: Update, MergeResults'])
p('Breakdown shards are in range and disjoint',
  'Every object is assigned at most one shard of each breakdown generator, and that shard is the one whose name describes the object type and its range, size, speed or camera bucket; the shard is in the declared range, or -1 exactly when no name applies. The program stops exactly on objects whose camera has no shard.',
  'every object type, range, size, speed and every generator',
  'Boundary values and type/bucket arithmetic for all combinations.',
  [R+'metrics/breakdown_generator.cc: Shard, NumShards, ShardName'])
p('C++ and Python breakdown names agree',
  'For every configuration whose breakdown and difficulty lists correspond, the C++ and the Python implementations list the same breakdown names in the same order, one per generator, shard and difficulty level, all distinct within a generator.',
  'every configuration',
  'Two implementations must agree on all configurations.',
  [R+'metrics/config_util.cc: GetBreakdownNamesFromConfig', R+'metrics/python/config_util_py.py: get_breakdown_names_from_config'])
# --- motion ----------------------------------------------------------------
p('Motion mAP equals the interpolated area and lies in [0,1]',
  'The motion mAP of any set of scored samples equals the sum over recall increments of the best precision at that or a higher recall, is in [0,1], and is independent of the input order; equal confidences are ranked with the incorrect samples first. All reported metrics are in their ranges.',
  'every list of samples and ground truth count',
  'Continuum of confidences, all permutations.',
  [R+'metrics/motion_metrics.cc: ComputePrCurve, ComputeMapMetric, SortSamples'])
p('Motion: at most one true positive per prediction set',
  'For each ground truth object at each measurement step at most one trajectory sample is counted as a true positive, and miss rate is 1 exactly when no considered trajectory matches; allowing more predictions never increases a miss.',
  'every prediction list and match predicate',
  'All orderings of confidences.',
  [R+'metrics/motion_metrics.cc: ComputeMissRate, ComputeMeanAveragePrecision'])
p('Motion: minADE is the minimum over the considered predictions',
  'The reported minADE is attained by one of the first K predictions and no considered prediction has a smaller average displacement; increasing K never increases it.',
  'every list of predictions and K',
  'Order and prefix dependent.',
  [R+'metrics/motion_metrics.cc: ComputeMinAverageDisplacement, AverageDisplacement'])
p('Motion configuration validation',
  'Validation accepts exactly the configurations whose non-zero prediction rate divides the non-zero track rate and whose measurement steps are between 0 and the number of prediction steps inclusive. With steps strictly below that number and complete tracks, computing the metrics never crashes, whatever the predictions; a measurement step equal to it, or a short track that is not predicted, is accepted and then indexes past the end.',
  'every configuration',
  'Exact acceptance set of a validator.',
  [R+'metrics/motion_metrics.cc: ValidateConfig'])
p('Motion prediction id validation',
  'Prediction validation accepts exactly the predictions with the id of the scenario, complete trajectories, the same objects in every alternative of a set (after leading alternatives without trajectories) and a set of predicted ids equal to the set of required ids; it does not reject an object predicted twice, which is then counted twice.',
  'every scenario and prediction set',
  'Set-theoretic acceptance condition over all inputs.',
  [R+'metrics/motion_metrics.cc: ValidateRequiredIds, ValidatePredictions, ValidateMultiModalPrediction'])
# --- panoptic --------------------------------------------------------------
p('Panoptic label encoding round trip',
  'Encoding a semantic and an instance label and decoding gives them back for all instance ids in [0, divisor); at instance id equal to the divisor the decoded pair is different.',
  'every semantic label, instance label, divisor',
  'Boundary at the divisor.',
  [R+'utils/camera_segmentation_utils.py: encode_semantic_and_instance_labels_to_panoptic_label, decode_semantic_and_instance_labels_from_panoptic_label'])
p('Multi-frame panoptic remapping keeps instances apart',
  'Remapping instance ids to global ids preserves semantic labels and maps objects (sequence, global id) with positive ids to distinct instances; the divisor chosen automatically exceeds every instance exactly when the first label divisor does, and otherwise the object with the largest id changes its semantic class. Global id 0, ids above 65535, unmapped local ids and a too small explicit divisor also lose the distinction silently.',
  'every frame list and id mapping',
  'All id assignments.',
  [R+'utils/camera_segmentation_utils.py: _remap_global_ids, decode_multi_frame_panoptic_labels_from_segmentation_labels'])
# --- v2 --------------------------------------------------------------------
p('Component flatten/unflatten round trip',
  'Unflattening the flattened columns of a component gives the component back for every schema without name shadowing, and column names are distinct and equal to the declared schema; all dataset components qualify and share only key columns. A nested name equal to a later sibling name, or None in place of a nested dataclass, does not come back.',
  'every nested schema and every value of it',
  'Recursive over arbitrary nesting.',
  [R+'v2/component.py: Component.to_flatten_dict, from_dict, _column_name, _remove_prefix'])
# --- sim agents ------------------------------------------------------------
p('Sim agents submission validation is exact on ids and lengths',
  'A joint scene is accepted exactly when every trajectory has the configured number of steps in each position and heading field and the set of simulated ids equals the set of objects valid at the current step; anything else raises ValueError (IndexError when a logged track ends before the current step). A submission is accepted exactly when it names a scenario and holds 32 acceptable scenes. The evaluated agents are the AV and the tracks to predict, sorted and once each. Refuted: that each agent is simulated once, that generated scenes must carry box sizes, that evaluated agents are simulated agents.',
  'every scene and scenario',
  'Exact acceptance set.',
  [R+'utils/sim_agents/submission_specs.py: validate_joint_scene, validate_scenario_rollouts'])
p('Sim agents gather by id',
  'Gathering objects by id returns the complete rows of the requested ids in the requested order (repetitions allowed), and raises ValueError exactly when a requested id is missing or is carried by several objects.',
  'every id list and table',
  'All permutations of ids.',
  [R+'utils/trajectory_utils.py: gather_objects_by_id, _arg_gather'])
p('Logged scenario to joint scene and back',
  'A logged scenario can be converted to a joint scene exactly when it has 91 steps, an agent to simulate and unambiguous agent ids; the result is accepted by the validator and converting it back reproduces the log, with the box sizes frozen at the current step. Any accepted scene becomes the logged history followed by the submitted future. Refuted: that logged box sizes are kept. A scene that repeats an agent converts without error but the agent can then not be selected for evaluation.',
  'every scenario of the right length',
  'Round trip over all scenarios.',
  [R+'utils/sim_agents/converters.py: scenario_to_joint_scene, joint_scene_to_trajectories'])
p('Kinematic validity follows neighbouring validity',
  'Speed is valid at a step exactly when both neighbouring steps are valid, acceleration exactly when both steps two away and the step itself are; from two steps on lengths are preserved (a single step gives two) and border steps are invalid. Linear speed and acceleration are central differences, the turn per step is half the heading change modulo half turns in [-pi/2, pi/2), so that a constant turn is measured exactly however the headings wrap. Features at valid steps are numbers and depend on valid input steps only.',
  'every validity sequence, every trajectory, heading sequence and step duration',
  'All sequences.',
  [R+'wdl_limited/sim_agents_metrics/trajectory_features.py: central_diff, central_logical_and, compute_kinematic_validity'])
p('Likelihood estimators are probabilities',
  'The likelihood returned for an object and a step compares the logged value with exactly the simulated values of all rollouts for the same object (or all objects when they are aggregated) at the same step (or all steps when they are independent). Histogram and Bernoulli likelihoods with positive smoothing are strictly positive, at most 1, sum to 1 over bins and clip out-of-range values to the border bins; the order of the rollouts is irrelevant; mismatched shapes and unusable configurations are rejected.',
  'every sample list, bin count, pseudocount',
  'Simplex properties over all inputs.',
  [R+'wdl_limited/sim_agents_metrics/estimators.py'])
p('Metametric is a bounded weighted average',
  'The metametric is the weighted sum of all ten likelihoods, lies within their bounds when the weights are nonnegative and sum to one (as those of both challenges do), and is the sum of the buckets times their weights; averages with validity use the valid positions only; aggregating scenarios averages each field that the first scenario sets (others are lost, so the order matters exactly then) and commutes with the metametric; rates are shares of simulated objects flagged at a step where the log is valid (the traffic light rate includes objects that are not vehicles).',
  'every weight vector and metric vector',
  'Continuum of inputs.',
  [R+'wdl_limited/sim_agents_metrics/metrics.py: _compute_metametric, aggregate_scenario_metrics'])
# --- range image -----------------------------------------------------------
p('Range image feature packing round trip and ordering',
  'Packing range, intensity and elongation and unpacking returns the three fields up to the quantisation step; packed values are ordered by range first, so a pixel of the built image shows the nearest point if it is nearer than the others of the pixel by one step. For points of equal range step, intensity and elongation are the smallest of these points and may come from different points.',
  'every triple of in-range fields, every list of points',
  'Bit-field overlap for 2^40 combinations.',
  [R+'utils/range_image_utils.py: encode_lidar_features, decode_lidar_features, scatter_nd_with_pool'])
p('Azimuth to column mapping',
  'Every azimuth in (-pi, pi] maps to the column of nearest centre inside the image, and the direction of each pixel centre maps back to its own column for every azimuth correction; the azimuth exactly -pi is refused exactly for even widths. Inclinations map to the first row of nearest inclination.',
  'every width and azimuth',
  'Rounding half-to-even on every width.',
  [R+'utils/range_image_utils.py: build_range_image_from_point_cloud, compute_range_image_polar'])
# --- geometry --------------------------------------------------------------
p('Overlap tree reports exactly the overlapping boxes',
  'Querying the box tree returns every other box sharing a point with the given one exactly once and nothing else, for exact arithmetic; with integer coordinates what is reported overlaps but overlaps can be missed. Intersection area, union, point membership and distance are those of the closed rectangles. No boxes, or an index out of range, is an invalid access.',
  'every nonempty list of boxes',
  'Tree shape depends on input; completeness over all inputs.',
  [R+'math/aabox2d.h: AABox2dTree, CollectOverlaps, ComputeIntersectionArea'])
p('Axis-aligned IoU is a symmetric ratio in [0,1]',
  'The axis-aligned IoU is the common area over the area of the union: it never fails, is symmetric, in [0,1], 1 exactly for the same rectangle, 0 exactly when the interiors are disjoint or a dimension is out of range. The 2D and 3D IoU of rotated boxes obey the same laws for any polygon intersection area that is symmetric and bounded by both areas.',
  'every pair of boxes',
  'Continuum of boxes.',
  [R+'metrics/iou.cc: ComputeIoUAA2d, ComputeIoU', R+'math/aabox2d.h: ComputeIntersectionArea'])
p('ExactFloat arithmetic is exact',
  'Addition, subtraction and multiplication of exact floats give the exact mathematical result whenever it is within the exponent and precision limits, a signed zero on underflow, a signed infinity on overflow and NaN when too many bits are needed; infinities and NaN follow the IEEE tables; comparison is numeric order with NaN unordered; equal numbers have one representation; doubles and ints convert exactly, except the smallest int, which does not.',
  'every pair of exact floats within the exponent and precision limits',
  'Exactness over an infinite domain.',
  [R+'math/exactfloat.cc: SignedSum, operator*, operator==, operator<, Canonicalize'])
p('ExactFloat rounding modes',
  'ceil, floor, trunc, round, rint, rounding to a number of bits and conversion to integer (clamped) return the mathematically specified results; ldexp scales exactly exactly when the number is below one or the exponent is at least the wrongly signed clamp, and frexp is right exactly up to exponent 100000000; conversion to double is round to nearest even for short mantissas and for the normal range, but rounds twice for long mantissas in the subnormal range.',
  'every exact float and mode',
  'All values, all modes, ties.',
  [R+'math/exactfloat.cc: RoundToPowerOf2, ToInteger, ldexp'])
# --- conversion & state ----------------------------------------------------
p('Scenario tensors have fixed size',
  'Converting a scenario that passes validation, under a configuration with room for the modeled agents, with required tracks in range and without empty polygons, fails only when no required track is valid now; otherwise it produces exactly the published tensors with exactly the configured sizes: modeled agents by id, then context agents by priority, then padding marked invalid, road graph samples in order of feature kind cut at the limit, and lights per step. Tracks are dropped only when there are more than slots, never a modeled one, never before a context agent of lower priority, and the counters agree with the tensors. Outside those conditions validation does not protect: too few slots, an empty polygon or a required index out of range crash; a light step after the last timestamp is stored at minus one second and marked valid; the padding counter of lights can be negative.',
  'every scenario and configuration',
  'All track counts.',
  [R+'data_conversion/scenario_conversion.cc: AddSdcAndAgentsStateFeatures, GetModeledAgents'])
p('Modeled agent order is a strict weak order',
  'The comparators used for ordering modeled and context agents are strict weak orders (the latter provided the coordinates compared are numbers; with a NaN it is not, and the sort is undefined), the context comparator is the documented priority, and the order of modeled agents is independent of hash order when their ids differ; with equal ids it is not, and a negative limit on modeled agents is no limit.',
  'every agent list',
  'Comparator laws over all triples.',
  [R+'data_conversion/scenario_conversion.cc: DifficultyLevel, GetModeledAgents'])
p('Rater feedback trajectories are padded to exact lengths',
  'Processing rater trajectories succeeds exactly for matching non-empty inputs and returns the requested number of trajectories and steps, repeating the last one; neither the padding nor the order of the rated trajectories changes a score. A prediction is flagged inside exactly when it lies, at both times, in the box around some rated trajectory aligned with its direction of travel; its score is the mean over the two times of the best label decayed by the growth the box needs, at least the floor when outside, at least the label of any region that contains it, and never above the best label or the floor. A prediction equal to a rated trajectory labelled below the floor scores less than one far away.',
  'every number of rater trajectories and steps',
  'All shapes.',
  [R+'metrics/python/rater_feedback_utils.py: process_rater_specified_trajectories, get_rater_feedback_score'])
p('Detection evaluator state machine',
  'After every history of calls each answer is that of the updates made since the last reset or successful result; several updates are equivalent to one with the concatenated data; a successful result resets the state and a failed one keeps it; an update rejected for its predictions changes nothing. An update that is rejected because of its ground truth leaves its predictions appended, so that a retry counts them twice; optional speeds given in only some updates are attached to the wrong boxes; any other key is ignored.',
  'every history of updates',
  'All histories, crash points.',
  [R+'metrics/python/wod_detection_evaluator.py: update_state, result, reset_states'])
p('Motion tensor parsing resolves ground truth indices',
  'Parsing motion tensors fails unless the documented shapes hold, and gives, for each scenario id, the tracks of the agents with a valid state and the unmasked predictions of its batch elements in order. A predicted agent with a valid state is resolved to its own track. The code breaks the natural claim in three ways: an agent without valid state is silently attributed to the first track of the scenario, possibly from another batch element, objects of interest are looked up by using object ids as indices, and an id that is not below the number of agents is read outside the tensor.',
  'every validity mask and index tensor',
  'Only rare masks expose it.',
  [R+'metrics/ops/utils.cc: ParseScenarioAndPredictonsFromTensors'])
p('Grouping detections by frame is lossless',
  'Grouping flat tensors of objects by frame, or by sequence and frame, succeeds exactly when the tensors agree in size, boxes are of a known kind and speeds have two components; it keeps every object exactly once, with all its attributes, in its input order within the frame. The ops then see the union of the frames of predictions and ground truths in increasing order, and detection sees one empty frame when there is no object.',
  'every set of tensors and frame id list',
  'All interleavings of frames.',
  [R+'metrics/ops/utils.cc: ParseObjectFromTensors, ParseObjectGroupedBySequenceFromTensors', R+'metrics/ops/detection_metrics_ops.cc: ComputeImpl', R+'metrics/ops/tracking_metrics_ops.cc: ComputeImpl'])

p('Matcher caches do not change answers',
  'For every sequence of calls that set predictions, ground truths and custom functions and of IoU and affinity queries, each answer equals the value computed from the data set last, provided custom functions are not replaced after a query about the current objects; replacing one later returns stale values.',
  'every history of setter calls and queries',
  'Stale entries only show for particular call orders.',
  [R+'metrics/matcher.h: SetPredictions, SetGroundTruths, SetCustomIoUComputeFunc', R+'metrics/matcher.cc: IoU, LongitudinalAffinity'])

p('Reported tracking metrics are those of the best cutoff',
  'The reported tracking metrics are the ratios of the first score cutoff with the largest MOTA among cutoffs with ground truth objects, provided that MOTA is positive; when no cutoff has positive MOTA, all reported ratios are zero.',
  'every list of measurements per score cutoff',
  'Ties, cutoffs without objects and negative values over all lists.',
  [R+'metrics/tracking_metrics.cc: ToTrackingMetrics'])

p('Tracking cutoffs use the scores of all predictions',
  'When no score cutoffs are configured, the cutoffs for tracking are decided from the scores of every prediction of every frame of every scene. The code does this exactly when the number of frames of scene f equals the number of predictions in frame f of each scene; otherwise it drops scores or reads out of range.',
  'every nesting of scenes, frames and predictions',
  'The defect depends on the relation between unrelated sizes.',
  [R+'metrics/tracking_metrics.cc: EstimateScoreCutoffs'])

p('Wrapping and clamping helpers',
  'Wrapping a value to a range gives the congruent value in the half-open range, the same for congruent inputs; the integral modulo equals the mathematical modulo without intermediate overflow whenever twice the modulus is representable; clamping gives the nearest value of the range.',
  'every value, range and integer width',
  'Extreme values of every integer width and all range positions.',
  [R+'math/math_util.h: PositiveModulo, WrapToRange, NormalizeAngle, BoundToRange', R+'metrics/metrics_utils.cc: PositiveModulo, WrapToRange, NormalizeAngle'])

p('Objects are evaluated in exactly the breakdowns they belong to',
  'For each breakdown shard the evaluated objects are exactly its members in input order, for predictions restricted to those whose score reaches the cutoff, one list per cutoff. In detection, ground truth takes part in matching in its own speed shard; for camera shards this holds exactly when the object is 2D or the camera view contains its center.',
  'every configuration, object list and score cutoff list',
  'All combinations of generators, types and boundary values.',
  [R+'metrics/metrics_utils.cc: BuildSubsets', R+'metrics/breakdown_generator.cc: ShardsForMatching, Shard'])

p('Motion metrics do not depend on the order of the scenarios','The motion metrics computed over a collection of scenarios are the same for every iteration order of the collection, and fail for one order exactly when they fail for every order.','every pair of orderings of every list of predictions and scenarios','The collections are hash maps with unspecified iteration order; tests see one order.',[R+'metrics/motion_metrics.cc: ComputeMotionMetrics, BucketedMetricsStats::Accumulate, MetricsStats::Accumulate'])
p('An empty motion prediction ends the evaluation of its scenario','A multimodal prediction without trajectories makes the evaluation ignore it and every later prediction of the scenario; such a submission passes conversion and all validations.','every list of predictions around an empty one','Tests use non-empty predictions; the statement is about every position of the empty one.',[R+'metrics/motion_metrics.cc: ComputeAllMetrics',R+'metrics/motion_metrics_utils.cc: ConvertChallengePredictions, ValidateChallengePredictions'])
p('Challenge submissions are converted without loss','A challenge submission converts exactly when it has predictions, every trajectory has as many x as y coordinates and joint predictions have two objects; the result has the same ids, confidences and positions in the same order and passes the validation of its submission type.','every submission','Acceptance set and result of a conversion over all inputs.',[R+'metrics/motion_metrics_utils.cc: ConvertChallengePredictions, ConvertSinglePredictions, ConvertJointPrediction, ValidateChallengePredictions'])
p('The overlap rate judges the most confident prediction','The overlap rate is computed from one of the first K predictions; it is one of highest confidence when the confidences add up to a positive number (padding never wins), and one of lowest confidence when they add up to a negative number.','every list of predictions and confidences','All orders, ties and signs of confidences.',[R+'metrics/motion_metrics.cc: ComputeOverlapRate',R+'metrics/motion_metrics_utils.cc: GetNormalizedConfidences'])

p('Untracked objects count as instance zero in camera segmentation evaluation','For every frame the metric receives one update; ground truth pixels not marked tracked keep their semantic class and get instance 0, tracked pixels are unchanged, and sequences of different lengths are rejected.','every list of ground truth, prediction, coverage and tracked images','The effect on every pixel value and divisor is arithmetic; tests use a few images.',[R+'wdl_limited/camera_segmentation/camera_segmentation_metrics.py: get_metric_object_by_sequence'])
p('Loading labelled frames','Loading keeps the first K labelled frames of the leading sequence, in order, skipping unlabelled ones; when another sequence starts earlier its first frame is returned as well.','every frame list and every K','The extra frame appears only at a sequence boundary before K frames.',[R+'utils/camera_segmentation_utils.py: load_frames_with_labels_from_dataset'])
p('Saved panoptic label decodes to the original','A saved panoptic label decodes, with a divisor above all its instances, to the original classes and instances; with the automatic divisor a label whose largest instance reaches the saved divisor changes class.','every label image, divisor and new divisor','Depends on the largest instance id and on 16 and 32 bit wrap around.',[R+'utils/camera_segmentation_utils.py: save_panoptic_label_to_proto, decode_multi_frame_panoptic_labels_from_segmentation_labels'])

p('Scattering points into an image', 'Scattering values with pooling gives, at every pixel, the pooled value of exactly the points that carry that pixel index, and zero elsewhere; a camera depth image has at every pixel the smallest distance of the points shown there, using the first projection into that camera. Only the flattened index is range checked: a column outside the image lands silently in another row.', 'every image size, every list of indices and values, every pool method', 'Depends on every combination of duplicate and out-of-range indices.', [R+'utils/range_image_utils.py: scatter_nd_with_pool, build_camera_depth_image'])
p('Cropping range images and uniform inclinations', 'Cropping returns for every image the window of the asked width starting at half the width difference plus the shift of that image, or an error exactly if a window leaves the image, the new width is not positive or not smaller, or a shift is missing; equal widths return the input whatever the shift. Computed inclinations are the centres of equal intervals between the two bounds, increasing and symmetric.', 'every width, shift list, image batch; every height and pair of bounds', 'Boundaries of windows for all widths and parities.', [R+'utils/range_image_utils.py: crop_range_image, compute_inclination'])

p('Longitudinal error tolerant matching',
 'The longitudinal affinity of a prediction is 1 minus its error along the line of sight over the tolerance, clamped to [0,1]: 1 exactly without such error, 0 exactly when the error reaches the tolerance, unchanged by moving the prediction across the line of sight, decreasing in the error; a zero tolerance gives 0 even to a perfect prediction. Range alignment moves a prediction to the point of its line of sight closest to the ground truth (only for the documented side when so configured), without touching its size or heading; centre alignment does not move the height. The tolerant IoU is the IoU of the aligned box, in [0,1].',
 'every prediction, ground truth, sensor location, tolerance and alignment type',
 'Continuum of positions; the closest point property compares with every point of the line.',
 [R+'metrics/iou.cc: ComputeLongitudinalAffinity, AlignedPredictionBox, ComputeLetIoU'])

p('Ids and times survive the float tensors','Agent ids up to two to the 24 in magnitude, stored as floats, are read back exactly and stay distinct; beyond that different ids become equal (16777216 and 16777217). Stored values are the nearest floats, and times converted through a float are within one microsecond plus six parts in a hundred million, so steps at least four microseconds apart stay in order for 16 seconds, but 0.7 s becomes 699999 microseconds.','every id, value and time','Rounding depends on every bit of the value.',[R+'data_conversion/scenario_conversion.cc: AddStateFeatures, AddTrafficLightStateFeatures'])

p('Decimal text of exact floating point numbers',
  'Formatting an exact floating point number with a maximum number of digits gives a text that reads, as a decimal number, as the value with less than one unit of error in its last digit, exactly when no more digits are needed, without superfluous zeros and with an exponent exactly when the printed number is below 1e-4 or has more digits than the maximum. Two numbers of the same precision that differ have different texts, and the unique text distinguishes all numbers; integers of at most ten digits are printed in full. The rounding is to nearest with ties to even, except that an even digit followed by exactly 6, 7, 8 or 9 is rounded down, so that 2^35 prints as 3.435973836e+10, and a one digit exponent is not padded as printf does.',
  'every canonical number, every maximum number of digits',
  'All mantissas and exponents, adjacent numbers at every precision.',
  [R+'math/exactfloat.cc: ToString, ToStringWithMaxDigits, ToUniqueString, GetDecimalDigits, NumSignificantDigitsForPrec'])

p('Signed distance from a point to a polygon','The signed distance from a point to a polygon has as magnitude the least distance from the point to the boundary of the polygon. For a counter-clockwise convex polygon without repeated consecutive vertices it is positive exactly outside, where it is the distance to the polygon, and minus the distance to the boundary inside. With a repeated consecutive vertex no point counts as inside: the result is never negative, so a point in the middle of such a polygon gets a positive distance.','every query point and every polygon with any number of vertices','a unit test tries a few points around a few polygons; the magnitude and the sign must be right for every position, including on the lines of edges and at vertices, and the effect of repeated vertices is not tested',[R+'utils/geometry_utils.py: signed_distance_from_point_to_convex_polygon, _get_edge_info'])
p('Minkowski sum of two boxes','For any two rectangles of positive size given by their corners counter-clockwise from any starting corner, the eight points returned as Minkowski sum are the vertices of a counter-clockwise convex polygon without repeated consecutive vertices, and that polygon is exactly the set of the sums of a point of the first and a point of the second. The corners computed for a box are such a rectangle and span the box.','every pair of rectangles with any sizes, positions, headings and first corners','the order of the points is chosen by comparing edge directions; a wrong choice shows only for some pairs of headings, and parallel boxes are a boundary case of the choice',[R+'utils/geometry_utils.py: minkowski_sum_of_box_and_box_points, _get_downmost_edge_in_box',R+'utils/box_utils.py: get_upright_3d_box_corners'])
p('Distance to the nearest object and collisions','With a corner rounding factor at least 0 and below 1 and valid boxes of positive size, an evaluated object counts as colliding at a step exactly if it is valid there and the interior of its rounded box meets the interior of the rounded box of another valid object. Otherwise the distance returned is the least distance between a point of its rounded box and a point of the rounded box of another valid object, or about 1e10 if there is none; an object that is not valid gets 1e10. The rows of the result follow the order of the evaluated objects. With the documented factor 1 (capsules) the sign is lost: boxes that cross get a positive distance.','every number of objects and steps, every validity, evaluation mask, position, size, heading and rounding factor','the result depends on pairs of boxes in any relative position through a sum of polygons, on the reordering of objects by the mask and on the masking of the object itself; the factor at the documented end is not tested',[R+'wdl_limited/sim_agents_metrics/interaction_features.py: compute_distance_to_nearest_object',R+'wdl_limited/sim_agents_metrics/metric_features.py: compute_metric_features (collision indicator)',R+'utils/geometry_utils.py: minkowski_sum_of_box_and_box_points, signed_distance_from_point_to_convex_polygon'])

p('Signed distance to the road edge and the off-road indicator','The distance of a box to the road edges is the largest signed distance of its four bottom corners, -1e10 if the box is not valid, and a ValueError exactly if no road edge has two points. The signed distance of a point is the planar distance to its foot on the road edge segment that is nearest when heights count threefold, negative on the left of the segment; beyond an end of the segment the side is that of the corner with the adjoining segment. Nearest to a closed convex counter-clockwise road edge with at least as many points as any other, the distance is negative exactly inside, positive exactly outside, and a box is off the road exactly if some point of its footprint is outside. Two defects: if another road edge, however far away, has more points, the sign at the closing point of a loop can be wrong; straight behind a free end of a road edge the distance is zero however far away.','every set of road edges of any lengths, every point and every set of boxes, validity and evaluation mask','the sign depends on corners, on padding by the longest road edge of the map and on ties between segments; tests use a few points around a few polylines of equal length',[R+'wdl_limited/sim_agents_metrics/map_metric_features.py: compute_distance_to_road_edge, _compute_signed_distance_to_polylines, tensorize_polylines, _check_polyline_cycles',R+'wdl_limited/sim_agents_metrics/metric_features.py: compute_metric_features (off-road indicator)'])

p('Time to collision with the object in front',
  'For every evaluated object the time to collision is 5 s at the first and last step. At any other step it is the distance from its front to the rearmost point of the nearest valid object it follows, divided by how much faster it is, at most 5 s; it is 5 s if it follows nothing or is not faster. It follows an object that is wholly ahead of its front, in the strip it drives in, with a heading at most 75 degrees off, and either stays in the strip when moved sideways by half a metre or has a heading at most 10 degrees off; ties go to the lowest index. Headings should count as directions and invalid steps should not matter: the code compares heading numbers without wrapping and takes speeds from invalid neighbours, both refuted by scenes.',
  'all scenes of any number of objects and steps within ten thousand kilometres with steps of at least a tenth of a second, all evaluation masks',
  'The set of followed objects depends on real angles and offsets; tests with a few aligned boxes see neither ties nor headings around a half turn nor invalid neighbours.',
  [R+'wdl_limited/sim_agents_metrics/interaction_features.py: compute_time_to_collision_with_object_in_front, _get_object_following_mask', R+'wdl_limited/sim_agents_metrics/trajectory_features.py: compute_kinematic_features, central_diff'])

p('Red light violations',
  'An object violates a red light at a step exactly if it is valid there, the lane it is on shows stop or arrow stop (the last state listed for the lane), and between the previous step and this one it goes from strictly behind to strictly ahead of the stop point in the direction of the lane, whatever the order in which the ids of a set are listed. On a straight lane with the most points and a fixed stop point this is passing the stop point along the lane. Missing lanes, missing signals, inconsistent ids or no lane of two points give a ValueError, no evaluated object or a differing number of steps an error. The lane an object is on should be the nearest one: the code adds the foot offset instead of subtracting it, so the lane is only right if all others are farther than the distance plus twice the segment length; a far lane with more points adds a segment to the origin that can hide a violation; a signal not listed at the previous step has its stop point at the origin; with one step the rows are empty.',
  'all maps of any number of lanes and points, all trajectories and signal lists within a million kilometres, all orders of a set',
  'The outcome depends on all segments of all lanes, on padding by the longest lane and on the order of a hash set; tests drive along one or two lanes of equal length.',
  [R+'wdl_limited/sim_agents_metrics/traffic_light_features.py: compute_red_light_violation, _get_nearest_lane_segment_index, _argmin_2d, _tensorize_traffic_signals', R+'wdl_limited/sim_agents_metrics/map_metric_features.py: tensorize_polylines'])

p('Common part of convex polygons and overlap of boxes from above',
  'For two strictly convex counter-clockwise polygons of any numbers of corners, the vertices returned as their intersection, if any, are those of a strictly convex polygon whose points are exactly the common points; they are returned whenever there is a common point and no corner of one lies on the boundary of the other, none are returned if there is no common point, and a polygon and itself give the polygon. The area is that of the common part. The point in polygon test is right for every convex polygon, boundary included. The overlap of two boxes is always between 0 and 1 without a failed check, 1 for a box and itself, 0 without a common point, and without contact symmetric and equal to the area of the common part over that of the union. With contact it should be too: the code returns 0 for a box inside a larger one with two common edge lines in one order and 1/4 in the other, stated as a refutation.',
  'all pairs of convex polygons, all pairs of boxes of any position, size and heading',
  'the loop walks both boundaries at once and stops by counting; a wrong advance rule or a wrong count shows only for special arrangements of edges',
  [R+'math/polygon2d.cc: ComputeIntersectionVertices, ComputeIntersectionArea, PointInside, MaybeHasIntersectionWith, AreaInternal, ExactIntersection, CrossMaybeExact', R+'math/box2d.cc: GetCorners', R+'metrics/iou.cc: ComputeIoU2d'])

p('Pose estimation error is a bounded mean of keypoint errors',
  'Evaluating pose predictions over frames matches the people of every frame, lines up matched pairs, labels left over and predictions left over, and reports the sum of the keypoint errors over the number of keypoints visible in a label or a prediction. The value lies between zero and the mismatch penalty, does not depend on the order of the frames, and is zero exactly when everybody with a visible keypoint is matched to somebody with the same visible keypoints at the same places. Predictions that equal the labels and are near their boxes have no error. Predictions matched with a label without visible keypoints do not count. Known gap: the matcher reads the heading of a box clockwise while labels count it counter-clockwise, so predictions equal to labels, all of them inside the label boxes, can get the greatest error.',
  'all lists of frames, all people, boxes, penalties and distances, all assignment solvers meeting the contract of linear_sum_assignment',
  'tests use a handful of people; bounds, order independence and the zero case quantify over all frames and all optimal assignments',
  [R+'metrics/python/keypoint_metrics.py: PoseEstimationMetric, _pose_estimation_error, BaseMatcher.reorder, missing_ids, _select_ids, _indices_of_false', R+'utils/keypoint_data.py: KeypointsTensors, BoundingBoxTensors'])
p('Matching of predicted and labelled people is one to one and optimal in two passes',
  'The matcher pairs no label and no prediction twice and never uses a prediction without visible keypoints. A first pass pairs labels without visible keypoints with predictions that have keypoints inside their boxes and are not close to any label, with the greatest total number of keypoints inside. A second pass pairs people not used by the first, where a visible predicted keypoint is within the distance of the box, and saves the greatest total error among all such one-to-one assignments. The displacement of a point from a box leads to the nearest point of the box. Known gaps: contrary to its documentation the second pass does not minimise the pose estimation error, since it averages over hidden keypoints as well, and a label without visible keypoints can take a prediction away from a close label that has some.',
  'all people, boxes with non-negative sizes, distances, all assignment solvers meeting the contract of linear_sum_assignment',
  'optimality compares with every other assignment and holds for every solver; tests compare with a few hand-made scenes',
  [R+'metrics/python/keypoint_metrics.py: MeanErrorMatcher.matching_ids, mean_error_matching, _hungarian_assignment, _is_gti_and_not_gtv_close_enough, _mask_of_used_ids, box_displacement, keypoint_distance'])

p('Points in boxes and corners of boxes agree',
  'Checking points against boxes gives a row per point and an entry per box that is true exactly when the box has a length, a width and a height different from zero and the point is in the closed box turned counter-clockwise by its heading. The count for a box is the number of such points. A box with positive sizes is the convex hull of the eight corners, which come lower layer first, counter-clockwise from the front left. The two-dimensional check is the three-dimensional one without the vertical extent.',
  'all points and boxes, all sizes and headings, all numbers of points and boxes',
  'membership and convex hull are statements about all points and angles; tests try three points and boxes with heading zero',
  [R+'utils/box_utils.py: is_within_box_3d, is_within_box_2d, compute_num_points_in_box_3d, get_upright_3d_box_corners', R+'utils/transform_utils.py: get_yaw_rotation, get_yaw_rotation_2d, get_transform'])
p('Changing frames keeps places, distances and boxes',
  'A point transformed from one frame to another is the point of the new frame at the same place in the world; a singular target frame is refused. Staying changes nothing, two steps are one, going back returns the point, and rigid frames keep distances. Between rigid frames with the same up direction a transformed box keeps its size, its points and its corners in order, so points are in the box before exactly when they are in it after. Rotation matrices turn about x by roll, then about y by pitch, then about z by yaw, and are rotations. Known gap: between rigid frames that are not level the box does not follow its points.',
  'all points, boxes, frames and angles',
  'identities over all frames; tests check one point and one box between two yaw-only frames',
  [R+'utils/box_utils.py: transform_point, transform_box', R+'utils/transform_utils.py: get_rotation_matrix, get_yaw_rotation, get_transform'])

p('Merging component tables is the join its flags describe',
'Merging two component tables joins them on the key columns they have in common: the output has exactly one row for every pair of a left and a right record with equal common keys, plus one row for every left record without partner when right columns may be null, plus one row for every right record without partner when left columns may be null, each holding the values of its records and null elsewhere. A table is grouped first exactly when asked for and when it has a key the other has not; grouping gives one record per non null key with aligned lists in the original order. Attaching a table with unique common keys with right columns nullable keeps the number of left records; grouping both sides leaves no repeated key. Tables without a common key are refused. The documented automatic grouping does not happen by default, so that differing key sets give cross products, and an outer join of a grouped table loses records with a null key.',
'all pairs of tables with distinct column names and scalar keys, all flags, all key prefixes and all orders in which groups and outer joins may be sorted',
'tests join a few small tables; which rows come out, how often and from which records must hold for every pair of tables and every set of flags',
[R+'v2/dataframe_utils.py: merge, _group_by, _how, _select_key_columns'])

p('Keypoint tensors hold each type at its place',
'Turning keypoint labels into tensors gives one row per requested keypoint type in the requested order, holding the location of the last keypoint of that type with visibility two when visible and one when occluded, or the default location with visibility zero when there is none. Selecting a subset of types gives for each type the value stored for that type, equals building the tensors in the new order, and is refused when a type is unknown, the sizes differ or nothing is asked for. Pose tensors hold the people that have keypoints, in order, with boxes beside them when all of them have a box and without boxes when none has. With only some boxes the rows no longer correspond, and converting a three dimensional box exchanges its length and width.',
'all lists of keypoints, orders, subsets of types, lists of poses and boxes',
'tests build tensors for a few keypoints in one order; alignment of rows must hold for every list and every order',
[R+'utils/keypoint_data.py: create_tensors_from_points, create_laser_keypoints_tensors, create_camera_keypoints_tensors, select_subset, create_pose_estimation_tensors, create_laser_box_tensors, label_box_from_box_proto'])
p('Labels are grouped by laser object',
'Grouping the labels of a frame gives exactly one entry per laser object id, holding the last laser label with that id and, for every camera, the last camera label of that camera associated with the id; camera labels of other objects or without association are left out. An object without camera labels has no dictionary at all instead of an empty one.',
'all frames: all lists of laser labels and camera labels with any ids, repetitions and associations',
'tests group one small frame; which label ends up with which object must hold for every frame',
[R+'utils/keypoint_data.py: group_object_labels, _index_laser_labels, _index_camera_labels'])

p('Keypoint similarity is a weighted mean of closeness, and what it ignores',
  'The keypoint similarity of an object is, when any keypoint is labelled, the weighted mean over the keypoints both labelled and predicted of exp(-d^2 / (2 (k s)^2)), with d the distance, k the scale of the kind of keypoint and s the square or cubic root of the area or volume of the box; without labels it is the plain mean over all predictions of the same closeness for the distance to the box three times as large and not turned. It lies in [0, 1], is one exactly if some keypoint is labelled and predicted and all such are in place (without labels: exactly if all predictions are in the enlarged box), never falls when predictions come closer, does not depend on the unit of length nor, for labelled objects, on the place of missing predictions. It does not hold that missing predictions lower the score, that a prediction far off lowers the score when the box has a zero side, that an unlabelled object keeps its score when the prediction lies in the enlarged turned box, or that without labels the place of missing predictions is of no matter.',
  'every number of keypoints, every label, prediction, visibility, box in two or three dimensions, scales and non-negative weights',
  'the score is a continuous function of many coordinates, and the defects appear only for boxes or visibilities the tests do not use',
  [R+'metrics/python/keypoint_metrics.py: _oks_per_point, object_keypoint_similarity, _mean, _masked_weights, box_displacement', R+'utils/keypoint_data.py: BoundingBoxTensors.scale, KeypointsTensors.mask'])
p('Keypoint averages over batches',
  'The mean position error and the share of correct keypoints over any sequence of batches equal the weighted mean over all keypoints labelled and predicted in all batches, whatever the split and the order; the share lies in [0, 1] and grows with the threshold; asking for the object scale without boxes is refused. Precision at a similarity threshold without weights is the share of boxes with a side above a hundredth of a millimetre whose similarity exceeds the threshold, over all batches, lies in [0, 1] and falls with the threshold. The average precision is the mean over batches of the mean over thresholds, which is the mean of the precisions when the batches have equally many boxes that count, but in general neither equals it nor is independent of the split. With weights by keypoint a single batch gives the share weighted by object, but precision over several batches depends on the split. The documented weights by object are refused by the precision metric and accepted by the others.',
  'every sequence of batches of any sizes, thresholds, scales, weights and shapes of weights',
  'tests feed a single batch, where the average of averages and the global average agree',
  [R+'metrics/python/keypoint_metrics.py: AveragePrecisionAtOKS, MeanPerJointPositionError, PercentageOfCorrectKeypoints, _oks_object_weights, KeypointsMetric.update_state'])

p('Waypoints partition the future','Waypoint grids are made exactly if the number of future steps is a multiple of the number of waypoints and a waypoint is no longer than the history with the present; every future step then belongs to exactly one waypoint. Without accumulation a waypoint shows the last of its steps, with accumulation it shows a cell as occupied if any of its steps does, separately for observed and for hidden agents, and its flow origin is the same taken one waypoint earlier, so it equals what the previous waypoint shows. The flow of a waypoint is that of its last step or the average over its steps of the components that are not zero, each component within the values averaged; this is the mean over the moving steps if none moves along an axis, but in general the average can be faster than every flow it averages. The trail of a cell is one if occupied now, otherwise the decay to the power of the steps since it was last occupied.','all task configurations, all grids, all waypoints, cells and decay factors','tests build one configuration of fixed size; the split of the future, the origin one waypoint earlier and the component-wise average must hold for every configuration and every flow',[R+'utils/occupancy_flow_grids.py: create_ground_truth_waypoint_grids, _add_ground_truth_observed_occupancy_to_waypoint_grids, _add_ground_truth_flow_to_waypoint_grids, WaypointGrids, _create_agent_trails'])
p('An occupancy grid shows exactly the agents asked for','A cell of the occupancy grid of a class holds one at a step if some agent of the class among those asked for is valid at that step and one of the sample points of its box falls in the cell, and zero otherwise; incomplete inputs, missing sample points and future requests without agents are refused. The grids of observed and of hidden agents together are the grid of all agents and no agent is in both. Turned with the vehicle, the grids do not depend on the position and heading of the world frame, and what is ahead of the vehicle is straight above it. The road graph is shown exactly where a valid point falls. It does not hold that observed agents are those valid at the present step: an agent seen only in the past counts as observed.','all render configurations, scenes, sets of times and requests, all cells and steps','tests compare a few summed grids; which agent marks which cell, and that the frame does not matter, must hold for every scene',[R+'utils/occupancy_flow_renderer.py: render_occupancy_from_inputs, _sample_and_filter_agent_points, _sample_agent_points, _transform_to_image_coordinates, rotate_points_around_origin, render_roadgraph_from_inputs'])
p('Flow leads back to where the occupants came from','The flow of a cell is the mean displacement, in cells, over the sample points of the agents asked for that are in the cell a waypoint later and valid at both times, each counted once, from their later to their earlier cell. If all of them moved alike, the cell the flow points to was occupied by the same class at the earlier step and the cell itself is occupied at the later one. Where nothing ends, the flow is zero.','all render configurations, scenes, times, classes, cells and steps','tests compare a few summed grids; the averaging over points and the direction backwards in time must hold for every motion',[R+'utils/occupancy_flow_renderer.py: render_flow_from_inputs, _render_flow_points_for_one_agent_type'])
p('Boxes are covered without holes if the samples are dense','Every cell whose centre lies in the box of an agent is marked if the diagonal between neighbouring samples is shorter than a cell. With the default settings this holds for cars but not for long vehicles: a bus of eighteen metres leaves cells inside its box unmarked.','all render configurations, agents, headings and cells','tests use a few agents; whether a box has holes depends on its size, heading and position in the grid',[R+'utils/occupancy_flow_renderer.py: _sample_agent_points, _transform_to_image_coordinates'])

p('Scores of occupancy and flow','The soft overlap of two occupancy grids lies in [0, 1], is symmetric, is one exactly for equal binary grids that show something and zero exactly for disjoint ones, counts cells in both over cells in either for binary grids, and never falls when a prediction grows on occupied cells and shrinks on free ones. For a truth that is not binary an exact prediction can score less than predicting full occupancy. The flow error is the mean distance between true and predicted flow over the cells that truly move, zero exactly if these are all right; it is not the documented average over all cells, flow predicted where nothing moves is free.','all occupancy and flow grids of equal shape','tests compare a few grids with stored numbers; range, extremes and monotonicity must hold for every grid',[R+'utils/occupancy_flow_metrics.py: _compute_occupancy_soft_iou, _compute_flow_epe'])
p('Occupancy flow metrics average over the waypoints that count','Given the warped occupancies, every metric of a scene is the average of its score over exactly the waypoints that count: those with true occupancy of the kind, and for flow those with occupancy of a kind both there and at the waypoint before. The numbers of such waypoints are reported, overlaps lie in [0, 1], and a perfect prediction of binary grids gives overlap one and flow error zero. It does not hold that metrics are available: with at least one waypoint the computation always raises, as warping is disabled. Nor is the flow error the mean over moving cells: waypoints without motion dilute it.','all scenes with any number of waypoints, all predictions, any area under curve function','the only test checks that the computation raises; which waypoints count must hold for all histories of occupancy',[R+'utils/occupancy_flow_metrics.py: compute_occupancy_flow_metrics, _mean, _flow_warp'])

p('The lens and the global shutter of the camera model','A direction whose radial factor lies in [0.8, 1.2] is projected to the pixel of the OpenCV distortion; any other direction is reported as untrusted, on its own side of the principal point and outside of the image. Undistorting a pixel can only rest on a direction that projects to that pixel, stops early only within a millionth of a pixel of one that nearly does, and is exact both ways for a lens without distortion. With a global shutter a point in front of the camera gets the pixel of its direction and its depth, is valid exactly if the lens can be trusted and, when asked for, the pixel is inside of the image, and every point behind gets minus one thrice; going to the world and back is the identity wherever the undistortion found the direction. It does not always find it: there is a lens and a trusted direction whose pixel is undistorted to another direction.','all calibrations, poses, points, pixels and depths','the fixed point iteration and the bounds on the distortion matter at field edges that sample images do not reach',[R+'wdl_limited/camera/camera_model.cc: IterateUndistortion, CameraModel::ImageToDirection, CameraModel::DirectionToImage, CameraModel::CameraToImageWithDepth, CameraModel::WorldToImageWithDepthGlobalShutter, CameraModel::ImageToWorldGlobalShutter, CameraModel::ImageToVehicleGlobalShutter, CameraModel::InImage'])
p('Times of a rolling shutter','A pixel is timed linearly along the direction of the readout, between the middle of the first exposure and the middle of the last; a calibration of unknown direction ends the program. A pixel with a depth is taken to the world with the camera pose extrapolated to the time of that pixel. The equation solved in the other direction says, for a lens without distortion, that the time at hand is the time of the pixel where the point lands, and is otherwise off by the difference between the pixel scale and the direction scale. The angular velocity is used as a vector of the vehicle frame although it is documented as one of the global frame: the two agree for a level vehicle turning about the vertical, and there is a pose where the documented extrapolation contradicts the result.','all calibrations, images, velocities, pixels and depths','frame conventions of angular velocity coincide for level driving, so recorded data cannot tell them apart',[R+'wdl_limited/camera/camera_model.cc: GetPixelTimestamp, CameraModel::PrepareProjection, CameraModel::ImageToWorld, CameraModel::ComputeDepthResidualAndJacobian',R+'dataset.proto: CameraImage.velocity'])
p('Projection through a rolling shutter','For a vehicle that does not turn, a projection answers minus one, or leaves the outputs alone, or gives the pixel and the depth that the point has at some moment, and that moment is the time of the pixel if the equation is solved. If the point keeps its depth and the lens has no distortion, the answer is the one pixel that catches the point. In general it is not: the slope used by the solver has the wrong sign on the motion in depth (it equals the derivative exactly if that term vanishes), so that a car driving straight ahead gets a point reported as valid more than a hundred pixels from the pixel that catches it; another visible point leaves the outputs as they were, so that the operation returns the pixel (0, 0); and for a turning camera the transposed matrix is used for the inverse, so that going to the world and back moves the pixel.','all calibrations, images, moving points and initial outputs','the solver hides its errors behind a tolerance of a tenth of a second; the failing cases need a near point, speed and a specific timestamp',[R+'wdl_limited/camera/camera_model.cc: CameraModel::WorldToImageMovingPointWithDepth, CameraModel::ComputeDepthResidualAndJacobian, CameraModel::ImageToWorld',R+'wdl_limited/camera/ops/camera_model_ops.cc: WorldToImageOp'])

p('Pixels of a lidar range image stand where the beam ends','The point of a pixel of a range image is where the beam of that row and column ends: the first column looks almost straight behind the vehicle, columns turn clockwise by equal steps, the row has its inclination, whatever the yaw the lidar is mounted at, and the point is as far from the lidar as the range says. The conversion succeeds exactly if there is one inclination per row. With a pose per pixel the point is the one of the vehicle frame that has the same place in the world as the beam end seen from the pose of its pixel; this succeeds exactly if in addition the poses have the shape of the image and the frame pose can be inverted, is refused without a frame pose, and for a vehicle that stands still agrees with the conversion without poses. Inclinations that are not listed are the middles of equal parts of the range. The points kept are those of positive range in the order of rows and columns.','all range images, mountings, inclinations, pixel poses and frame poses','a sign or off by one of a column moves every point by a fraction of a degree, which a test on a few pixels with a tolerance does not show',[R+'utils/range_image_utils.py: compute_range_image_polar, compute_range_image_cartesian, extract_point_cloud_from_range_image, compute_inclination'])
p('Range images built from points','Building a range image puts each point in the row of the closest inclination (the first if tied) and in a column within half a column of its bearing, and an entry holds the range of the nearest counted point there or zero. Building from the points of a range image gives the range image back, with zeros for what was not positive, for every mounted lidar with distinct inclinations between straight down and straight up. It fails exactly if some point, counted or not, is exactly straight behind on the negative side of the seam and the width is even: there is a lidar looking to the right and a point behind the vehicle for which the whole conversion raises.','all lists of points, mountings, inclinations and widths','the seam is a single bearing, and the round trip must hold for every image',[R+'utils/range_image_utils.py: build_range_image_from_point_cloud, scatter_nd_with_pool'])
p('Point clouds of a frame','Parsing a frame keeps for every lidar its returns, camera projections and segmentation labels in order, and fails with a missing key exactly if some second return (or its labels) comes without the first. The point clouds of a frame are one list per calibrated lidar in the order of the lidar names; each list holds exactly the pixels of positive range, in order, each at its place in the vehicle frame, and the camera projections are listed pixel for pixel alongside. The conversion succeeds exactly if the top lidar has a first return with a pose image, and the image of every calibrated lidar fits its calibration and its camera projections cover its returns. The dictionary of a frame needs both returns of every lidar, and its inclinations are from the lowest beam although the rows are from the highest. A frame with side lidars only is refused although none of them needs the poses of the top lidar.','all frames with distinct lidar names, any number of lidars and returns, all images','which point belongs to which camera projection must hold for all images; missing returns and lidars do not occur in test frames',[R+'utils/frame_utils.py: parse_range_image_and_camera_projection, convert_range_image_to_cartesian, convert_range_image_to_point_cloud, convert_frame_to_dict'])
p('Lidar points are the same in all versions of the data','The component based data gives for every lidar the same image of coordinates, the same points and the same camera projections as the frame, succeeding under the same conditions, and is refused when poses of pixels come without a pose of the frame. In the motion data the points and the features of both returns are those of the component based data, cut in two, for side lidars and for top lidars with listed inclinations. For a top lidar whose inclinations are not listed the motion data always raises, although the points are well defined.','all range images, calibrations, poses and lidars','three copies of one conversion have to agree on every input',[R+'v2/perception/utils/lidar_utils.py: convert_range_image_to_cartesian, convert_range_image_to_point_cloud, extract_pointwise_camera_projection, get_laser_by_name', R+'v2/perception/compat_v1/context.py', R+'utils/womd_lidar_utils.py: extract_top_lidar_points, extract_side_lidar_points'])
p('Sensor data added to a motion scenario','Adding lidar data or camera tokens to a scenario appends them to what is there and keeps everything else; the two can be done in any order, and adding the same lidar data twice changes the scenario again exactly if there is any. The embeddings of camera tokens are the entries of the codebook at the tokens, and are given exactly if there is a token and all tokens are in the codebook; otherwise a value error is raised.','all scenarios, sensor data, codebooks and token lists','negative tokens would silently wrap around; the check must hold for every list',[R+'utils/womd_lidar_utils.py: augment_womd_scenario_with_lidar_points', R+'utils/womd_camera_utils.py: add_camera_tokens_to_scenario, get_camera_embedding_from_codebook'])

p('Where a ray meets a box','For a ray with no zero component of the direction, the two returned distances are exactly the ends of the interval of parameters whose points lie in the closed box, and the flag holds exactly if the ray meets the box ahead of its origin. An origin inside the box always gives a flag with parameters on both sides of zero. A zero component is replaced by one part in ten to the tenth, so the answer is exact for that tilted ray, a flagged ray comes that close to the box, and a ray that passes that far inside is flagged. The documented promises fail: two opposite face rays get different answers, a ray that never touches the box can be flagged, a still ray outside the box is flagged, a miss can return two positive parameters, and an origin on a face gives zero.','every ray origin, direction and box size','the slab arithmetic mixes signs, reciprocals and zero replacement over all directions; tests try a few axis-aligned cases',[R+'v2/perception/utils/object_asset_utils.py: get_ray_box_intersects'])
p('Frames and box coordinates of rays','The box coordinates of a point are the unique coordinates along length, width and height of the turned box, moving to box coordinates and back is the identity, distances are kept, and a ray taken to box coordinates meets the centred box for exactly the parameters for which the original ray meets the turned box. Moving rays between frames maps every point of the ray at the same parameter, and keeps lengths for rigid transforms.','every box, heading, pose, point and ray','holds for all headings and rigid transforms; tests use right angles',[R+'v2/perception/utils/object_asset_utils.py: transform_points_to_frame, transform_directions_to_frame, rotate_points_along_z, transform_points_to_box_coord, transform_directions_to_box_coord, transform_points_to_box_coord_reverse'])
p('Quantization of ray coefficients','With a positive step every value within range goes to the nearest multiple of the step, ties to even, and moves by at most half a step; values out of range saturate at the ends of 32 bit integers; quantized values survive another pass unchanged. Bucketed steps are the largest magnitude of a component divided by its number of buckets, so training samples use at most that many buckets on each side. A component that is zero in all samples gets step zero, which the codec cannot divide by.','every value, step, sample matrix and bucket list','needs all reals and the saturation boundary; tests sample typical values',[R+'utils/compression/pca_codec.py: bucketed_quantization, Codec._quantize, Codec._inv_quantize'])
p('Coding a ray image','Encoding stores the channel averages and, for every tile of the mirrored image, the quantized principal components of the offsets; decoding rebuilds every pixel from its tile. The round trip keeps the size, and with complete components and no saturation every pixel moves by at most the half steps of the components seen through the basis; with fewer components the error is measured against the projection, which is the least misfit of all coefficient choices. Codes of tiles are stable under decoding and encoding, and adding a constant to a channel changes only the stored average. Repeated coding of an image can still drift without bound, because the stored averages are recomputed from rounded pixels.','every image size, channel count, tile size, basis and image','ranges over all sizes, padding and bases; tests use one asset file',[R+'utils/compression/pca_codec.py: Pca, Codec, codec_extract_tiles, codec_combine_tiles'])
p('Coding the rays of an object asset','Encoding and decoding a camera ray component keeps the key and the image size, keeps origin and direction apart, and moves each coordinate by at most the half steps of its place in the tile. A component without an origin or a direction is refused, and so is a list of values that is not a whole number of rows.','every ray component and codec configuration for six channels','ranges over all images and configurations; the test fixture is one asset',[R+'v2/perception/utils/object_asset_codec.py: ObjectAssetRayCodec'])

p('Distance and side of a point and a segment','The squared distance from a point to a segment is the square of the least distance to a point of the closed segment, also for a segment of one point. The side of a point is left or right exactly if the signed area with the segment is at least the tolerance, and the signed distance is that of the infinite line, positive on the right. The tolerance is an area, so a point one unit away from the line can be called colinear, and a point of a long segment moved by less than the tolerance can be called left.','every segment and point','needs all configurations including degenerate segments and the exact boundary of the tolerance',[R+'math/segment2d.h: Segment2d::DistanceSqrToPoint, PointToSegmentDistanceSqr, SideOfPoint',R+'math/vec2d.h: Vec2d'])
p('Where two segments meet','The intersection of two segments is reported exactly if they are not nearly parallel and the common point of their lines is within the tolerance of both, and that point is returned; a common point of segments that are not nearly parallel is always found; the answer does not depend on the order of the segments or of their ends. The variant for coinciding segments adds nearly parallel segments with an end within the tolerance of the other one, finds all parallel segments with a common point, and never reports segments more than twice the tolerance apart. The cheap test holds exactly if the bounding boxes are within the tolerance, so it never misses segments with a common point. Small segments that cross at right angles are missed by both tests, and the cheap test can deny an intersection that is reported.','every pair of segments','tolerance boundaries and near parallel cases over all positions',[R+'math/segment2d.cc: Segment2d::Intersect, IntersectOrCoincide',R+'math/segment2d.h: MightIntersect'])
p('Moving segments and stored values','After any sequence of flips, rotations, shifts, copies and reads, the ends of a segment are where the sequence of motions puts them, and the stored length, inverse length and heading agree with the ends, so every read value is right. A segment built from a direction is right exactly if the direction has length one and the length is not negative. The heading of a segment is unique up to whole turns, but its value depends on earlier reads: a flipped segment reports plus or minus pi, and a segment of one point reports opposite directions. A negative length is stored as it is and every later sample aborts.','every built segment and every sequence of calls','ranges over all call histories; tests check single calls on fresh segments',[R+'math/segment2d.h: Segment2d constructors, Flip, length, inv_length, Sqr, heading, Tangent, PerpUnit, ShiftCenter, MoveCenter',R+'math/segment2d.cc: RotateAroundOrigin, RotateAroundPoint, trig_heading',R+'math/math_util.h: NormalizeAngle'])
p('Samples of a segment','A sample at a distance from the start is at that distance along the segment and the answer tells exactly whether it is before the end; a negative distance aborts and a segment of one point returns it with false. The sampled points start at the start, are the given distance apart, stay on the segment, never contain the end, and come within the distance of the end; their number is the least that covers the segment.','every segment, distance and spacing','unbounded number of samples for all lengths and spacings',[R+'math/segment2d.cc: Segment2d::Sample, SamplePoints'])

p('Streaming metric ops accumulate every batch in order','After the local variables have been initialised, running the update op that get_detection_metric_ops, get_tracking_metric_ops or get_motion_metric_ops returns, once for each batch, leaves in each variable exactly the rows of all the batches, in the order they were fed, however the data is cut into batches; the three functions do not disturb each other. One update is accepted exactly when the batch tensor has a first dimension, its other dimensions are not zero and their product divides the number of elements stored so far. A batch whose boxes have another width than the stored ones is therefore sometimes accepted, and the stored numbers are cut into rows anew. Two calls of the same function in one graph share their variables, so each reports on the data of both. With an unknown box type initialisation fails.','all layouts, all histories of initialisations and updates of the three functions, all batches and batch sizes','Tests run one or two batches of one shape with one call per graph.',[R+'metrics/python/detection_metrics.py: _update, get_detection_metric_ops',R+'metrics/python/tracking_metrics.py: _update, get_tracking_metric_ops',R+'metrics/python/motion_metrics.py: _update, get_motion_metric_ops'])
p('Running the update ops of all metrics adds a batch once','Running every update op of the returned dictionary, together or one after the other, has the effect of running the update once, when the first breakdown name that the filter keeps does not come again later; otherwise, and when the filter keeps no name, nothing is ever added. For a configuration without repeated generators or difficulty levels the update is run once whenever some name is kept. A configuration that names the same breakdown twice loses the update, and so does a filter that keeps nothing.','all lists of breakdown names, all configurations, filters, stored values and batches','Tests use one configuration with distinct breakdowns.',[R+'metrics/python/detection_metrics.py: get_detection_metric_ops',R+'metrics/python/tracking_metrics.py: get_tracking_metric_ops',R+'metrics/python/motion_metrics.py: get_motion_metric_ops',R+'metrics/python/config_util_py.py: get_breakdown_names_from_config'])
p('The dictionary of metrics has exactly the metrics of the kept breakdowns','A key of the returned dictionary is a breakdown name kept by the filter, a slash and a metric name, and all of these are present; its value op reads the output of that metric at the last position of that name in the list of breakdown names, and only the first metric of the first kept name can carry the update op.','all lists of breakdown names without a slash, all filters, precisions and keys','Tests look up a few keys.',[R+'metrics/python/detection_metrics.py: get_detection_metric_ops',R+'metrics/python/tracking_metrics.py: get_tracking_metric_ops',R+'metrics/python/motion_metrics.py: get_motion_metric_ops'])
p('Recall at a precision','For every non empty curve with recalls that are not negative, the recall at precision p that the detection metrics report is the largest recall among the score cutoffs with a precision strictly above p, and 0 if there is none. At precision 1 it is therefore 0 for every detector, also for a perfect one.','all precision recall curves and all precisions','Tests check one curve and one precision.',[R+'metrics/python/detection_metrics.py: get_detection_metric_ops'])
p('Motion metric inputs: accepted shapes and default ids','Inputs with the documented shapes are accepted exactly when the number of ground truth agents equals the number of agents of a joint prediction; with more ground truth agents the documented input stops with an assertion. When no scenario ids are given, each scenario is named by its position in its batch, so scenarios at the same position of different batches get the same id, and the accumulated ids are distinct exactly when at most one batch is not empty.','all sizes, all sequences of batch sizes','Tests pass ids and a single batch.',[R+'metrics/python/motion_metrics.py: get_motion_metric_ops'])

p('Box matching returns a best one-to-one matching per batch element',
'Matching two sets of boxes with the default algorithm, for inputs of shape [N, D] or [B, N, D] whose batch sizes and columns fit the box type, returns for every element of the batch a one-to-one set of pairs whose boxes have positive extents (so zero boxes are never matched), whose overlap reaches the threshold and whose affinity is not zero. No other such set of that element has a larger total of overlap times affinity in millionths. The pairs of an element depend on the boxes of that element only and their predictions ascend. The k-th entries of the four result tensors describe one pair: the indices are offset by the batch element, which the index divided by the number of boxes recovers, and the overlap and affinity are those of that pair. No box appears twice.',
'all batches, numbers of boxes, box coordinates, box types, thresholds, error tolerant configurations, and all overlap and affinity functions with values in [0, 1]',
'the number of possible matchings grows factorially and ties and invalid boxes shift positions between subsets, so examples cannot settle optimality or index bookkeeping',
[R+'metrics/python/matcher.py: match, _create_config',R+'metrics/ops/matcher_ops.cc: MatchBoxes, ParseBoxTensor, IsValidBox, Compute',R+'metrics/matcher.cc: HungarianMatcher::Match'])
p('Box matching refuses bad shapes and only works with the Hungarian matcher',
'Box matching reports an error for every pair of inputs whose ranks, batch sizes or columns do not fit the box type. A configuration of the error tolerant metric that is given but not enabled counts as none. The documented choice of the matching algorithm is refuted: with any algorithm other than the Hungarian one the process aborts on every batch that is not empty, because the score first matcher is called without the vector it checks for.',
'all inputs, box types, matching algorithms and configurations',
'the failure is a process abort in native code that no test of the default algorithm reaches, and shapes are unbounded',
[R+'metrics/python/matcher.py: match',R+'metrics/ops/matcher_ops.cc: OpenDatasetMatcherOp::Compute, MatchBoxes',R+'metrics/matcher.cc: ScoreFirstMatcher::Match'])

p('The detection tool evaluates each frame with exactly its objects',
'The command line detection tool forms one example for every camera image or sweep (context name, camera and timestamp) that has an object. The example contains exactly the predictions and the ground truths of that frame in file order. Frames are never merged although the context name and the camera are joined into one text. Every prediction is in exactly one example. Ground truths without lidar points are left out, all others are in exactly one example, with the annotated difficulty or else LEVEL_2 for 1 to 5 points and LEVEL_1 for more.',
'all lists of predictions and ground truths with any context names, cameras, timestamps, point counts and levels',
'a collision of joined keys or a lost object depends on the names and the order of the objects in the files, which are unbounded',
[R+'metrics/tools/compute_detection_metrics_main.cc: Compute'])
p('The error tolerant detection tool evaluates visible ground truths with their camera synced boxes',
'The command line tool for longitudinal error tolerant metrics evaluates exactly the ground truths with at least one top lidar point and a nonempty most visible camera. It replaces their box with the camera synced box, grades their difficulty by the top lidar points unless it is annotated, and groups them and the predictions by frame. It aborts exactly when one of these ground truths names a camera that does not exist.',
'all lists of predictions and ground truths',
'which objects are dropped, kept or fatal depends on combinations of optional fields over files of any size',
[R+'metrics/tools/compute_detection_let_metrics_main.cc: Compute'])
p('The tracking tool evaluates each sequence in order of time',
'The command line tracking tool forms one sequence for every context with an object and one frame for every timestamp of that context with an object. The frames ascend strictly in time whatever the order in the files, and each contains exactly the predictions and ground truths of that context and time in file order. That a frame belongs to one camera, as in the detection tool, is refuted: objects of different cameras at the same time share a frame, and ground truths without points stay.',
'all lists of predictions and ground truths',
'tracking results depend on the order of the frames, and files can list objects in any order',
[R+'metrics/tools/compute_tracking_metrics_main.cc: Compute'])

p('Reading result files',
'A file of objects written in the protocol buffer format is read back as exactly those objects, and a submission file is read by the latency comparison as its results whenever the bytes of its method name do not happen to be well formed protocol buffer fields; when they are, no results are read at all and no error is reported.',
'every list of well formed fields, every list of objects and every submission; the defect has a concrete method name, MyNet, as witness',
'The comparison first tries to parse the file as a list of objects and the outcome depends on the bytes of the method name, so a test with one name does not show what another does.',
[R+'latency/compare_objects_file_to_submission_main.cc: ReadObjectsFromFile', R+'protos/metrics.proto: Objects, NoLabelZoneObject', R+'protos/submission.proto: Submission'])
p('Submission shards',
'The submission tool accepts a set of input files exactly when there is at least one file, at least one shard, the template names a method and an account, and every file can be read; then every object whose score is not below the threshold and whose box has no NaN is in exactly one shard, that of its position in its file, in the order of the files, with its three extents raised to a smallest size and nothing else changed; a file is read as its objects unless its last byte is a line feed. A NaN score is kept, the score 0.03 as a float is dropped, valid files ending in a line feed byte are refused and files of one object each all go to one shard.',
'every number of shards, every list of input files and every template',
'Which objects survive and where they go depends on all positions and values; the refused files differ from accepted ones in one byte.',
[R+'metrics/tools/create_submission.cc: Run, ValidateFlags, ReadFileToString'])

p('Latency results against a submission',
'If the comparison accepts, then in every frame that has latency detections at or above the minimum score there is a best one to one matching of them with the detections of the submission in which at most one in twenty detections lacks a partner of the same type, overlapping at least the threshold, with a score within 0.05; if this holds for every best matching, the comparison accepts; in particular results that are equal up to order are accepted when no two different detections in the same place have scores further apart. Equal results with two boxes in the same place can be refused because of their order alone, and frames without latency detections are never compared.',
'every list of latency detections with at least one member, every list of detections of the submission, every overlap function with values in the unit interval, every positive threshold and every minimum score',
'Acceptance depends on an optimal assignment in every frame; ties and empty frames are rare in tests.',
[R+'latency/compare_objects_file_to_submission_main.cc: Compute, GetConfig'])
p('Objects from latency results',
'The conversion of the results of the latency evaluator makes one object for each row of the arrays, in order, with the context, time, score, type and box numbers of that row and the camera whose image was the only input for boxes in images, leaving out exactly those below the score threshold or smaller than a centimetre; boxes in images with any other input are an error; boxes with neither four nor seven numbers disappear silently, and the checks differ from those of the submission tool they are said to copy.',
'every set of arrays of one frame, every list of input fields',
'The arrays, their widths and the values at the thresholds are unbounded; the difference between the two tools only shows when both run on the same unusual values.',
[R+'latency/make_objects_file_from_latency_results.py: make_object_list_from_subdir', R+'latency/wod_latency_evaluator.py: process_example', R+'metrics/tools/create_submission.cc: Run'])

p('Segmentation metrics tool',
'The tool compares, frame by frame in ascending order of context and time, the labels of the top lidar with those predicted for it, the last frame given for an identity being the one that is used; the metrics are the intersections over unions of the classes 1 to 22 over all points of the labelled frames, and they are printed exactly when every labelled frame can be compared; the order of the files does not matter, predictions for frames without labels are not used, and a labelled frame without prediction counts every point as wrong. Labels with instance ids are counted as if the ids were classes, a frame without prediction stops the tool if its two returns differ in size, and a frame whose second return is not set makes the tool use released memory.',
'every two lists of frames with any lidars and any labels',
'The tool is a main program without tests; duplicated frames, missing predictions and instance channels occur in any number and order.',
[R+'metrics/tools/compute_segmentation_metrics_main.cc: Compute, Uncompress, Flatten, CreateEmptyPrediction'])

p('Motion metrics op',
'The op returns one row for each of vehicle, pedestrian and cyclist and each configured step, in the order of the breakdown names; a row holds the metrics that the evaluation of the parsed scenarios gives for its type and step if some prediction that is counted has an object of that type as its most important one, and -1 in all five outputs otherwise; the op fails exactly if the evaluation fails for some scenario, and neither the order of the scenarios nor that of the traversal of the hash map matters. Two configurations of the same step with different thresholds are mixed up in both of their rows, and a type whose predictions have nothing valid to be measured against gets zero, a perfect result, instead of -1.',
'every configuration, every list of scenarios with predictions, every order of the scenarios',
'The rows depend on accumulated statistics over any number of scenarios and on an unspecified hash order; tests use one scenario and distinct steps.',
[R+'metrics/ops/motion_metrics_ops.cc: MotionMetricsOp, CreateOutput, ComputeImpl', R+'metrics/motion_metrics.cc: ComputeMetricsStats, ComputeMotionMetrics'])

p('Box labels become components','Extracting the box labels of a frame gives, in order, one component for every label with a box, holding exactly the numbers of that label: the seven numbers of a laser box with the speed and acceleration when there is metadata, the four numbers of a box on an image, the camera number of a box moved to the time of a camera. A label with an incomplete box, or metadata without speed or acceleration, raises a failed assertion, an unknown camera name a key error, and either stops the extraction of the frame; the documented extraction error is never raised. Laser keys are distinct exactly when the ids are, camera keys when no two labels of one camera number have the same id, and an association can be joined with a camera box exactly when a label of that camera and id has a box. The id of a projected box in its documented form, an object, an underscore and a camera name, is read exactly when the object has 22 characters, and then gives back both. The separator is not checked, so that different ids may give the same key, the camera of the label is not compared with that of the id, rear cameras are refused, a missing number is read as zero, and an association may name a camera box that is not there.','all frames and labels with all combinations of set fields','which fields are set and how ids are formed has too many combinations to list',[R+'v2/perception/compat_v1/box.py: _get_box3d, _get_box_axis_aligned_2d, _get_metadata_vector, _get_difficulty, LiDARBoxComponentExtractor, LiDARCameraSyncedBoxComponentExtractor, _parse_lidar_object_id, ProjectedLiDARBoxComponentExtractor, CameraBoxComponentExtractor, CameraToLiDARBoxAssociationComponentExtractor', R+'v2/perception/compat_v1/interfaces.py: ComponentSource, ExtractionError', R+'v2/perception/box.py: LiDARBoxComponent, ProjectedLaserLabelKey, CameraToLiDARBoxAssociationKey', R+'v2/perception/camera_image.py: CameraName'])

p('Keypoints, lidar data and calibrations become components','Extracting keypoints gives for every label that has a list of them parallel lists of types, positions and visibility with one entry per keypoint in order, or the extraction error exactly when some keypoint lacks a required field. Extracting lidar data, camera projections and point labels gives in order one component for every laser with data in one of its returns, holding what the bytes of each return decode to; pixel poses are those of the first return; all components of a laser share a key and keys are distinct exactly when laser names are. Segmentation mappings, inclinations and object counts can be read back, and a camera needs nine intrinsic numbers. Positions in space of camera keypoints and poses of the second return are dropped, a position without numbers counts as zero, and an empty list of keypoints still gives a component.','all labels, keypoints, lasers, byte contents and decoders','sets of present and missing fields cannot be enumerated',[R+'v2/perception/compat_v1/keypoints.py: _camera_hkp_from_label_proto, _lidar_hkp_from_label_proto, CameraHumanKeypointsFrameExtractor, LiDARHumanKeypointsFrameExtractor', R+'v2/perception/compat_v1/lidar.py: LiDARComponentExtractor, LiDARCameraProjectionComponentExtractor, LiDARPoseComponentExtractor', R+'v2/perception/compat_v1/segmentation.py: CameraSegmentationLabelComponentExtractor, LiDARSegmentationLabelComponentExtractor', R+'v2/perception/compat_v1/context.py: CameraCalibrationComponentExtractor, LiDARCalibrationComponentExtractor, _parse_object_counts', R+'v2/perception/utils/lidar_utils.py: parse_range_image, get_laser_key'])

p('What the converter writes the reader can read','An example converted from any scenario is accepted by the occupancy flow reader exactly when the conversion used 128 agents, 11 past and 80 future steps, 20000 road samples and 16 traffic lights per step; otherwise reading raises. What is read under each of the 56 names is what was written under it, and the 17 written names that are not read are listed. For a batch, the position and heading of the self-driving cars hold one value for each example whose car was given a row, in order, and none for the others, so there is one per example exactly when every car has a row. The car has a row if there is room for all tracks, if it is modeled, or if it comes before the others, and none if there are too many tracks and the others come before it. Defects stated as refutations: examples converted with the default configuration (30000 road samples) cannot be read at all, and in a batch where one car has no row the values of the remaining cars shift to other examples.','every scenario, configuration, platform and batch of converted examples','whether the declared sizes agree with those written, and whether the car survives the selection of agents, depends on the numbers of tracks and samples in the scenario, and the shift needs a batch with a dropped car',[R+'utils/occupancy_flow_data.py: parse_tf_example, add_sdc_fields',R+'data_conversion/scenario_conversion.cc: ScenarioToExample'])

p('Predictions are measured with the speed of the nearest ground truth','When the speeds of predictions are estimated, every prediction takes the declared speed of the ground truth of its frame that is nearest to it, the first of several equally near ones, zero where none is declared or there is no ground truth, and nothing else of it changes; frames are treated one by one and their numbers must agree. A prediction with the type of that ground truth is then put in its velocity class. For detection this happens exactly when measurements are broken down by velocity and the first prediction declares no acceleration, for tracking exactly when the first frame has a first prediction that declares no speed. Defects stated as refutations: detection replaces declared speeds and leaves missing ones because it looks at the acceleration, tracking looks at one prediction only, and a first frame without predictions leaves all predictions stationary.','every list of predictions and ground truths with finite coordinates, every frame sequence and configuration, every rounding of the square root','which ground truth is nearest, ties, and which prediction comes first depend on the whole input; the test in the repository has two predictions and no ties',[R+'metrics/metrics_utils.cc: EstimateObjectSpeed, HasVelocityBreakdown, Argmin',R+'metrics/detection_metrics.cc: ComputeDetectionMeasurements',R+'metrics/tracking_metrics.cc: ComputeTrackingMeasurements'])

p('Examples are compared feature by feature','Two examples are reported equal exactly when they have the same feature names and, name by name, features of the same kind with equal bytes or integers, or with float lists of the same length whose numbers differ by at most the absolute tolerance plus the relative tolerance times the second number (infinite numbers must be equal, NaN is never close). The order of the features does not matter, a larger tolerance accepts more, an example equals itself exactly when it holds no NaN, and with an absolute tolerance and no empty float lists the two can be exchanged. Defects stated as refutations: a feature of any other kind is equal to an empty float list on the right, a relative tolerance is not symmetric, and equality is neither reflexive nor transitive.','every two examples with unique names and every tolerance','the exception needs a particular combination of kinds, and exchanging, reordering and enlarging range over all examples',[R+'utils/example_utils.py: examples_equal'])

p('Wireframes and crops of keypoints','A wireframe has one dot for each type present, at the last keypoint of the type, with the color, size and name of the type and a mark when it is occluded. Each edge gives its lines exactly when all its points are present: one line, or two halves meeting in the middle, or two halves between the means of two groups of points. A wireframe is built exactly when every type present has a color, a size and a name and every drawn edge between groups has colors; with the default configurations exactly when every type is one of the fifteen known ones, and otherwise the call fails with KeyError. A crop shows exactly the pixels from the rounded left and top sides up to the rounded right and bottom sides of the enlarged box, and every keypoint is kept and moved so that the pixel under it stays under it. Defects stated: the last row and column of the image are never shown even if the box covers them, a box left of the image shows a part of the image, and an empty laser wireframe is built but cannot be drawn.','all lists of keypoints, configurations of edges, colors and sizes, images, boxes and margins','the lines depend on which subset of the points is present, and crops on how the sides of the box fall against the image; tests draw one full skeleton and one box inside the image',[R+'utils/keypoint_draw.py: _build_wireframe, build_camera_wireframe, build_laser_wireframe, draw_laser_wireframe, crop_camera_keypoints, MultipointEdge, BicoloredEdge, SolidLineEdge'])

p('Images of occupancy and flow','Every pixel of an occupancy image is white covered by the road in black, vehicles in red, pedestrians in green and cyclists in blue, in this order, each with the amplified probability as strength and transparency, up to four divisions by one plus epsilon, so it stays in [0, 1] and is at most four epsilon darker than the exact picture; a missing class counts as zeros, the amplification keeps order, zero and one, and raises values when gamma is above one. A flow is accepted exactly with three dimensions or more and two channels; its hue is the direction of motion in [0, 1), its saturation the length relative to the largest length of the same image (or to the given length, capped at one), and each image of the batch can be scaled without effect. A pixel of a flow image is the tinted color of the swapped flow darkened by road and trails, lies in [0, 1], and where road and trails are the same, one color stands for one flow. Defects stated: an empty pixel is not white, a half likely vehicle is darker in red than both no vehicle and a certain one, and a saturating length of zero removes all color.','all probabilities, road values, gamma above zero, flows, batches, shapes and epsilon','blending is nonlinear in four layers and the hue covers a circle; tests compare a few pixels or only the shapes',[R+'utils/occupancy_flow_vis.py: occupancy_rgb_image, flow_rgb_image, _alpha_blend, _add_grayscale_layer, _optical_flow_to_hsv, _optical_flow_to_rgb'])

p('Plots of map features','A map is plotted exactly when no polygon is empty and some feature has something to draw, and otherwise the call fails with IndexError. When neighbouring features have different ids, the plot has exactly one trace for every visible feature, in the order of the features: its polyline, its position, or its polygon closed at the first point, in the color and dash of its kind, and one marker in that color for each of the points. In general the points are drawn in stretches of one id. Defects stated: stop signs are never drawn as larger points and lanes never wider, because a member of a plain enumeration is compared with a number; solid double yellow lines are left out; two neighbouring features with one id are joined into one trace.','all lists of map features with all types, ids and points','the traces depend on runs of ids over all features and on every type in four tables; tests cannot look at all combinations, and the figure is judged by eye',[R+'utils/plot_maps.py: FeatureType, MapPoints, plot_map_points, plot_map_features'])

p('Drawings and animations of scenarios','Each object is drawn as a rectangle that covers exactly the points within half its length along and half its width across its heading around its center, in the palette color of its index (-6 to 5, negative ones counting from the end) at half opacity; any other index fails with IndexError, after the objects before it were drawn. The map shows each road edge and road line as one dashed line through all its points, in order, and skips all other features; it fails with ValueError exactly when one of these has no points. After any frames shown in any order, an animation shows the lines of the map and exactly the objects of the last frame: the nested loops remove all earlier rectangles whether or not the list of rectangles changes while it is looped over. Defect stated: one road line without points stops the drawing of a map with other features.','all objects, palette indices, maps, state arrays and sequences of frames, with exact real arithmetic','the covered region is a set of points for every heading, and removal while looping leaves every second rectangle in a single pass, so that it must be shown for every number of objects and every history of frames',[R+'utils/sim_agents/visualizations.py: add_map, add_road_edge, add_road_line, get_bbox_patch, add_all_current_objects, get_animated_states'])

p('Camera operations on tensors','The three camera operations read extrinsics, intrinsics, sizes, shutter direction, pose, velocity and times from the documented places of their tensors, accept exactly the documented shapes of these, and give a result of the declared shape exactly when the shutter can be prepared and every point can be handled. Row k of a result is the pixel, the depth if asked for and one or zero of point k alone (with velocity k for moving points), or the world point of pixel k. Moving points at rest give the same as points. An unknown shutter direction ends the program even when there are no points, and every failure ends the program. With a lens without distortion and a global shutter, pixels taken to the world and back are returned with their depths, all valid. Defect stated: the shape of the velocities is never checked, so velocities of two numbers are read across the rows, and the first point gets the first number of the second as its vertical speed.','all tensors, cameras, images, numbers of points, points and velocities, with exact real arithmetic','places in a vector of 26 numbers and rows of a result can be swapped without any visible failure, and the reads across rows happen only for shapes nobody tests',[R+'wdl_limited/camera/ops/camera_model_ops.cc: ParseInput, WorldToImageOp, WorldToImageMovingPointOp, ImageToWorldOp',R+'wdl_limited/camera/ops/py_camera_model_ops.py: world_to_image, world_to_image_moving_point, image_to_world'])

p('Scene features: whose they are, over which steps, and the displacement error',
'The features of a submitted scene have one row per evaluated agent (the AV and the tracks to predict), in increasing order of ids, whatever the order of the submission. Each row holds the type, validity, kinematics, nearest distance, collisions, road edge distance and offroad flags of its own agent at the 80 steps after the current one. The displacement error is the sum over the simulated steps that are valid in the log divided by the number of valid logged steps including the history, so it is never more than the mean over the simulated steps and is not that mean. Scenes with a repeated agent, an ambiguous agent, an evaluated agent that is not simulated, a log of other than 91 steps or a map without road edge have no features; the others have. Sample i of the rollouts features belongs to scene i and to the same agents as the log features.',
'all scenarios, submitted scenes, rollouts, maps, set orders, kinematic and red light extractors',
'Tests use one recorded scenario; they cannot cover every order of agents, validity pattern, repeated id and map, and a row given to the wrong agent only shows when agents differ.',
[R+'wdl_limited/sim_agents_metrics/metric_features.py: compute_metric_features, compute_scenario_rollouts_features, MetricFeatures',R+'wdl_limited/sim_agents_metrics/trajectory_features.py: compute_displacement_error',R+'utils/trajectory_utils.py: gather_objects_by_id'])

p('Colors of camera segmentation labels',
  'A color map built from a table of classes holds each color at its class, is black at unlisted classes and ends at the largest class. Coloring semantic labels gives each pixel the color of its own class and fails if any label is outside the map. Coloring panoptic labels keeps red and blue, keeps the green of pixels without an instance, and shifts the green of an instance by 41 times its number modulo 100 less 50, so that two instances of a class look alike exactly when their numbers differ by a multiple of 100. The shifted green is not cut to the byte range but wraps, images one pixel wide lose an axis or fail, four default classes share one color, and labels of a narrow integer type get another shift.',
  'every table of classes, every pair of label images, every numpy integer type of labels',
  'tests compare a few pixels of one image; the wrapping, the one pixel wide image and the type of the labels do not occur there',
  [R+'utils/camera_segmentation_utils.py: _generate_color_map, semantic_label_to_rgb, panoptic_label_to_rgb'])

p('Combined keypoint metric: complete, distinctly named and correctly fed results',
  'A configuration of the combined keypoint metric is accepted exactly when every keypoint type of the source order and of the subsets has a scale. A result has each expected name exactly once and no other: a mean position error, one percentage of correct keypoints for each threshold, one precision for each threshold and one average precision for each subset, in that order. Each value is the value of a metric of its own that is fed the keypoints of that subset only, with the scales of their types. No result is lost exactly when the thresholds of a metric are written differently with two digits: 0.501 and 0.502 share a name and one is lost. Without weights every batch of the right shape is accepted. The configuration accepts a subset with keypoints that the source does not have, and then no sample is ever accepted. Weights of objects are never accepted, and weights of keypoints are not restricted to the subsets, so none of the default configurations accepts them. The default configurations give 144 results, with positive scales that are the same for the left and the right keypoint of a pair.',
  'all configurations, names, thresholds, batches and weights',
  'The names depend on formatted numbers and the results on every subset and threshold; a lost result is simply absent from the dictionary.',
  [R+'metrics/python/keypoint_metrics.py: CombinedMetricsConfig, create_combined_metric, MetricForSubsets, CombinedMetric, _LayerDictWrapper'])

p('Latency evaluator: complete results, error and crash points, and second runs',
  'The latency evaluation succeeds exactly when the submitted model accepts the requested arrays of every frame directory, one after the other in the order of the listings, and gives three arrays named boxes, scores and classes with the same number of rows each time. Then the results of every frame are complete, the latency file holds one elapsed time for each frame in that order, and no other path is changed. After an error the earlier frames are complete, the frame of the error has its directory but no new file, and the later frames and the latency file are as they were, so that the file may still hold the latencies of an earlier run. After a crash at any point every file is as before, visibly incomplete or final; some first frames are complete and all frames but the next one are untouched, and the latency file is touched only when all frames are complete. A second run after a crash leaves the same files as a single run. A field that is requested twice is given once but written twice to the list of input fields.',
  'all directory trees, submitted models with any state, outputs, earlier files and crash points',
  'Tests do not stop the program between two writes, and look at the files of a successful run only.',
  [R+'latency/wod_latency_evaluator.py: process_example'])

p('Ground truth of occupancy and flow agrees with the scene, end to end',
  'The ground truth of the occupancy flow task is made exactly when boxes are sampled, every agent has a state for each past, present and future step and the future splits into equal waypoints no longer than the history. Then at every cell and for every class, the observed (occluded) occupancy of a waypoint is 1 exactly when an agent of the class that was (was never) valid up to the present has a sample in the cell at the time of the waypoint, or at one of its times for cumulative waypoints, and 0 otherwise; the flow origin is 1 exactly when any agent of the class was there one waypoint earlier, and equals the greater of the two occupancies of the previous waypoint; the flow is the mean displacement of all samples that moved into the cell since one waypoint earlier. The trails are 1 where an agent is now, a power of the decay by the time since the last agent, and 0 where none has been.',
  'all scenes, agents, configurations, cells, waypoints and classes',
  'It relates six renderings over different ranges of time, shifted by sizes that depend on the configuration; tests check shapes and single cells.',
  [R+'utils/occupancy_flow_grids.py: create_ground_truth_timestep_grids, create_ground_truth_waypoint_grids, create_ground_truth_vis_grids',R+'utils/occupancy_flow_renderer.py: render_occupancy_from_inputs, render_flow_from_inputs'])

p('Boxes of predicted trajectories and the overlap rate',
  'The motion metrics turn a predicted trajectory, which has positions only, into boxes before asking whether they overlap other tracks. The box at the first and at the last step faces the way to the next or from the previous position; in between it faces halfway between the two ways, or east when they are opposite. Moving the whole trajectory leaves these headings alone and turning it turns them, as long as it moves and does not reverse. Boxes that overlap have a point in common, boxes without a common point do not overlap, and without contact at the edges the verdict is exactly whether the area of the common part is above the threshold. A prediction that stays in place always faces east, so the correct prediction that a parked car stays can be counted as an overlap with a car it does not touch; a trajectory of one position has no box and the overlap test on it breaks when the other track surrounds the origin; with contact at the edges an overlap can be missed depending on the order.',
  'every trajectory, step, box size, tracked box and rigid motion of the plane',
  'Tests use trajectories that drive on; standing still, reversing and touching edges are never combined with a neighbour, and the claim is about all trajectories and boxes.',
  [R+'metrics/motion_metrics_utils.cc: PredictionToPolygon, AverageAngle, StateToPolygon', R+'metrics/motion_metrics.cc: ComputeOverlapRate'])

p('Making, checking and moving convex polygons',
  'A polygon made from at least three points keeps the first one and leaves out points that follow a kept one at less than 1e-10, so that no kept point is close to the next one and every given point is within 2e-10 of a kept one; it is unchanged exactly when no neighbours and not the two ends are close, one or two remaining points are repeated to give four, and fewer than three given points are an error. The bounding box is the smallest upright one around the points, after making the polygon and after any sequence of shifts and rotations, which carry the points as rigid motions: distances, areas and what is inside do not change. The convexity check accepts every convex polygon as counter-clockwise, and is exact for three and four corners that turn clearly. It also accepts clockwise polygons, whose inside is then found outside, and with more corners it accepts a spiral that is not convex in either direction; the two ends can still be close after the removal, and the empty polygon cannot be rotated.',
  'every list of points, polygon, sequence of movements and tested point',
  'Tests try a handful of polygons; which shapes the check lets through and that boxes stay exact over any history of movements range over all of them.',
  [R+'math/polygon2d.cc: RemoveConsecutiveDuplicatePoints, BuildFromPoints, IsConvexHull, ShiftCenter, Transform'])

p('Batches of keypoints and boxes, and precision and recall of visibility',
  'Keypoints of several objects can be put into one batch exactly when there is at least one object and all have the same number of keypoints and dimensions; anything else, batches of batches included, is a ValueError. In the batch, every location and visibility of every object is found at its index, and an object is said to have a visible keypoint exactly when it does. Boxes can be put into a batch when they have the same dimensions and all or none have a heading; a mixture is an AssertionError and other shapes a ValueError. The corners of a box lie around its center at its size. Precision of visibility is the share of the weights of keypoints visible in both in those predicted visible, and recall in those labelled visible, over everything seen so far, and zero when there is nothing to divide by. Neither order nor batches matter, both lie between zero and one for weights that are not negative and are one exactly when nothing of positive weight is wrong, swapping labels and predictions swaps them, and locations and the difference of occluded and missing do not matter.',
  'every list of keypoint tensors, boxes and calls of the metrics, with every shape of weights',
  'Tests use two or three objects in one batch; the claims range over all numbers of objects, all weights and all ways to split and order the calls.',
  [R+'utils/keypoint_data.py: KeypointsTensors, stack_keypoints, BoundingBoxTensors, stack_boxes, _stack_optional_headings', R+'metrics/python/keypoint_metrics.py: KeypointVisibilityPrecision, KeypointVisibilityRecall'])

p('The area under the precision recall curve of occupancy','For all grids of true and predicted occupancy of one shape, the area the occupancy metrics report is accepted exactly if all predictions lie in the unit interval, and then: it lies in the unit interval; it is the exact area under the curve of precision over hits, interpolated in the number of positives between 100 levels, divided by the number of occupied cells; it is 0 exactly if no cell is occupied and 1 exactly if all cells are occupied or one of the levels k/99 separates occupied from free cells; predictions that no level tells apart score the share of occupied cells; it does not depend on the order of the cells and only on the levels of the predictions, so a perfect ranking below the first level scores no better than a constant (refuted as a function of the ranking). The three averages over waypoints lie in the unit interval, and are 1 for exactly predicted binary grids if a waypoint counts.','all grids of real numbers, of any size, and all sequences of waypoints','The value is a sum of 99 terms with logarithms over counts; a few grids cannot show its bounds, when it is 0 or 1, or that it is an exact area.',[R+'utils/occupancy_flow_metrics.py: _compute_occupancy_auc, compute_occupancy_flow_metrics'])

p('The realism score of a scenario',
'For histograms of at least two bins and coins, all smoothed, and features of at least one rollout, one object and two steps: the score of a time series feature is the geometric mean, over the objects and steps where the feature is valid in the log, of the smoothed share of simulated values that fall in the bin of the logged one, and is NaN exactly if no object and step is valid; the score of an event is the geometric mean over all objects of the smoothed share of rollouts that agree with the log on whether it happens at a step that counts; every score is strictly between zero and one; the realism score is their weighted sum, and is NaN exactly if no step of any object has the step and the ones two before and two after valid or no vehicle has a valid step; for the configurations and weights shipped for both challenges it is otherwise strictly between zero and one. A scenario without vehicles, or shorter than five steps, therefore has no score although its objects are valid.',
'all configurations of that kind, all numbers of rollouts, objects and steps, all features, validities and object types',
'The tests compare one stored scenario with a stored score; whether the score exists and stays in range depends on all validity patterns and object types.',
[R+'wdl_limited/sim_agents_metrics/metrics.py: compute_scenario_metrics_for_features_bundle, _reduce_average_with_validity, _compute_metametric, load_metrics_config', R+'wdl_limited/sim_agents_metrics/estimators.py: log_likelihood_estimate_timeseries, log_likelihood_estimate_scenario_level'])

p('Column types of components',
'For every component class with distinct column names: it has a schema exactly if every leaf field declares a column type, and the schema lists the columns of every instance in the same order; the row of an instance fits the schema, for any notion of a value fitting a type that accepts null, exactly if every leaf value of the instance fits the type declared for that leaf, missing dataclasses giving nulls. All component classes of the perception dataset have a schema; a column that two of them share is part of the key and has the same type in both, so that tables can be joined; all columns of a repeated field are lists, which the library does not ensure for other classes.',
'all trees of dataclasses, all column types, all instances, all notions of fitting, and all pairs of component classes of the dataset',
'Tests compare the schema of one or two sample classes with a stored one; agreement of names, order and types with the rows must hold for all classes and instances.',
[R+'v2/component.py: create_column, flatten_arrow_types, flatten_dict, _column_arrow_type', R+'v2/column_types.py: Transform, Box3d', R+'v2/perception/base.py: SegmentKey, FrameKey, LaserKey'])

p('Example submissions of the latency challenge','The multiframe example gives its network the returns of the newest frame followed by the returns of the two older frames moved to the newest vehicle pose, in order and with range, intensity and elongation unchanged, exactly if all six requested arrays are there, and reads no others. A moved point stays at its place in the world for all points and old poses exactly if the rows of the newest rotation are orthonormal; distances within a frame are then kept, and a point moved to its own pose does not change. The boxes it returns have positive sizes, headings strictly between minus pi and pi and scores strictly between 0 and 1, with as many scores and classes as boxes. The 2D examples report exactly the detections whose class the challenge knows, in order, with box, score and class lined up; the TensorFlow one gives boxes in pixels only for square images, because rows and columns are swapped, and the PyTorch one reports nothing after the first detection. The saved model examples pass on the visible returns of all five lidars, or every pixel, with intensities squashed in an order preserving way.','all range images, poses, keyword arguments, networks, detections and image sizes','An example is run on a few frames, if at all, and a swapped image size or a lost detection does not make it fail; the place of a point in the world must be kept for every pair of poses.',[R+'latency/examples/tensorflow/multiframe/wod_latency_submission/model.py: transform_point_cloud, get_model, run_model',R+'latency/examples/2d_challenge/tensorflow/wod_latency_submission/model.py: translate_label_to_wod, run_model',R+'latency/examples/2d_challenge/pytorch/wod_latency_submission/__init__.py: translate_label_to_wod, run_model',R+'latency/examples/pytorch/from_saved_model/submission/lib/wod_latency_submission/__init__.py: _process_inputs',R+'latency/examples/tensorflow/from_saved_model/wod_latency_submission/model.py: Model, run_model'])

p('The baseline of the sim agents tutorial','The baseline of the sim agents tutorial makes rollouts exactly for scenarios whose tracks are equally long and reach the eleventh step, with at least one agent to simulate and each such agent on one track; the noise never matters for this. What it makes always passes the validation of submissions. In every rollout and for every agent, each of the 80 positions is the last logged one plus the number of steps times the last logged displacement, or zero if one of the last two states is invalid, plus the noise so far times the largest displacement of all agents along that axis; the heading never changes, whatever the noise. The 32 rollouts are equal for every noise exactly if the largest displacement is zero along every axis, which can happen although an agent moves, against what the tutorial intends.','all scenarios and all noise','A run of the tutorial shows one scenario with one random seed; acceptance and the formula of the trajectories must hold for every scenario and every noise.',['tutorial/tutorial_sim_agents.ipynb: simulate_with_extrapolation, joint_scene_from_states, scenario_rollouts_from_states',R+'utils/sim_agents/submission_specs.py: validate_scenario_rollouts, get_sim_agent_ids',R+'utils/trajectory_utils.py: ObjectTrajectories'])

p('Scenario generation tutorial baseline: accepted rollouts and the input it uses','The baseline of the scenario generation tutorial gives rollouts for a scenario exactly if all tracks are as long as each other and reach the eleventh step, at least one agent is valid there, and the ids of these agents are unambiguous. The rollouts then always pass the validation of the challenge, whatever the random numbers are. There are 32, each with one trajectory of 91 steps per agent: it starts at the first state of the first track of the scenario (or at the origin, if that track is not to be simulated) plus noise, moves by the first displacement of that track and five times the noise, and keeps its heading. Boxes have the size of the type of the agent for as many steps as are logged, and are empty for types other than vehicle, pedestrian and cyclist. The result depends on nothing but the task (ids, types, number of steps, who is valid now) and the history of the first track. The tutorial promises this for the vehicle of the log, wherever it is in the list: if it is not the first track, the rollouts depend on the hidden history of another agent, and agents are not generated around the vehicle.','every scenario, every random number and every other scenario that agrees in the visible part','independence of hidden data is about pairs of scenarios that differ anywhere in what is hidden; test scenarios have one vehicle order',['tutorial/tutorial_scenario_gen.ipynb: strip_logged_trajectories, _generate_trajectories, _generate_sizes, generate_with_random_policy, joint_scene_from_states, scenario_rollouts_from_states',R+'utils/sim_agents/submission_specs.py: validate_scenario_rollouts, get_sim_agent_ids',R+'utils/trajectory_utils.py: ObjectTrajectories'])

p('Tracks are sorted into buckets, matched and boxed by geometry','For every scenario and prediction: the kind of a track (stationary, straight, straight left or right, left or right turn, left or right U turn) is decided by its state at the current step and its last valid state, and a track has no kind exactly if one of them is missing; a prediction is counted under the most important kind among its tracks, with right U turns counted as right turns; a prediction matches at a step exactly if the errors of all its trajectories ahead and sideways, seen from the logged object and divided by the scale for its speed, are within the thresholds, and it is left out only if a logged object is not valid then; the box of a predicted object uses its position, the positions at the neighbouring steps (latest first) and the logged size; the numbers reported for a prediction are the ADE, FDE, miss rate, overlap rate, mAP and soft mAP of that prediction; the challenge measures after 3, 5 and 8 seconds with at most six predictions.','Every configuration, scenario, prediction and step; hypot, rotation and angle normalisation arbitrary','The kinds depend on every combination of speed, distance, heading and side, with boundaries between them; a handful of example tracks does not tell a strict from a non-strict boundary, a left from a right turn in every heading, or two reported numbers swapped when they happen to agree.',[R+'metrics/motion_metrics.cc: IsMatch, SpeedScaleFactor, GetTrajectoryTypePriority, ComputeBundle, GetChallengeConfig',R+'metrics/motion_metrics_utils.cc: ClassifyTrack, PredictionToPolygon'])

p('End-to-end driving tutorial: cameras, files, ADE and rated frame','For every frame, return_front3_cameras returns the first image of the front left, front and front right camera, each with the calibration at the same place in the list of calibrations; it fails exactly if there is none at that place; if both lists are in the same order the calibrations are those of the cameras, and otherwise they need not be. For every list of predictions and number of files, the files together hold all predictions in order and none holds more than the smallest sufficient number, though some may be empty. The distance of a prediction is the mean of the distances at the steps of the mask, zero without any; other lengths are refused unless one has a single step. The ADEs are those of the last prediction for each frame of the ground truth, whatever the division into files; a frame without prediction is an error. The frame with ratings is the first one, and the initial speed is the one of this frame, but for a list of several frames all speeds are those of the frame read last.','Every list of images, calibrations, predictions, files, frames and masks','The example of the tutorial has one prediction, one file and one frame, for which wrong pairings, empty files, silently broadcast lengths and speeds of another frame cannot be seen.',['tutorial/tutorial_vision_based_e2e_driving.ipynb: return_front3_cameras, average_distance_per_step, num_predictions_per_shard, prediction_dict, ade_list, data_contain_label, initial_speed'])

p('The segmentation tutorial: labels and indices of the points are aligned, and which frames get into a submission','In the tutorial of the 3D semantic segmentation challenge the labels returned for a laser are exactly the labels of the pixels with a positive range, in row order, lasers sorted by name, with zero labels for a laser without labels. The point indices of the top laser are the column and row of the same pixels in the same order, and exist exactly when all of them lie within 64 rows and 2650 columns. The dummy submission has the dummy class exactly at the pixels with a return, for both returns. The validation frames submitted are exactly those whose first laser has labels, which leaves out frames where the top laser is not first. The test frames submitted are none at all: the tuple of name and time is compared with lists, so listed frames are never found.','every range image, label image, laser order, list of frames and list of wanted frames','The tutorial has no tests; alignment has to hold for every pattern of valid pixels, and the empty test submission shows only with the real data.',['tutorial/tutorial_3d_semseg.ipynb: convert_range_image_to_point_cloud_labels, get_range_image_point_indexing, dummy_semseg_for_one_frame, context_name_timestamp_tuples'])

p('The motion tutorial: targets, loss, epochs and pictures','In the motion tutorial the training targets are the future states and, after subsampling, target k is the ground truth exactly k + 1 prediction intervals after the current step; subsampling is refused exactly for a prediction rate of zero or above the track rate. The loss depends only on predictions of valid steps of agents to be predicted and is zero exactly when these are all right, but it is divided by all entries, so agents that do not count lower it. The metric printed after an epoch covers the predictions of all epochs so far, of one batch more per epoch than configured, and the number of samples printed is at least twice the number seen. The picture of a scenario is a square of at least ten meters that contains every valid position and is no larger than needed; the images are in step order with the right titles, but the animation shows only the first half of them.','every track, mask, rate, batch, training step function, number of epochs, data set and set of positions','The tutorial has no tests, and wrong counters, accumulated metrics or missing images do not raise errors.',['tutorial/tutorial_motion.ipynb: _parse, MotionMetrics, train_step, get_viewport, visualize_one_step, visualize_all_agents_smooth, create_animation'])

p('The panoptic segmentation tutorial: labels, cameras and submission are matched','In the tutorial of the 2D video panoptic segmentation challenge, grouping the label table by frame and taking the groups apart again returns the rows of the first three frames in time order, unchanged. Images are taken from left to right, the last one of each camera, and all five cameras are needed. Padding puts zeros above an image and refuses images that are too high. The submission has, for exactly the frames asked for and for each camera, the prediction for that image with the time and camera of the image; an empty list of times asks for all frames. The label called front is in fact that of the front left camera, and all entries carry the first sequence name found in the file, even if their frame has another name.','every table, set of camera images, list of frames, list of times and inference function','The tutorial has no tests, and a prediction filed under the wrong camera, time or sequence raises no error.',['tutorial/tutorial_2d_pvps.ipynb: ungroup_row, camera_left_to_right_order, _pad_to_common_shape, panoptic_label_front, _load_dataset_for_one_test_shard, _generate_predictions_for_one_test_shard, _run_dummy_inference_from_protos'])

p('The camera-only tutorial: objects, files and evaluation data','In the tutorial of the camera-only detection challenge the objects made for a frame are one for each box, with its class and score, and their ids are distinct. Packing puts object i into file i modulo the number of files, in order, so that nothing is lost or doubled. The evaluation data have one aligned row for each prediction and for each ground truth object that is visible in a camera and has lidar points; unknown difficulty becomes level 2. Parsing fails exactly if there is no prediction or no such object. The values reported are those at the place of their name. Objects of different segments with the same time are put into one frame, and a missing camera-synced box is evaluated as a box of zeros.','every list of boxes, classes, scores, objects, number of files, ground truth, predictions, breakdown names and filter','The tutorial has no tests, and misaligned rows or lost objects only change scores.',['tutorial/tutorial_camera_only.ipynb: make_inference_objects, num_submission_shards, parse_metrics_objects_binary_files, compute_let_detection_metrics'])

p('The occupancy and flow tutorial: slices, losses, images and submission',
'In the tutorial of the occupancy and flow challenge waypoint k takes channels 4k (observed), 4k+1 (occluded), 4k+2 and 4k+3 (flow) of each cell. The occupancy losses are the means over waypoints of 1000 times the mean cross-entropy of the cells. The flow loss of two flows is twice the mean absolute difference over the cells in which the first argument moves, but the total loss passes the prediction first: a prediction of no flow costs nothing whatever the truth is, so the claim that cells without true flow are ignored is refuted. The animation of occluded occupancy repeats the last observed image. The submission of a shard has the listed examples in order, with occupancies to within half of 1/255 and flows to within one half, cut off at -128 and 127.',
'every number of waypoints, model output, cross-entropy function, true and predicted waypoints, renderer, list of ids and examples',
'The tutorial has no tests, and a loss with swapped arguments still trains.',
['tutorial/tutorial_occupancy_flow.ipynb: _get_pred_waypoint_logits, _occupancy_flow_loss, _sigmoid_xe_loss, _flow_loss, _add_waypoints_to_scenario_prediction, _generate_predictions_for_one_test_shard'])

p('The keypoint and object asset tutorials: poses, masks and grids',
'In the tutorial of the pose estimation challenge the keypoints of an object are exactly the visible joints with their type and location, none twice; the submission has for each frame in turn one pose for each object, with the frame as key, and the numbers of frames and keypoints printed are right. In the object asset tutorial colouring leaves pixels outside the mask unchanged and blends the others to within one level. The grid of images works exactly for no image or for one row or column of more than one place with enough places: a single image in a single place fails. The mask of rays is right for the variables of the tutorial but ignores the rays and box it is given. The loops that break after a limit show two frames more than its value.',
'every list of locations, visibility, boxes and frames, image, mask, colour and opacity, grid size, ray image and box',
'The tutorials have no tests, and a function that reads global variables behaves well in the notebook.',
['tutorial/tutorial_keypoints.ipynb: _create_all_keypoints_proto, fake_pose_estimation, submission','tutorial/tutorial_object_asset.ipynb: apply_color_mask, grid_imshow, _compute_ray_mask'])

p('Point clouds in the tutorials on maps, motion lidar and perception frames',
'The maps tutorial loads the first two frames and draws for each the points of its first laser, moved by the pose of the frame and then by the map offset; the colour it calls intensity is the range. The motion lidar tutorial gives for each frame the points and features of both returns of all lasers in order, each extracted with the first calibration of its name and the pose of its own frame, and they stay aligned if the extraction is; a frame without lasers fails. The perception tutorial draws on the image with the lowest camera name exactly the points whose first projection is in that camera, in order, each with its place in the image and its range.',
'every list of frames, poses, offsets, lasers, calibrations, extraction functions, points, projections and images',
'The tutorials have no tests, and a wrong colour column or a misaligned gather still draws a picture.',
['tutorial/tutorial_maps.ipynb: plot_point_clouds_with_maps','tutorial/tutorial_womd_lidar.ipynb: _get_laser_calib, frame_points_xyz','tutorial/tutorial.ipynb: projected_points_all_from_raw_data','tutorial/tutorial_local.ipynb: projected_points_all_from_raw_data'])

with open('/verif/properties.jsonl', 'w') as f:
  for r in P:
    f.write(json.dumps(r) + '\n')
print(len(P))
