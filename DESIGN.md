# Design

Formal model in Coq 8.16.1 of waymo-research/waymo-open-dataset (source read from /repo).
Properties are in `properties.jsonl`, their status in `MANIFEST.json`, the wrong-program
experiments in `seeded/LOG.jsonl`.

## Layout

For each area `X` under `rocq/theories`:

* `XModel.v`: computable Gallina functions mirroring the code, each citing file and lines.
* `XSpec.v` (where useful): small specification that does not use the model.
* `XProofs.v`: lemmas.
* `XProperties.v`: only the property theorems (`Proof. exact lemma. Qed.`), each followed by
  `Print Assumptions`, and `Example`s showing that its hypotheses are met by a concrete case.

## Modelling conventions

* Integers are `Z` (or `nat` for sizes and indices). Machine width is modelled where the
  property depends on it (uint16, uint32, exponent limits) and otherwise stated as a simplification.
* Floating point numbers are modelled by exact rationals `Q` (or reals where an angle is needed).
  Rounding of IEEE arithmetic is outside the model except in ExactFloat, which is exact by design.
* Arrays are lists (row-major), protocol buffers are records, exceptions, `CHECK` and `LOG(FATAL)`
  are error values, loops are recursion with fuel that yields an explicit error when it runs out
  (and a theorem that it does not).
* Where the code is wrong with respect to the documented behaviour, the model keeps the wrong
  behaviour, a `_refuted` theorem exhibits it, and the positive theorem carries the exact side condition.

## Plan per property

| Id | Model | Proof |
|---|---|---|
| C01 | delta_encoder on lists of channels | composition of mask, residual and RLE inverses |
| C02 | `_rlencode`/`_rldecode` | induction on the mask |
| C03 | quantisation over Q | floor arithmetic |
| C04 | tiling as index maps with reflect padding | index arithmetic |
| C05 | hungarian.cc with fuel | feasible labelling invariant, duality, termination measure |
| C06 | HungarianMatcher::Match on top of C05 | reduction to C05 by weight padding |
| C07 | ScoreFirstMatcher::Match | induction on sorted predictions; refuting witness for subset indices |
| C08, C09 | MOT state machine | invariant over frame lists |
| C10 | counters of tracking measurements | monoid laws, permutation induction |
| C11 | ComputeDetectionMeasurementFromMatchingResult | counting induction |
| C12 | MergeDetectionMeasurements | monoid laws; refuting witness for details |
| C13, C14 | ToDetectionMetrics, ComputeMeanAveragePrecision over Q | sorting + induction |
| C15 | DecideScoreCutoffs | sortedness, index bounds |
| C16 | NormalizeAngle, ComputeHeadingAccuracy, angles as rational multiples of pi | arithmetic on residues |
| C17, C18 | SegmentationMetricsIoU | counting, monoid laws |
| C19, C20 | breakdown generators, name generation in C++ and Python | case analysis, list induction |
| C21-C23 | motion sample statistics | sorting, suffix-max induction |
| C24, C25 | validators | acceptance iff |
| C26, C27 | panoptic label arithmetic | div/mod; refuting witness at the divisor |
| C28 | schemas as nested trees | induction on schema |
| C29-C31 | validators, gather, converters | list induction |
| C32-C34 | kinematic validity, estimators, metametric | list/Q arithmetic |
| C35, C36 | bit packing, azimuth mapping | bit-field arithmetic, rounding |
| C37, C38 | AABox2d and its tree over Q and Z; ComputeIoU for the three box types, polygon area as a parameter with a contract | structural recursion, permutation of the sorted split, interval arithmetic |
| C39, C40 | exactfloat.cc: sign, mantissa, exponent; all operations, rounding modes, scaling, conversion to integer and double | value in Q; canonical form invariant; magnitude bounds by number of bits; rounding by splitting off low bits |
| C41, C42, C62 | scenario_conversion.cc whole: validation, road graph sampling, traffic lights, modeled and context agents, state rows; exact binary32 rounding; std::sort, hash order and the C library as a platform record with a contract | log of appended values read back per name; fold invariants for the sample limit; sort contract and strict weak orders; nearest multiple of the grid |
| C63 | exactfloat.cc text output: digits, rounding, layout; an independent reader of decimal text | value of digit lists; error bound; gap between numbers of equal precision |
| C64, C65, C66 | geometry_utils.py whole, get_upright_3d_box_corners (lower corners), compute_distance_to_nearest_object over real numbers; NaN of a zero length as None | convexity of half-plane intersections, leaving points of rays, sum of parallelograms as octagon, separating directions; refuting witnesses |
| C67 | map_metric_features.py whole over real numbers, for one query point or box, with the padding of the tensor rows; ids left out | foot of a point as minimum of a quadratic, corner cones, separation of a point from a convex polygon, first minimum; padding and free end witnesses |
| C68 | interaction_features.py 239-447 and the speeds of trajectory_features.py over real numbers; NaN speeds as None | extent of a rotated box along and across the heading as attained maximum, first minimum, size bounds against 1e10; heading and invalid step witnesses |
| C69 | traffic_light_features.py whole with tensorize_polylines over fractions, distances compared by squares; set order as a parameter | foot of a point as minimum of a quadratic, first minimum over padded rows, projection differences; triangle inequality for the lane, witnesses computed for the defects |
| C70 | math/polygon2d.cc (ComputeIntersectionVertices, PointInside, MaybeHasIntersectionWith, AreaInternal, ExactIntersection), corners of math/box2d.cc and segment2d.h, ComputeIoU2d of iou.cc over real numbers; AccSum as the sum of its terms | the advance rule as a loop invariant on the pair of edges: chains of the two boundaries by edge direction, the path closes only on the boundary of the common part; completeness by lifting both boundaries to the turning angle; areas by fans; contact witness evaluated through a rational copy of the model |
| C71 | keypoint_metrics.py: _pose_estimation_error, PoseEstimationMetric (state of a weighted mean), reorder and its helpers, over real numbers; boxes are reordered like keypoints and left out, all sample weights are one | exact rows of the reordered frame, then sums over frames; zero case by nonnegative sums; perfect case from optimality of the second pass by counting; heading witness |
| C72 | keypoint_metrics.py: MeanErrorMatcher, mean_error_matching, box_displacement and its transform in three dimensions; linear_sum_assignment is a parameter described by its contract (`solves` in PoseSpec.v), shown satisfiable by an exhaustive search | every matching extends to a complete one, so filtered optimal assignments are optimal among all matchings; non-candidates cost the penalty and are filtered; clipping coordinates gives the nearest point |
| C73 | box_utils.py: is_within_box_3d, is_within_box_2d, counts, corners over real numbers; matrix inverse by cofactors | coordinates in the box frame; explicit weights of the corners |
| C74 | transform_utils.py whole, transform_point and transform_box over real numbers; frames with last row (0, 0, 0, 1) | inverse laws; the relative matrix of level frames as a turn about the vertical through triple products; angle by the arc tangent |
| C75 | JoinModel.v: v2/dataframe_utils.py (key selection, join kind, grouping, merge) over tables of named columns, with the pandas groupby and merge behaviour it relies on | JoinLists.v, JoinProofs.v, JoinGroup.v, JoinMain.v: output rows are in one to one correspondence with pairs of row positions; grouping is a partition of row positions; counting and uniqueness follow. Sorting is an arbitrary reordering; dtypes are not modelled. |
| C76 | KpModel.v: keypoint_data.py tensors, subsets, poses and box conversion, over an abstract type of locations | KpProofs.v: a dict filled from a list holds the last value per key; positions by splitting lists; alignment by counting |
| C77 | KpModel.v: _index_laser_labels, _index_camera_labels and group_object_labels with nested dicts | KpProofs.v: the nested fill is a fill of the flattened list filtered by object |
| C78 | OksModel.v: box scale, per-point score, similarity of one object with its enlarged box, over the reals | OksProofs.v: value; OksScores.v: range, equality with one, monotonicity, units; OksWitness.v: the four defects |
| C79 | OksModel.v: running means of position error, correct keypoints, precision and average precision over batches | OksMeans.v and OksPrecision.v: fold over batches as a sum over samples; OksWitness.v: batch splits that change the average |
| C80 | WayModel.v: waypoint grids, flow accumulation, per-waypoint access and trails, one cell at a time over the reals | WayProofs.v: split and reshape; WayFlow.v: occupancy and chaining; WayLookup.v: flow, access and the average that is too fast |
| C81 | OccModel.v: sampling, image coordinates, filtering and scatter of occupancy and road graph | OccGeom.v: nearest cell and rigid motion; OccRender.v: value, refusals, split, motion; OccCover.v: road graph and the lost agent |
| C82 | OccModel.v: flow rendering | OccFlow.v: scatter sums as sums over distinct contributing samples |
| C83 | OccModel.v: sampling | OccCover.v: distance to the nearest sample below half a cell; the bus with holes |
| C84 | OfmModel.v: soft overlap and end point error over lists of cells | OfmIou.v, OfmEpe.v: sums over pairs of cells |
| C85 | OfmModel.v: the loop over waypoints, with the area under the curve as a parameter; the disabled warp | OfmMetrics.v: loop invariant as filtered lists of waypoints; OfmWitness.v: dilution |
| C86 | CamModel.v: distortion, undistortion loop with fuel 20, global shutter projection both ways; real numbers | CamLens.v: one step identity, list of iterates; CamFrames.v: rigid frames; CamWitness.v: alternating iterates of a lens |
| C87 | CamModel.v: pixel timestamps, PrepareProjection, ImageToWorld, the residual | CamRolling.v: fields of the prepared state, extrapolated camera as in dataset.proto; CamWitness.v: flipped pose |
| C88 | CamModel.v: the Newton loop with fuel 4, the slope, the outputs on every exit, the op row | CamSolve.v: derivative of the residual, affine motion; CamExact.v: exact solution at steady depth; CamWitness.v: two-cycle of the solver with root of 37 |
| C89 | LidModel.v: range_image_utils.py polar and cartesian images, pixel poses, compute_inclination; real numbers | LidImages.v: pixels of tensors; LidBeams.v: bearing of a column, beams, poses; LidFrames.v: pixel poses |
| C90 | LidModel.v: pixel_of_point, build_range_image with tf.round, tf.argmin and segment minimum | LidReturn.v: rounding, nearest row, column range, round trip; LidFacts.v: definedness and the seam |
| C91 | LidModel.v: frame_utils.py parsing with dictionaries, cartesian images, point clouds, frame dictionary; bytes are the matrices they decode to | LidParse.v: parsing by induction on lidars; LidFrames.v: rows, clouds, dictionary; LidFacts.v: frames |
| C92 | LidModel.v: v2 lidar_utils.py, compat_v1 context, womd_lidar_utils.py | LidVersions.v: equality of the three conversions; LidFacts.v: refused top lidar |
| C93 | LidModel.v: augment_with_lidar, add_camera_tokens, get_camera_embedding | LidVersions.v |
| C94 | RayModel.v: get_ray_box_intersects | slabs as intervals of the parameter, RayProofs.v; refuting witnesses in RayBoxes.v |
| C95 | RayModel.v: frames and box coordinates | trigonometric identities and the interval theorem, RayBoxes.v |
| C96 | PcaModel.v: quantize, bucketed_quantization | rounding lemmas, PcaLinear.v; maxima of columns, PcaAsset.v |
| C97 | PcaModel.v: transform, inverse_transform, encode, decode | sums over orthonormal bases, PcaLinear.v; tiles, PcaTiles.v; PcaCodec.v; drift witness in PcaAsset.v |
| C98 | PcaModel.v: asset_encode, asset_decode | PcaAsset.v, from C97 |
| C99 | LineModel.v: distance_sqr_to_point, side_of_point, perp_dist | completing the square, LineProofs.v |
| C100 | LineModel.v: intersect, intersect_or_coincide, might_intersect | unique common point of two lines, LineMeet.v; witnesses in LineWitness.v |
| C101 | LineModel.v: segments with stored values, calls | invariant over call histories, LineCache.v |
| C102 | LineModel.v: sample, sample_points | loop induction, LineCache.v |
| C103 | StreamModel.v: the variables of metrics/python/{detection,tracking,motion}_metrics.py, update, initialisation, sessions as event lists | induction on the history from its end, StreamProofs.v; witnesses in StreamValues.v |
| C104, C105 | StreamModel.v: the returned dictionaries as key-value lists with update markers | one loop for the three functions, induction on the names from the end, StreamDict.v |
| C106 | StreamModel.v: recall_at | maximum of a fold, StreamValues.v |
| C107 | StreamModel.v: static shape assertions, default ids | evaluation with symbolic sizes, StreamValues.v |
| C108 | MatchOpModel.v: matcher.py and matcher_ops.cc on MatcherModel.v | optimality of C06 carried from subset positions to box pairs, MatchOpElement.v, MatchOpApi.v |
| C109 | MatchOpModel.v: shape checks, choice of matcher | case analysis, MatchOpApi.v |
| C110 | ToolModel.v: compute_detection_metrics_main.cc up to the metrics call | ordered map invariants, injectivity of the joined key, ToolProofs.v |
| C111 | ToolModel.v: compute_detection_let_metrics_main.cc | induction over the ground truths, ToolProofs.v |
| C112 | ToolModel.v: compute_tracking_metrics_main.cc | nested ordered map invariants, ToolTrack.v |
| C113 | WireModel.v: protocol buffer wire format, ReadObjectsFromFile (latency) | varint and field round trips, WireProofs.v |
| C114 | SubmitModel.v: create_submission.cc | per shard and permutation invariants of the loops, SubmitProofs.v |
| C115 | CompareModel.v: compare_objects_file_to_submission_main.cc | optimality of the Hungarian matcher (C06) and ordered map lemmas, CompareProofs.v |
| C116 | ObjsModel.v: make_objects_file_from_latency_results.py, input fields of wod_latency_evaluator.py | induction on rows and lines, ObjsProofs.v |
| C117 | SegToolModel.v: compute_segmentation_metrics_main.cc (after parsing the files) | keyed maps and induction on the frames, SegToolProofs.v |
| C118 | MotionOpModel.v: motion_metrics_ops.cc CreateOutput and ComputeImpl, on top of ParseModel.v and MotionModel.v; threads run in turn | keys of accumulated statistics by induction, permutation invariance, MotionOpProofs.v |
| C119 | ExtractModel.v: the five extractors of box labels (v2/perception/compat_v1/box.py) on messages with optional fields and texts as lists of code points, and the pipeline described in interfaces.py; numbers are only copied, so integers stand for them | cases on the set fields, a list argument for the pipeline, a check of the ends of the camera names, ExtractProofs.v |
| C120 | SensorModel.v: the extractors of keypoints, lidar data, segmentation, calibrations and object counts (v2/perception/compat_v1); the decompression and parsing of a matrix is an arbitrary function; camera image and vehicle pose extractors, which only copy fields, are not modelled | loop invariants for the parallel lists and the pipeline lemma of ExtractProofs.v, SensorProofs.v |
| C121 | TfReadModel.v (occupancy_flow_data.py parse_tf_example with its 56 declared features, add_sdc_fields over a batch) on top of the scenario converter model | sizes and kinds of every converted tensor from the converter theorems; row of the car by the selection order; batch by induction with the offset; the defaults and the dropped car by witness |
| C122 | SpeedModel.v (metrics_utils.cc Argmin, EstimateObjectSpeed, HasVelocityBreakdown; the decisions in ComputeDetectionMeasurements and ComputeTrackingMeasurements) | first least position invariant of the loop; decisions by cases; classes through BreakdownModel.v; defects by witness |
| C123 | ExEqModel.v (example_utils.py examples_equal, numpy allclose with special numbers, message comparison) | characterization of both loops by induction, the rest from it; defects by witness |
| C124 | `KpDrawModel.v`: `utils/keypoint_draw.py`, edges to lines, wireframes from the coordinates of keypoints with the default tables, text traces of laser wireframes, cropping with Python slices and truncation; coordinates are rationals, drawing on matplotlib or plotly is not modelled | cases over edges with mapM lemmas, means coordinate by coordinate, slices by positions (`KpDrawProofs.v`, `KpCropProofs.v`); refutations by witnesses |
| C125 | `FvisModel.v`: `utils/occupancy_flow_vis.py` over the reals, images as lists of pixels; `tf.math.pow`, `tf.math.mod`, `divide_no_nan`, `atan2` and the formula of `tf.image.hsv_to_rgb` are written out from their documentation; broadcasting between different shapes is not modelled | closed form of opaque blending, `near_terms`; angles from C89; color circle by six cases, injectivity by cases (`FvisProofs.v`, `FvisFlow.v`, `FvisColor.v`) |
| C126 | `PlotModel.v`: `utils/plot_maps.py`, features to points, the loop over stretches of ids with fuel, traces and markers as data; layout and plotting library not modelled | groups of points by id, loop by induction over groups (`PlotProofs.v`); refutations by witnesses |
| C127 | `VizModel.v`: `utils/sim_agents/visualizations.py`, boxes, palette, map lines, removal loops over a shrinking or a copied list, frames; the figure and the player of the animation not modelled | covered region by rotation algebra, removal by decreasing length, frames by composition (`VizProofs.v`); refutations by witnesses |
| C128 | `CamOpModel.v`: `wdl_limited/camera/ops/camera_model_ops.cc` over tensors as shapes and cells in memory order, on top of `CamModel.v`; float rounding not modelled | parsing by computation on cells both ways, rows by induction over tables (`CamOpProofs.v`); refutation by a witness |
| C129 | `MfeatModel.v`: `compute_metric_features`, `compute_scenario_rollouts_features` and the displacement error over real numbers; kinematic and red light extractors and the order of a set are parameters | `MfeatProofs.v`, `MfeatRows.v`, `MfeatScene.v`, `MfeatRollouts.v`: the tables are lists of objects, gathers by id are permutations, every row is traced to its own agent; exact conditions for a result |
| C130 | `camera_segmentation_utils.py` color map, semantic and panoptic coloring: numpy indexing with negative indices, squeezing, fixed width integers and the uint8 image as explicit wrap around | induction over pixels and rows; arithmetic modulo 256 and 100; the default map by computation |
| C131 | `CombModel.v`: the configuration, the formatted names, the subsets, the update and the merged result of the combined keypoint metric on top of `OksModel.v`; thresholds are exact fractions | Injectivity of the format and of the names (the last @ splits a name); a fold of maps is a map of folds; merging dictionaries with distinct names is concatenation; one threshold of several is a metric of its own |
| C132 | `LatModel.v`: the latency evaluator as a program with a list of effects on files; the submitted model is any state machine, a write is two effects, a crash is a prefix of the effects | The nested loops are one loop over the frames; its trace is the concatenation of the traces of the frames; the last effect on a path decides; every path is settled once |
| C133 | TruthModel.v: the renderings of the single steps (create_ground_truth_timestep_grids), the values at a cell, the waypoints and the visualization grids, over OccModel.v and WayModel.v | TruthProofs.v: each rendering rewritten over one timeline of the agents; a waypoint of a series that says where agents are says whether one is there in its times; the outcome from the refusals of both halves |
| C134 | `HitModel.v`: the heading of a predicted position from its neighbours, the average of two angles, the box of a prediction and the overlap test of motion metrics over reals | headings by `atan2_angle` and half angle identities; overlaps from the convex clipping lemmas of C70; a parked car, a reversal, a single position and an edge contact as witnesses |
| C135 | `HullModel.v`: RemoveConsecutiveDuplicatePoints, BuildFromPoints, the constructor with and without debug checks, IsConvexHull, ShiftCenter and Transform over reals | induction over the kept points; sign invariants of the three loops of the check; rigid motions as orthogonal maps; a ring, a clockwise square and a spiral as witnesses |
| C136 | `StkModel.v`: tensors with shapes, stacking of keypoints and boxes with their checks, box corners, Keras precision and recall of visibility with weights over exact fractions | row major offsets and concatenation lemmas; sums of weights over concatenated observations, so that splitting and permuting calls is invisible |
| C137 | AucModel: the counts at the 100 thresholds, the interpolated increments and the check of the predictions of the library metric that _compute_occupancy_auc makes, in real numbers. | AucSpec defines hits and alarms at levels k/99 and the interpolated area by an antiderivative of precision. The bounds of a part come from strict bounds of the logarithm; the sum telescopes; equality is decided part by part. The averages over waypoints follow from C85. The claim that only the ranking matters is refuted. |
| C138 | RealismModel.v: the scores of compute_scenario_metrics_for_features_bundle with the estimators inside, the masked mean of logarithms, the weighted sum and the two shipped configurations | entries of the mask as a filter of the grid of objects and steps, geometric mean through exp and ln, finite search for the NaN boundary; RealismProofs.v, RealismScores.v, RealismTotal.v |
| C139 | ArrowModel.v: flatten_arrow_types, the schema and the column types of all component classes, over ComponentModel.v | the types are the columns of the instance that holds its own types, so names and order follow from C28; leaves of trees in order; decision procedures for the dataset; ArrowProofs.v |
| C140 | DemoModel.v: the five example submissions of the latency challenge, with the networks as arguments | rotations by their rows and columns, exact relational specifications of the selected returns and detections, monotone tanh; refuted parts by witnesses; DemoProofs.v, DemoDetect.v |
| C141 | ExtrapModel.v: simulate_with_extrapolation, joint_scene_from_states and scenario_rollouts_from_states of the sim agents tutorial, over SimModel.v | histories of one object by induction on the turns, loops over rollouts and objects by position; validation through C29; ExtrapProofs.v, ExtrapDiffer.v |
| C142 | SgenModel.v over SimModel.v and ExtrapModel.v: the baseline of the scenario generation tutorial, stripping, generation and packaging, random numbers as arguments | acceptance for exactly the simulable scenarios, closed form of all trajectories and boxes, independence of hidden data by showing that the stripped table is the table of a stripped scenario, refutations for a vehicle that is not the first track |
| C143 | ClassifyTrack, GetTrajectoryTypePriority, IsMatch, SpeedScaleFactor, PredictionToPolygon, ComputeBundle and GetChallengeConfig as in MotionModel.v and MotionSubmissionModel.v; hypot, rotation, angle normalisation, pi/6 and polygon intersection are arbitrary functions; rationals instead of floats | Case analysis against an inductive definition of the kinds (shown to be a function); induction over the trajectories for the most important kind and for the matches; unfolding of one accumulation for the reported numbers |
| C144 | return_front3_cameras, the division into files, average_distance_per_step, prediction_dict, ade_list, the search for a frame with ratings and the initial speeds of tutorial_vision_based_e2e_driving.ipynb in E2etModel.v; real numbers instead of floats; decoding, drawing and metadata are left out | Induction over images, files and frames; witnesses for a wrong calibration, an empty file, a sum instead of a mean and the speed of another frame |
| C145 | SemtModel.v: range and label images as lists of rows, tf.where and gather_nd, the pixel grid, dummy label images, choice of frames, Python tuples and lists as different values. Drawing and writing of protos are not modelled. | The list of pixels found is the unique row-major list of pixels with a return (SemtSpec.returns); everything else is stated about it. |
| C146 | MtutModel.v: the concatenations of _parse, slices, the weighted loss over rationals, the training loop with an arbitrary training step, batches, printed progress, viewport, images and animation. The regressor, gradients and drawing are not modelled. | Induction over slices, batches and epochs (MtutSpec.trained); ordered field reasoning for the viewport and the loss. |
| C147 | PvtModel.v: grouping and ungrouping of the label table, dictionaries by camera, padding, choice of test frames, the three flattened lists and their zip. Files, drawing and the metric are not modelled here. | The zipped lists are cut into frames again by induction (PvtProofs.many_frames) and compared with an independent description of the entries of a frame (PvtSpec.entries_of). |
| C148 | CotModel.v: objects of a frame, round-robin files, the columns of the evaluation data, values by name. Projection, drawing, metadata and the metrics op are not modelled here. | Invariant of the round-robin (CotProofs.spread), closed forms of the column loops, induction over names. |
| C149 | OftModel.v: slices, losses, images and bytes of tutorial_occupancy_flow.ipynb over rationals; the cross-entropy of a cell is a parameter | induction over cells and waypoints; refutation of the flow reference by witness; rounding bounds |
| C150 | KatModel.v: keypoints, poses and counts of tutorial_keypoints.ipynb; colour mask, grid of images, ray mask and frame loops of tutorial_object_asset.ipynb. Files, archives and figures are not modelled; the ray and box test is a parameter. | Induction over zipped lists and pixels, reshape as inverse of flattening (KatProofs.chunks_concat), case analysis of the grid; refutations by witness. |
| C151 | MltModel.v: transform and colour of tutorial_maps.ipynb, frame and laser loops of tutorial_womd_lidar.ipynb, choice of projected points of tutorial.ipynb and tutorial_local.ipynb. Files and drawing are not modelled; extraction functions and norm are parameters. | Induction over frames, lasers and points; the counter of the frame loop as length of the frames done; refutation of the colour by witness. |
| C43 | rater_feedback_utils.py whole: padding, directions, thresholds, scores; the norm and the power as parameters with laws | padding as an indexing relation; box growth as least factor; maximum over the set of rated trajectories |
| C44 | wod_detection_evaluator.py: update, evaluate, result, reset over tensor rows; the metrics op as a parameter | refinement to the list of pending updates by induction on history; refuting witnesses |
| C61 | longitudinal affinity, alignment, tolerant IoU; square roots as inputs | completing the square on the line of sight |
| C59, C60 | scattering with pooling, depth images, cropping, inclinations | fold invariant over distinct keys; interval arithmetic |
| C47-C51 | tracking cutoffs, wrapping helpers, matching caches, subsets | see the headers of the *Properties.v files |
| C52 | ComputeMotionMetrics over a permuted collection | commutative accumulation up to equality of statistics |
| C53 | ComputeAllMetrics, submission conversion | list induction; refuting witness |
| C54 | submission conversion and validation | acceptance iff |
| C55 | ComputeOverlapRate | argmax induction |
| C56, C57, C58 | segmentation evaluation updates, frame loading, saving labels | list induction, div/mod round trip, refuting witnesses |
| C45, C46 | tensor parsing of objects and motion predictions (ParseModel), frame alignment of the ops | grouping lemma over hash map updates, sorted key sets, loop invariant over the batch; refuting witnesses |

Not modelled: protobuf/TensorFlow runtime, file IO, IEEE rounding, visualisation, tutorials,
rounding in the camera model, neural network code, Python/C++ build glue.

## Trusted base

Coq kernel 8.16.1, the `Print Assumptions` output under each theorem, and the faithfulness of the
hand-written models to the cited lines. All property theorems are closed under the global context,
except those of the files over real numbers (GeomProperties.v: C64-C66, RoadProperties.v: C67, TtcProperties.v: C68, PolyProperties.v: C70, PoseProperties.v: C71-C72, FrameProperties.v: C73-C74, OksProperties.v: C78-C79, WayProperties.v: C80, OccProperties.v: C81-C83, OfmProperties.v: C84-C85, CamProperties.v: C86-C88, LidProperties.v: C89-C92, RayProperties.v: C94-C95, PcaProperties.v: C96-C98, LineProperties.v: C99-C102, FvisProperties.v: C125, VizProperties.v: C127, CamOpProperties.v: C128, MfeatProperties.v: C129, CombProperties.v: C131, TruthProperties.v: C133, HitProperties.v: C134, HullProperties.v: C135, AucProperties.v: C137, RealismProperties.v: C138, DemoProperties.v: C140, ExtrapProperties.v: C141, SgenProperties.v: C142, E2etProperties.v: C144), which use the axioms of the
standard library's real numbers and no others:

- `ClassicalDedekindReals.sig_forall_dec`
- `ClassicalDedekindReals.sig_not_dec`
- `FunctionalExtensionality.functional_extensionality_dep`
- `Classical_Prop.classic` (C70, C74, C78, C79, C89 to C92, C101, C125, C131, C134, C135, C137, C138 and C140 only, through the standard library's arc cosine, arc tangent, sine and exponential)
