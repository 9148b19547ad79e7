{
 "C01": {
  "note": "Round trip for all admissible images; C01_input_preserved_refuted records that compress overwrites the caller's array."
 },
 "C08": {
  "note": "Holds for every hash iteration order and any matcher meeting its contract; both library matchers are shown to meet it. Measurement details are not modelled.",
  "status": "proved"
 },
 "C09": {
  "note": "Exact per-frame change of every counter and of the cost, plus the identity objects = matches + misses over all histories.",
  "status": "proved"
 },
 "C10": {
  "note": "Counters and cost equal sums over scenes; order and grouping independent; refused exactly on disagreeing breakdowns or cutoffs. Exact arithmetic.",
  "status": "proved"
 },
 "C100": {
  "note": "Real arithmetic; exact conditions and two refuted expectations.",
  "status": "proved"
 },
 "C101": {
  "note": "Real arithmetic, one thread; the dependence of heading on earlier reads is refuted independence.",
  "status": "proved"
 },
 "C102": {
  "note": "Real arithmetic.",
  "status": "proved"
 },
 "C103": {
  "note": "The value theorems cover all histories in which batches have the declared widths; the exact condition for one update, and the refuted width check and separation of calls, are included.",
  "status": "proved"
 },
 "C104": {
  "note": "Exact condition for the update to be run once, with the refuted cases of repeated breakdowns and of a filter that keeps nothing.",
  "status": "proved"
 },
 "C105": {
  "note": "Both directions, for every key.",
  "status": "proved"
 },
 "C106": {
  "note": "Includes the refuted expectation at precision 1.",
  "status": "proved"
 },
 "C107": {
  "note": "Exact acceptance and exact condition for distinct default ids; the documented shapes with other numbers of agents are refuted.",
  "status": "proved"
 },
 "C108": {
  "note": "Overlap and affinity functions are parameters with values in [0, 1]; rational arithmetic.",
  "status": "proved"
 },
 "C109": {
  "note": "Boundary stated exactly; C109_score_first_refuted shows the defect of the code.",
  "status": "proved"
 },
 "C11": {
  "note": "All prediction and ground truth lists, any matching satisfying the matcher contract; exact rational heading accuracy.",
  "status": "proved"
 },
 "C110": {
  "note": "Starts after parsing the files; ends with the arguments of the metrics computation.",
  "status": "proved"
 },
 "C111": {
  "note": "Starts after parsing the files; ends with the arguments of the metrics computation.",
  "status": "proved"
 },
 "C112": {
  "note": "C112_cameras_refuted shows the difference from the detection tool.",
  "status": "proved"
 },
 "C113": {
  "note": "Wire format with varint, fixed and length delimited fields; groups are not modelled. Whether the bytes of one Object or Polygon2dProto parse is a parameter. C113_submission_refuted is a defect of the code: the submission of a method called MyNet is read as an empty list of objects.",
  "status": "proved"
 },
 "C114": {
  "note": "Floating point numbers are NaN or rational. Refuted parts are defects of the code: valid files whose last byte is 10 are refused, NaN scores pass, the float nearest to 0.03 is below the threshold, and positions restart in every file so that the shards need not be balanced.",
  "status": "proved"
 },
 "C115": {
  "note": "Scores and overlaps are rationals; the overlap is a parameter. C115_order_refuted and C115_missing_refuted are defects of the code: the same detections in another order can be refused, and frames without latency detections are accepted whatever the submission has there.",
  "status": "proved"
 },
 "C116": {
  "note": "Floating point numbers are NaN or rational. C116_columns_refuted and C116_checks_refuted are defects of the code: boxes with another number of columns are dropped without an error, and the checks are not those of create_submission.cc although a comment says so.",
  "status": "proved"
 },
 "C117": {
  "note": "All frames, labels and orders. The three defects (instance ids counted as classes, missing prediction with returns of different size, unset second return) are the _refuted theorems.",
  "status": "proved"
 },
 "C118": {
  "note": "All configurations, scenarios and orders. The two defects (configurations of the same step mixed, nothing measured reported as zero) are the _refuted theorems.",
  "status": "proved"
 },
 "C119": {
  "note": "The claim is proved as stated; its unmet parts (documented error, separator, camera of the label, length of ids, rear cameras, missing numbers, associations without box) are the refuted theorems.",
  "status": "proved"
 },
 "C12": {
  "note": "Sums, order independence and the exact domain of merging; grouping loses details and an empty right operand is fatal (refuted theorems).",
  "status": "proved"
 },
 "C120": {
  "note": "The claim is proved as stated; the dropped positions and poses, the zero position and the empty list are the refuted theorems.",
  "status": "proved"
 },
 "C121": {
  "note": "Reading accepts a converted example iff the task sizes were used; contents, coverage, self-driving car fields of a batch, when the car has a row; default configuration and shifted batch refutations. The tf.io parser is modelled by the shape and kind test it documents.",
  "status": "proved"
 },
 "C122": {
  "note": "Nearest ground truth speed with ties, frames, exactly when estimation happens in detection and tracking, velocity class; declared speeds overwritten, missing speeds left and first frame defects refuted. Finite coordinates; the sum of squares is exact, the root is arbitrary.",
  "status": "proved"
 },
 "C123": {
  "note": "Exact characterization of the comparison with the empty float list exception; order, self, exchange and monotonicity; four refutations. Numbers are rational or special and the tolerance is computed exactly.",
  "status": "proved"
 },
 "C124": {
  "note": "Dots, lines, outcome and crops are characterized exactly; cut last row and column, negative slice ends and undrawable empty wireframes are stated as refutations.",
  "status": "proved"
 },
 "C125": {
  "note": "Pixels of occupancy and flow images are characterized, with range, scale and readability; off-white background, dark half likely vehicles and zero saturation are stated as refutations.",
  "status": "proved"
 },
 "C126": {
  "note": "Outcome, traces and markers are characterized; never matched enumeration tests, the missing line type and joined ids are stated as refutations.",
  "status": "proved"
 },
 "C127": {
  "note": "Rectangles cover exactly the oriented boxes, palette, outcome, map lines, removal loops and any sequence of frames; empty lines refuted by a witness. The plotting library is represented by the lines and rectangles handed to it.",
  "status": "proved"
 },
 "C128": {
  "note": "Layout both ways, rows, shapes, failures and the way to the world and back at the level of tensors; unchecked velocities refuted by a witness. Float and double are one; reads outside of memory are errors in the model.",
  "status": "proved"
 },
 "C129": {
  "note": "Over real numbers. The kinematic extractor, the red light extractor and the order of a Python set are parameters. The mean of the displacement over the simulated steps is refuted by C129_displacement_mean_refuted; the true value is C129_displacement.",
  "status": "proved"
 },
 "C13": {
  "note": "Exact rational arithmetic; sample values of the mAP are covered by C14.",
  "status": "proved"
 },
 "C130": {
  "note": "The color map, semantic and panoptic coloring are exact per pixel; wrap around instead of clipping, the loss of an axis for images one pixel wide, shared default colors and narrow label types are shown as refutations.",
  "status": "proved"
 },
 "C131": {
  "note": "Exact: acceptance of configurations, names of the results in order, their values, when one is lost, when batches are accepted. Defects stated as refutations: thresholds that share a formatted name, unchecked subsets, weights that are not restricted.",
  "status": "proved"
 },
 "C132": {
  "note": "Exact: acceptance of outputs, outcome, files after success, error and crash at every effect, second runs. Refuted: no stale latencies after an error, input fields written as given.",
  "status": "proved"
 },
 "C133": {
  "note": "Exact outcome, values of every waypoint and trails in terms of the states of the scene; values at a cell inside the grid; numbers are real numbers.",
  "status": "proved"
 },
 "C134": {
  "note": "Headings, invariance under moving and turning, and the overlap verdict are exact over reals; the parked car, the single position and the contact cases are refuted by witness.",
  "status": "proved"
 },
 "C135": {
  "note": "Construction, bounding boxes, movements and the acceptance of convex and clockwise polygons are exact over reals; the ring, clockwise and spiral cases are refuted by witness.",
  "status": "proved"
 },
 "C136": {
  "note": "All shapes, headings and weights (none, one, per object, per keypoint) are covered over exact fractions; broadcasting of weights with dimensions of one is left out.",
  "status": "proved"
 },
 "C137": {
  "note": "In exact real numbers; thresholds are exact fractions. The library metric is modelled from its documented behaviour for the arguments given. The claim that the value depends only on the ranking is refuted by a witness.",
  "status": "proved"
 },
 "C138": {
  "note": "The scores are composed end to end from EstimatorModel, KinematicModel and MetametricModel; likelihoods are exact fractions, logarithms and means real numbers; features are never NaN and rounding is not modelled.",
  "status": "proved"
 },
 "C139": {
  "note": "What values an Arrow type holds is a parameter of the theorem about rows; the dataset classes are transcribed with their types.",
  "status": "proved"
 },
 "C14": {
  "note": "Exact rational arithmetic: the value equals the trapezoid area under the precision envelope with the inserted recall levels, is order independent, lies in the unit interval and is monotone.",
  "status": "proved"
 },
 "C140": {
  "note": "Networks are arguments and numbers are real. The swapped image size of the TensorFlow 2D example and the lost detections of the PyTorch one are proved as exact boundaries with refuting witnesses.",
  "status": "proved"
 },
 "C141": {
  "note": "The random noise is an argument and numbers are real. The intent that rollouts differ is proved as an exact boundary with a refuting witness.",
  "status": "proved"
 },
 "C142": {
  "note": "Full statement proved for the model; the random numbers are arguments and numbers are real. The refutations record that the vehicle of the log is taken to be the first track.",
  "status": "proved"
 },
 "C143": {
  "note": "Kinds, buckets, matches, boxes and reported numbers of the motion metrics, all exact. The report is stated for a single prediction at a single step.",
  "status": "proved"
 },
 "C144": {
  "note": "Exact values and errors; witnesses for calibrations of another camera, empty files, lengths that are broadcast silently and initial speeds of another frame.",
  "status": "proved"
 },
 "C145": {
  "note": "Exact labels, indices, dummy label images and submitted frames of the tutorial. Refuted: a frame whose top laser is not first is left out of the validation submission, and no test frame is ever submitted because a tuple is compared with lists.",
  "status": "proved"
 },
 "C146": {
  "note": "Exact targets, loss, metric contents per epoch, viewport, images. Refuted: loss as a mean over counted entries, metric of a single epoch, number of samples printed, animation of all images.",
  "status": "proved"
 },
 "C147": {
  "note": "Exact labels read, camera order, padding and submission entries. Refuted: the label called front is that of the front left camera; an entry may carry the name of another sequence.",
  "status": "proved"
 },
 "C148": {
  "note": "Exact objects, files, evaluation rows and values. Refuted: frames are told apart by segment; objects without camera-synced box are left out.",
  "status": "proved"
 },
 "C149": {
  "note": "Closed under the global context. The flow loss is called with prediction and truth swapped and is doubled; the occluded animation shows observed images. zlib, the network and float rounding are not modelled; the cross-entropy of a cell is any function.",
  "status": "proved"
 },
 "C15": {
  "note": "All score lists and counts, exact rational arithmetic; includes the counterexample for scores above 1.",
  "status": "proved"
 },
 "C150": {
  "note": "Closed under the global context. Defects: grid_imshow fails for a single image, _compute_ray_mask reads global variables. Files, archives, figures and float rounding are not modelled; the ray and box test is any function.",
  "status": "proved"
 },
 "C151": {
  "note": "Closed under the global context. Defect: the maps tutorial colours points by range under the name intensity. Reading files, drawing and float rounding are not modelled; the extraction of points and the norm are any functions.",
  "status": "proved"
 },
 "C16": {
  "note": "Exact rational arithmetic, for every positive constant in place of M_PI: accuracy is one minus the circular distance over pi; symmetry, period, extremes.",
  "status": "proved"
 },
 "C17": {
  "note": "All histories of updates and resets; exact rational IoU, unbounded counters.",
  "status": "proved"
 },
 "C18": {
  "note": "All histories and splits below 2^31 points; the narrowing of larger merged counts is refuted by a witness.",
  "status": "proved"
 },
 "C19": {
  "note": "All objects and generators; distances compared by exact squares, the bearing is an input in degrees. The camera generator stopping on unsupported cameras is stated as the exact condition and by a witness.",
  "status": "proved"
 },
 "C20": {
  "note": "All configurations; error kinds differ between the languages, success and names agree. Names are distinct for distinct generators and levels.",
  "status": "proved"
 },
 "C21": {
  "note": "see MotionProperties.v; hypot, rotation and polygon intersection are parameters, floats are rationals",
  "status": "proved"
 },
 "C22": {
  "note": "see MotionProperties.v; hypot, rotation and polygon intersection are parameters, floats are rationals",
  "status": "proved"
 },
 "C23": {
  "note": "see MotionProperties.v; hypot, rotation and polygon intersection are parameters, floats are rationals",
  "status": "proved"
 },
 "C24": {
  "note": "exact acceptance condition, crash freedom, and two refuting witnesses (step equal to the number of steps; short unpredicted track)",
  "status": "proved"
 },
 "C25": {
  "note": "exact acceptance condition; refuting witness for repeated objects",
  "status": "proved"
 },
 "C26": {
  "note": "see PanopticProperties.v; images are flat pixel lists, PNG coding is the identity on uint16, skimage relabel_sequential is modelled from its documentation",
  "status": "proved"
 },
 "C27": {
  "note": "see PanopticProperties.v; images are flat pixel lists, PNG coding is the identity on uint16, skimage relabel_sequential is modelled from its documentation",
  "status": "proved"
 },
 "C28": {
  "note": "see ComponentProperties.v; the column types are not modelled; all 24 component classes of v2/perception are listed in ComponentModel.v",
  "status": "proved"
 },
 "C29": {
  "note": "Exact acceptance sets with exception types for both validators, exact sets of required and evaluated ids; three refuted expectations with witnesses.",
  "status": "proved"
 },
 "C30": {
  "note": "Exact success condition and complete result for every table and id list.",
  "status": "proved"
 },
 "C31": {
  "note": "Exact success condition of the log conversion, acceptance by the validator, object by object result of both conversions; float rounding to float32 happens before the model.",
  "status": "proved"
 },
 "C32": {
  "note": "Validity masks characterised exactly; features characterised by value, including wrapped headings; NaN exactly on borders; valid features depend on valid inputs only. Exact rationals; norm and pi are parameters. One-step trajectories get two steps of features (refuted length preservation).",
  "status": "proved"
 },
 "C33": {
  "note": "All four comparison modes (per object / all objects, per step / all steps) and the scenario level variant; histogram, bernoulli and kernel estimators characterised independently; bounds, simplex, order independence. Likelihoods as exact rationals instead of float logarithms; the Gaussian is a parameter; NaN samples excluded.",
  "status": "proved"
 },
 "C34": {
  "note": "Metametric, buckets, masked averages, aggregation, indications and rates; refuted: mean of every field, order independence of the aggregation, traffic light rate restricted to vehicles. exp is a parameter; the log-likelihoods are inputs (see C33).",
  "status": "proved"
 },
 "C35": {
  "note": "Encoding, decoding and scattering of range_image_utils in exact arithmetic; float rounding not modelled. The refuted theorem shows that a pixel can mix features of two points.",
  "status": "proved"
 },
 "C36": {
  "note": "atan2 and matrix inversion are not modelled: azimuth, inclination and correction are inputs.",
  "status": "proved"
 },
 "C37": {
  "note": "Exact arithmetic for float and double boxes; the refuted theorem shows the integer instance missing an overlap.",
  "status": "proved"
 },
 "C38": {
  "note": "Axis aligned case complete. For rotated boxes the polygon intersection area is a parameter under a stated contract; C70 proves the contract for boxes without contact and shows that the code breaks its symmetry for a box with common edge lines.",
  "status": "proved"
 },
 "C39": {
  "note": "Exact results within limits, special values, order, unique canonical form. The smallest int is refuted. BIGNUMs are mathematical integers.",
  "status": "proved"
 },
 "C40": {
  "note": "All rounding modes against an independent specification shown unique; ldexp, frexp boundaries proved in both directions; conversion to double correct for at most 53 bits or exponent at least -1021, refuted by double rounding below.",
  "status": "proved"
 },
 "C41": {
  "note": "Whole conversion: outcome, names and sizes of all tensors, contents row by row, kept tracks, counters. Platform parameters: C library functions, std::sort (by its contract), hash set order. Doubles are rationals (coordinates may be NaN); conversion to float is exact binary32 rounding without overflow.",
  "status": "proved"
 },
 "C42": {
  "note": "Comparator laws on all tracks; refuted with NaN coordinates.",
  "status": "proved"
 },
 "C43": {
  "note": "The norm and the power function are parameters with the stated laws; numbers are rationals. C43_closer_scores_higher_refuted records that the floor outside can exceed the label inside.",
  "status": "proved"
 },
 "C44": {
  "note": "The metrics op is a parameter. The _refuted theorems record the predictions kept by a rejected update and the misaligned optional speeds.",
  "status": "proved"
 },
 "C45": {
  "note": "Values, success boundary and defects; floats as rationals, ids assumed to fit 32 bits, undefined reads are IndexError.",
  "status": "proved"
 },
 "C46": {
  "note": "Values and success boundary for both groupings, and the frame alignment of the detection and tracking ops.",
  "status": "proved"
 },
 "C48": {
  "note": "Includes the refutation that a negative best MOTA is reported.",
  "status": "proved"
 },
 "C49": {
  "note": "The exact condition under which the code collects all scores is proved in both directions; the unconditional claim is refuted by witnesses.",
  "status": "proved"
 },
 "C50": {
  "note": "Exact rationals for floating point; every integer width for integral types.",
  "status": "proved"
 },
 "C51": {
  "note": "All configurations and object lists; the exact condition for camera shards is proved and the unconditional claim refuted.",
  "status": "proved"
 },
 "C52": {
  "note": "see MotionProperties.v; hypot, rotation and polygon intersection are parameters, floats are rationals",
  "status": "proved"
 },
 "C53": {
  "note": "see MotionProperties.v; hypot, rotation and polygon intersection are parameters, floats are rationals",
  "status": "proved"
 },
 "C54": {
  "note": "see MotionProperties.v; hypot, rotation and polygon intersection are parameters, floats are rationals",
  "status": "proved"
 },
 "C55": {
  "note": "see MotionProperties.v; hypot, rotation and polygon intersection are parameters, floats are rationals",
  "status": "proved"
 },
 "C56": {
  "note": "see PanopticProperties.v; images are flat pixel lists, PNG coding is the identity on uint16, skimage relabel_sequential is modelled from its documentation",
  "status": "proved"
 },
 "C57": {
  "note": "see PanopticProperties.v; images are flat pixel lists, PNG coding is the identity on uint16, skimage relabel_sequential is modelled from its documentation",
  "status": "proved"
 },
 "C58": {
  "note": "see PanopticProperties.v; images are flat pixel lists, PNG coding is the identity on uint16, skimage relabel_sequential is modelled from its documentation",
  "status": "proved"
 },
 "C59": {
  "note": "The refuted theorem shows a column index equal to the width accepted.",
  "status": "proved"
 },
 "C60": {
  "note": "Exact arithmetic.",
  "status": "proved"
 },
 "C61": {
  "note": "Square roots are inputs; refuted theorems record zero tolerance, predictions within a millimetre of the sensor and the height under centre alignment.",
  "status": "proved"
 },
 "C62": {
  "note": "binary32 rounding proved nearest; overflow to infinity not modelled.",
  "status": "proved"
 },
 "C63": {
  "note": "The logarithm in NumSignificantDigitsForPrec is exact in the model. The _refuted theorems record the rounding of 6 to 9 after an even digit and the unpadded exponent.",
  "status": "proved"
 },
 "C64": {
  "note": "over the reals; a repeated consecutive vertex makes every point count as outside (refuting witness)",
  "status": "proved"
 },
 "C65": {
  "note": "for all pairs of rectangles of positive size; over the reals",
  "status": "proved"
 },
 "C66": {
  "note": "over the reals; factor 1 (capsules) loses the sign of the distance: crossing boxes count as apart (refuting witness)",
  "status": "proved"
 },
 "C67": {
  "note": "Real numbers instead of floats. The sign at collinear reversing corners (spikes) is not stated. Padding and free end behaviour refuted by witnesses.",
  "status": "proved"
 },
 "C68": {
  "note": "Real numbers, exact arithmetic. Hypotheses: step of at least 0.1 s, places and sizes within ten thousand kilometres, positive width of the evaluated box. Two _refuted theorems state defects of the code: headings compared without wrapping, speeds from invalid neighbours.",
  "status": "proved"
 },
 "C69": {
  "note": "Exact fractions. Coordinates within a million kilometres, two steps or more. Four _refuted theorems state defects: wrong sign in the distance to a segment (missed and spurious), segment from the end of a padded lane to the origin, stop point at the origin for a signal not listed.",
  "status": "proved"
 },
 "C70": {
  "note": "Real numbers. Contact between a corner and the other boundary is excluded where completeness is claimed; a _refuted theorem shows that the code misses a contained box there.",
  "status": "proved"
 },
 "C71": {
  "note": "Known gap stated by C71_heading_refuted. Sample weights and dropping of categories are not modelled.",
  "status": "proved"
 },
 "C72": {
  "note": "Known gaps stated by C72_minimal_refuted and C72_hidden_refuted. scipy's solver is a parameter with its contract as hypothesis.",
  "status": "proved"
 },
 "C73": {
  "note": "Over real numbers.",
  "status": "proved"
 },
 "C74": {
  "note": "Known gap stated by C74_not_level_refuted. Over real numbers.",
  "status": "proved"
 },
 "C75": {
  "note": "Join described by a one to one correspondence between output rows and pairs of records (or single records); grouping described by classes of row positions. Sorting of groups and outer joins is an arbitrary reordering; dtypes and clashing renamed columns are not modelled. Refuted: automatic grouping by default, and completeness of outer joins of a grouped table with null keys.",
  "status": "proved"
 },
 "C76": {
  "note": "Locations are an abstract type, tensors are lists, one sample at a time. Refuted: alignment of boxes when only some poses have one, and the size of a converted box.",
  "status": "proved"
 },
 "C77": {
  "note": "Ids and camera names are numbers. Refuted: the camera labels of an object are always a dictionary.",
  "status": "proved"
 },
 "C78": {
  "note": "OksModel.v models the similarity of one object over the reals; the defects are refuted by witness.",
  "status": "proved"
 },
 "C79": {
  "note": "Position error, correct keypoints and precision are modelled as running means over batches; metric names are not modelled, results are keyed by threshold.",
  "status": "proved"
 },
 "C80": {
  "note": "Occupancy is modelled one cell at a time, with real numbers. C80_flow_mean_refuted shows the component-wise average of axis-aligned flows faster than each of them.",
  "status": "proved"
 },
 "C81": {
  "note": "Exact for real coordinates; rounding to the nearest cell, halves to even, as tf.round. C81_observed_now_refuted: the documentation says observed agents are valid at the current step, the code takes any past or present step.",
  "status": "proved"
 },
 "C82": {
  "note": "Contributions are keyed by agent and sample, so each counts once.",
  "status": "proved"
 },
 "C83": {
  "note": "Sufficient condition proved for all headings; C83_covered_refuted is a bus of 18 m with the default configuration.",
  "status": "proved"
 },
 "C84": {
  "note": "Over real numbers. C84_iou_exact_refuted and C84_epe_all_cells_refuted are the defects.",
  "status": "proved"
 },
 "C85": {
  "note": "The loop is proved for any warped grids; C85_available_refuted shows that compute_occupancy_flow_metrics itself always raises with a waypoint, since _flow_warp is disabled in this version.",
  "status": "proved"
 },
 "C86": {
  "note": "The refuted clause (undistortion that does not come back) is C86_undistortion_refuted; real numbers, no rounding.",
  "status": "proved"
 },
 "C87": {
  "note": "The documented frame of the angular velocity is refuted by C87_angular_velocity_refuted; the rest holds with the vehicle frame.",
  "status": "proved"
 },
 "C88": {
  "note": "Positive clauses for a vehicle that does not turn; the code defects are C88_valid_pixel_refuted, C88_outputs_assigned_refuted and C88_turning_round_trip_refuted.",
  "status": "proved"
 },
 "C89": {
  "note": "see DESIGN.md; numbers are real, rounding is not modelled",
  "status": "proved"
 },
 "C90": {
  "note": "The exact failure condition is proved and a witness of the failure is in C90_seam_refuted.",
  "status": "proved"
 },
 "C91": {
  "note": "The failure of frames without top lidar is in C91_topless and C91_side_lidars_refuted.",
  "status": "proved"
 },
 "C92": {
  "note": "The failure of top lidars without listed inclinations is in C92_motion_top_unlisted and C92_motion_top_refuted.",
  "status": "proved"
 },
 "C93": {
  "note": "see DESIGN.md; numbers are real, rounding is not modelled",
  "status": "proved"
 },
 "C94": {
  "note": "Real arithmetic; exact for slanted rays, exact boundary for zero components, documented promises refuted by witnesses.",
  "status": "proved"
 },
 "C95": {
  "note": "Real arithmetic; the turned box theorem assumes a direction without zero components in box coordinates.",
  "status": "proved"
 },
 "C96": {
  "note": "Real arithmetic; a zero step is an error in the model.",
  "status": "proved"
 },
 "C97": {
  "note": "Real arithmetic; the drift of repeated coding is a refuted expectation.",
  "status": "proved"
 },
 "C98": {
  "note": "Real arithmetic; keys are opaque.",
  "status": "proved"
 },
 "C99": {
  "note": "Real arithmetic; the area tolerance is refuted as a distance.",
  "status": "proved"
 }
}