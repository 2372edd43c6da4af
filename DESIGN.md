# Formal model of cameratransform — design

The source in `/repo` is read as text. The model is a function-by-function
transcription into Gallina (Coq 8.16.1); every definition cites the Python file
and lines it transcribes, and says where it simplifies.

## Trusted base

* Coq's kernel (`coqc`; `coqchk` can re-check the `.vo` files).
* The axioms printed by `Print Assumptions` after every theorem in the
  `Prop*.v` files. Real-valued theorems use the axioms of the standard
  library's `Reals` (`ClassicalDedekindReals.sig_forall_dec`,
  `ClassicalDedekindReals.sig_not_dec`,
  `FunctionalExtensionality.functional_extensionality_dep`) and, through
  Ratan/`Rtrigo`, `Classical_Prop.classic`. Executable models (parameters, caches,
  strings, shapes, ...) are axiom free. No axioms of our own, no other library.
* The transcription itself, i.e. the modelling decisions below.

## Modelling decisions

* **Numbers** (`Num.v`). Numpy/Python floats are modelled by
  `num = Fin r | NegZ | PInf | NInf | NaN`: the IEEE-754 special values and the
  signed zeros with their exact algebra, but *exact real* arithmetic for finite
  results. Rounding, overflow to infinity and underflow are **not** modelled here;
  C65, C75, C80, C88 and C91 to C93 bound the rounding errors of several computations
  separately (`Rounding*.v`), again without overflow and underflow.
  A comparison with NaN is false, `0/0`, `inf-inf`, `0*inf` are NaN, `x/0` is an
  infinity signed by the signs of `x` and of the zero, `arctan2` follows the full C
  table. Hence every "becomes nan / inf" statement is about the real
  special-value behaviour and every equality is an equality up to rounding.
* **Arrays.** Per-point functions are modelled on one row (`v2`, `v3`); batch
  behaviour (broadcasting, `axis=-1`, boolean-mask assignment) is treated
  separately in `NdArray*.v` on a small n-dimensional array library with numpy's
  broadcasting rule, where row-wise equality is a theorem.
* **Objects.** Parameter objects, parameter sets, callbacks and sharing are a heap
  model (`Param*.v`); Python exceptions are values of a result type; iteration
  order of a `set` is an explicit, universally quantified order.
* **Randomness, optimisers, splines, files** are arguments (oracles) of the
  modelled functions and universally quantified.

## Not modelled

Float rounding (other than in C65, C75, C80, C88, C91 to C93 and C97); overflow and underflow; what matplotlib draws from the rows and lines it is given
(C64, C68 and C70 model which ones); `cv2.remap` interpolation other than at integer positions; cv2's calibration and corner
detection; EXIF tag parsing by PIL; pandas traces beyond labels, names, rows, mean and standard deviation. Of
`gui_tools` only what the C71 row and later rows name is modelled; Qt's event loop, widgets and painting are not. The
library itself starts no threads; the calibration window does. `get_all_pymc_parameters`
(statistic.py 255-262) needs a package the project does not ask for and is called from nowhere.

## Plan per property

| id | modelled / how proved |
|---|---|
| C01-C05 | `Orientation.v`: `_initCameraMatrix` and the two transforms over `num`; refinement to real matrices, then trigonometric identities (`nsatz`/`ring`). C04 also through the parameter heap (renormalising callback). |
| C06-C09 | `Projection.v`: the three projections over `num` with the `1e-10` masking; real spec is "the point is a positive multiple of the ray". |
| C10 | `Projection.v`: FOV functions, inverse lemmas of `tan`/`atan`. |
| C11-C13 | `CameraTransform.v`: `getRay`, `imageFromSpace`, `spaceFromImage` with all constraint branches, parametrised by projection and lens. |
| C14 | `NdArray.v` (arrays of any number of axes, broadcasting, the numpy operations used), `NdCamera.v` (the transformations written with these operations in the order of the source), `PropBatch.v`. imageFromSpace, getRay and spaceFromImage with one distance: any number of leading axes. spaceFromImage with planes or per-point distances, getObjectHeight, getObjectLength, getClosestPointFromLine: (k) and (N x k), constraints scalar or (N); one point with M planes gives M results. The row results are the scalar functions used by all other properties. With two leading axes spaceFromImage mixes the factors of different points (`C14_grid_refuted`). Not modelled: numpy's grouping of sums, object dtype when X, Y and Z are all arrays. Lines: `NdLine.v`, `PropLine.v` (intersectionOfTwoLines, distanceOfTwoLines, spaceFromImages and discanteBetweenRays of N pairs; the intersection of a batch is an array exactly if no pair is parallel and a list otherwise). GPS: `NdGps.v`, `PropBatchGps.v` (getBearing, getDistance, moveDistance, gpsFromSpace, spaceFromGPS on arrays; moveDistance broadcasts the wrong axis and two points are read as latitude and longitude pairs, `C14_moveDistance_refuted`, `C14_two_points_refuted`). Meshes: `NdRay.v`, `PropBatchRay.v` (ray_intersect_triangle for one or R rays and one or T triangles, spaceFromImage with a mesh; R origins with a direction (3) return one point, `C14_origins_refuted`; rays with two leading axes are not modelled). |
| C15, C16 | `CameraTransform.v`, `PropRay.v`. |
| C17 | `Horizon.v`, `PropHorizon.v`: the distance against tangent points of a sphere; the rows against first-minimum. `PropHorizonRow.v` computes the row of a rectilinear camera: `dip` is the sine of the angle of a line of sight below level, and it grows down a column until the nadir or zenith is passed (`sinking`); C17_nearest (any attitude), C17_level (closed form). `skyline` are the points where lines of sight touch the sphere under the camera: C17_skyline gives their dip, C17_half and C17_too_high compare it with the dip the code looks for (half as much, because the code puts the horizon at the height 0 of the flat ground), C17_skyline_refuted is the concrete camera, C17_elevation what fitting the height to the row of the true horizon gives. |
| C18-C20 | `Lens.v`; the spline is an oracle satisfying "interpolates its knots" or raising. |
| C21-C26 | `Ray.v`: over `num`, spec over R by minimality of distance. distanceLinePoint on vectors and on arrays: `NdLine.v`, `PropLine.v`. |
| C27, C54 | `Stereo.v`, `PropStereo.v`: triangulation, ray distance, epipolar error of two cameras, over R by refinement; `PropLine.v` (`C27_batch`): N points in one call. |
| C29 | `Space.v`, `PropSpace.v`: rotateSpace and scaleSpace as attribute reads and writes on the parameter heap. |
| C28 | `ParamGroup.v`, `PropGroup.v`: names, cameras and sharing of a new group, and what every later history keeps of them. |
| C30-C32 | `Gps.v`, `PropGps.v`: one row of each function over `num`; places as unit vectors, distances as angles between them (triangle inequality by the Gram determinant), bearings as north and east components; batches as lists with the `len(gps) == 2` rule. |
| C33-C35 | `GpsString.v` (model): code-point strings, Python's `%` operator for the placeholders formatGPS looks for, regular expressions as ordered lists of backtracking successes, `float` on digit strings into exact rationals. `GpsStringFacts.v`, `GpsRegex.v`: digits, rounding and matching. `PropGpsString.v`: C33 the default format, the two minutes formats and the degrees format read back within half a unit of the last digit, alone or joined by a blank or comma, for all reals; C34 minutes and seconds below 60 for every format whose leading numbers are `%d` (refuted for rounded leading numbers: 0.75 prints as 1 degree 45 minutes); C35 letter, sign of a parsed coordinate, errors, and the refuted sign of `%d` degrees between -1 and 0. Left out: `asLatex` (its replacement is the identity); heights and nested lists of gpsFromString are in C69. |
| C36-C41, C56 | `Param.v`: heap of parameter objects, parameter sets, cameras and groups, polymorphic in the number type; `ParamFacts/Ops/Steps/Reach/Cam.v`: invariants of all histories of operations; `ParamLaws.v`, `PropParam.v`, `PropFit.v`: the laws. `ParamMap.v` transports histories computed at `Q` (`ParamCheck.v`, `ParamExamples.v`) to `num`, which gives the examples and counterexamples. `PropFitTypes.v`: every parameter keeps the type of its name through all histories, so that get_fit_parameters(type) returns the free parameters of the classes asked for. `ParamTotal.v`/`PropTotal.v`: no call raises. `ParamSave.v`/`PropSave.v`: save and load. |
| C48 | `LogProb.v`, `PropLogProb.v`: registered terms as functions of an arbitrary state; the total of a list with the IEEE special values, independent of the order of summation; the names of the additional parameters. C48_raw is the sum without the replacement of nan, C48_plots the number of plot functions. |
| C42, C43 | `MapCache.v`, `PropMapCache.v`: `_getUndistortMap`, `_getMap`, `undistortImage`, `getTopViewOfImage` as a state machine: the cached map, the extent it was computed for (a reference to the caller's list, or an own list) and the scaling. Images are functions of row and column, maps are lists of rows of positions, `remap` takes the pixel at the rounded position (positions exactly between two pixels are left open) and the border value outside. `MapRound.v`, `PropMapRound.v`: the same with maps converted to single precision by an arbitrary function that keeps 24 binary digits (underflow and overflow included); C43_undistorted_single and C43_top_view_single give the same pixels up to 1/256 pixel around the middle between two pixels, where C43_single_refuted shows that nothing can be said. `ExtentKind.v`, `PropExtentKind.v`: undistortImage with an extent that is a list, tuple or array: C42_lists (lists: the machine above), C42_tuple, C42_array_stuck (one call with an array makes every later undistortImage raise, over all later events), C42_array_refuted. Not modelled: OpenCV's fixed-point conversion of the positions, sizes above its limit. Refuted parts: the map is stale after a change of the camera, the lens, Z, hide_backpoints or the contents of the caller's extent list; a lens with zero coefficients blanks the image centre; the guessed extent can show nothing. |
| C44, C57 | `ProjInit.v`, `PropProjInit.v`: the constructor stage by stage with ValueError and ZeroDivisionError, Python truth of zero, the plain attributes left by lines 147-148. Acceptance is characterised for all finite nonzero arguments; the values of every accepted construction against independent specifications (similar triangles, field of view through C10). Refuted: tuple focal length, focal length overridden by the other view, a contradiction hidden by a zero, the assigned image size after a view. `PropFrozen.v` follows the attributes through the whole parameter model of C36: C57_frozen_for_ever (a projection built from a view sees its first size after any history of assignments, fits, samples and loads) and C57_never_frozen (one built without a view never hides a parameter, the hypothesis `unfrozen` of C37 and others). |
| C58 | `FitTerms.v`, `PropFitTerms.v`: the terms appended to `log_prob` (heights, lengths, landmarks, horizon, baseline, correspondences) with the normal log density; scipy's sums over arrays are sums over the list of observations, the 1000 samples of a landmark are the exact linspace. The bound of a term and the cameras that reach it are derived from independent specifications (density, foot of the perpendicular, C15, C16, C54). C58_parameter: a fit parameter as variation counts as its number. `FitArgs.v`, `PropFitArgs.v`: the forms of the uncertainties (number, row, table; numpy's broadcasting, np.max) and of the horizon points; C58_uncertainties and C58_horizon_forms reduce them to the terms, C58_size_forms does the same for expected heights and lengths, C58_uncertainties_raise says which lengths raise, C58_reach what the shared reach of the samples adds. Simplified: it is not modelled whether a wrong length raises in the call or in the evaluation. Not modelled: arrays of landmarks of more than two dimensions. Refuted: unequal uncertainties of landmarks, a further less certain landmark (C58_reach_refuted), an array of variations (C58_variations_refuted), the horizon of the sphere (C58_skyline_refuted in `PropHorizonRow.v`), hidden samples of correspondences, baseline without elevation. `PropFitCounts.v`: C58_counts (any numbers of pixels and positions, for the term and for the line of the plot), C58_counts_refuted (a forgotten pixel), C58_correspondence_counts and C58_correspondence_weighted (pairs of pixels with their own uncertainties), C58_size_counts (heights and lengths). |
| C59 | `GpsImage.v`, `PropGpsImage.v`: `gpsFromImage`, `imageFromGPS` of one point and of an array, `addLandmarkInformationGPS`; composed from the models of C12 and C30-C32 with the three-column layout made explicit. Walking on the sphere is the specification of C31. Refuted: pixel to gps and back for an elevated camera, two points and two landmarks with heights. Not modelled: arrays of rank above two. `GpsArgs.v`, `PropGpsArgs.v`: the forms of the arguments of addLandmarkInformationGPS and its plot (C59_landmark_forms, C59_landmark_counts), reduced to those of C58. |
| C60 | `TwoView.v`, `PropTwoView.v`: rotationToEuler and the parameters that are set, as a function of the rotation and translation returned by cv2. Not modelled: cv2.findEssentialMat and recoverPose; the theorems assume the documented contract (`relative`: coordinates in the axes of OpenCV). The exact condition for success is derived from linear algebra on rotations. Refuted: the relative pose, with a concrete pair and pixels. |
| C61 | Fridge.v: fridge, FitParameter, Model as computations over the parameter heap; bayesianfridge is any interaction `strat`. PropFridge.v: recorded values by the state invariant of C47 (`during`), the maximum by C46's `idxmax`; blindness by induction over the sampler; two refutations |
| C62 | `Epilines.v`: drawLine, the loop of drawEpilines, its cross at the epipole (getPos) and the pixels and the number of plotMyEpiploarLines. `PropEpilines.v`: clipping by the signs of the line's equation at the four corners; straightness of the image of a line of space generalised from C54. Not modelled: the drawing, cv2.findFundamentalMat and computeCorrespondEpilines (any lines). Refuted: drawing the diagonal |
| C63 | `Additional.v` runs the start search and the sampler of `Fit.v` with the values of the additional parameters as state and numpy's broadcasting of the steps. The walk is related to `Metropolis.metropolis` on the log probability as a function of the whole position (`C63_one_parameter`); `C63_no_additional` links it to `C46_method`; `C63_raises`, `C63_left_refuted` and `C63_fit_refuted` are the failures. Start values are numbers; names of additional parameters are not names of camera parameters. |
| C64 | `FitPlot.v` models the predicted pixels of the plot functions, the joining of observations and predictions to one line with nan rows, and what plotting such a line draws. `PropFitPlot.v` proves the agreement with the measuring functions of C15 and C16 and with the landmark term of C58, and that for tables of points and single points exactly the pairs are joined; refuted for grids of points and for front = back. The drawing itself (matplotlib) is not modelled beyond `segments`. |
| C65 | `Rounding.v` writes the rectilinear transformations over the reals with every numpy operation followed by an arbitrary rounding function (the order of the sum in np.dot is left open; the result of np.linalg.inv is any matrix that inverts up to 10000 u). `RoundingFacts.v` defines what is assumed of it (`accurate u`: relative error u for + - * /, 4 u for deg2rad and for a dot product, 8 u absolute for sin and cos) and builds binary64 arithmetic with round to nearest that satisfies it with u = 2^-53. `PropRounding.v` compares the results with the exact model of the other files; with exact arithmetic both agree (C65_exact). Overflow, underflow, lens distortion and the other projections are not covered. |
| C66 | Uses the model of the sampler in `Metropolis.v` (C46). `PropBalance.v` defines the density of scipy's truncnorm (bell curve over the Riemann integral of it between the bounds, infinite bounds by a least upper bound), the probability of the acceptance test for a uniform draw, and from both the transition density of one iteration; C66_defined shows that it always exists, C66_chain that the iterations after the burn-in use one scale factor, C66_unbounded is detailed balance, C66_bounded the density that is balanced with ranges; C66_bounded_refuted and C66_tuned_refuted show that the given density is not. The step from detailed balance to the distribution of the samples (ergodic theorem) and prior traces are not covered. |
| C67 | `Trace.v`: a frame with index labels, names and rows; sample and set_to_mean with a trace on the parameter heap of C36-C41. `PropTrace.v` uses that the sampler sees a function of the position (C47, `during`): all states reached by sampling differ only where positions reach. A repeated label (pandas then returns a frame) counts as raised. Refuted: a trace whose first rows have been cut off. |
| C68 | `TraceSummary.v`: print_mean_std with floor(log10) and half-even rounding on the two printed numbers (str() of a float is taken to be read back as the float), pandas' mean and std without nan, the loop over the columns with the lines printed before an exception, and the lines of plotTrace on the frames of `Trace.v`. `PropTraceSummary.v` compares with mean and standard deviation over the reals and powers of ten. Refuted: the summary of a run without accepted proposal. Density curves and axes are not modelled. |
| C69 | `GpsInput.v`: the recursion over nested inputs with np.array (entries of different shapes raise) and np.hstack for the height, on top of the string parser of C33-C35; arrays are nested lists whose cells are numbers or None. `PropGpsInput.v`: documented forms as an inductive relation, tables of numbers as another; the round trip composes with C33. Refuted: a height (or heights) for several positions, a height beside a single coordinate, text without degree signs. numpy integers and booleans as numbers are not modelled. |
| C70 | `SceneView.v`: the rows given to plt.plot on each of the four axes, and the image size test of np.zeros. `PropSceneView.v`: what plotted rows show is a separate definition (segments between neighbouring finite rows); the image of a segment in front of the camera is a segment (projective reparametrisation proved both ways), so drawing straight lines between pixels is right; composed with C52 for cubes and squares and with C51 for the cone. Refuted: edges that start behind the camera vanish, panoramic cameras see curves, edges behind a panoramic camera are drawn across the picture, no camera. matplotlib itself, the horizon line and axis limits are not modelled. |
| C71 | `Calibration.v`: the dict made from OpenCV's results, its application by set_fit_parameters, the pattern. `PropCalibration.v`: OpenCV's camera model (its axes, Brown-Conrady distortion with tangential terms, undistort with the same matrix) is a separate specification. C71_project, C71_undistort: the Brown lens of this library agrees with it. C71_applied: in the parameter model of C36, for all reachable states; C71_results composes both. Refuted: a point on the axis is nan; results with tangential coefficients (which the flags of fitCalibration exclude) would be applied without them. cv2's own fit and corner detection are not modelled. |
| C72 | `CalibWindow.v`: the window as a state machine; events are the user's actions, a queued call of processNextImage, and a single statement of one of the threads (processing or loading). `PropCalibWindow.v`: invariants over all event sequences (C72_used, C72_points, C72_processed, C72_shown, C72_size, C72_corrected_size, C72_selected) and the flags bit by bit (C72_flags). Refuted by concrete runs: C72_race_refuted (a double click between two statements of a thread makes the fit raise), C72_failed_refuted (stored corners of another board: marked failed, still used), C72_same_name_refuted (a.jpg and a.png share corners), C72_stale_refuted and C72_stale_map_refuted (a calibration arriving while a picture loads leaves old corrections), C72_size_refuted (a loaded calibration's size is used for the fit), C72_mixed_refuted (images of different sizes in one fit), C72_parallel_refuted (a second press of Process runs two at once). Not modelled: corner detection and the optimiser of cv2, the drawing of table and picture, slots of the main thread are one step each. |
| C73 | `GraphicsView.v`: the view as a state machine over exact reals: the six nested transforms, the flags and the mouse; `show` is Qt's composition of the items. `PropGraphicsView.v`: C73_zoom, C73_drag, C73_fit, C73_center, C73_translate, C73_extend, C73_small, C73_map, C73_repaint, C73_kept, C73_release (the mouse without the button), C73_offset over all event histories with positive sizes. Rounding of QPoint is an arbitrary function off by at most 1/2. Refuted: C73_tilted_refuted (45 degrees: the fitted picture reaches out, GetExtend is wrong), C73_quarter_refuted (centerOn at 90 degrees), C73_lost_refuted (centerOn does not clear `fitted`, the next resize undoes it), C73_small_refuted (the window can stay empty), C73_map_refuted (mapToOrigin forgets the rotation). Angles are whole degrees; DoTranslateOrigin is modelled but excluded by hypothesis where its item offset is ignored by the source; mapToScene is the identity; head-up items and drag-and-drop are not modelled. |
| C74 | `Demo.v`: sliders, visibility, the two cameras and every intermediate call of update. `PropDemo.v`: C74_shown and C74_range by induction over histories, C74_reach (every slider reaches its whole range), C74_switch and C74_reset through C05 (the two families of angles), C74_back. Refuted: clicking the label that is already selected throws the angles away (C74_reclick_refuted). setattr on a camera is C36; matplotlib's widgets, whole-number steps and the drawing (C70) are not part of it. demo_qt.py is C76. |
| C75 | `RoundingGps.v` writes the functions with every operation rounded (as Rounding.v for C65); a root of a negative number or an arcsin above one is nan. `PropRoundingGps.v`: the root of s1^2 + c1 c2 s2^2 is Lipschitz in the computed sines and cosines because the cosines differ by at most 2|s1| (`root_near`), arcsin loses at most the cosine of half the angle (`asin_near`), a disturbed vector keeps its direction (`direction_close`). C75_distance, C75_worst (7 m in double precision for any pair whose result is a number), C75_heights, C75_bearing, C75_space, C75_double, C75_same, C75_symmetric; compared with the exact model of Gps.v (C30-C32). Refuted: opposite places may give nan (C75_antipode_refuted). Assumed: the computed cosines of the latitudes are not negative (proved wherever the cosine of the latitude is at least 40 u). moveDistance and gpsFromSpace are not analysed. |
| C76 | `DemoQt.v`: spin boxes, slider positions, last_emited_value, dragging, locking and updatePlot; numbers are counted in the units a spin box keeps. The slider position int(value * factor) is rounded by an arbitrary function. `PropDemoQt.v`: an invariant over all histories (`act_inv`) gives C76_shown, C76_stale_only and C76_repaired; a second one (`act_inv2`) C76_once, all inputs as long as no box is checked again; C76_untouched: an input that is never touched keeps the number it opened with. Refuted: after locking and unlocking, typing the number sent before is shown but not drawn (C76_stale_refuted). Not modelled: Qt itself (a signal is sent when a part changes, disabled inputs do not react), exceptions while drawing, set_fit_parameters (C40) and the pictures (C70). |
| C77 | `Describe.v`: the four __str__ methods as lists of pieces (texts, %.kf, %d) written from the tables the methods read. `PropDescribe.v`: the specification cuts the text into lines and finds those that start with a label (`shows_line`); digits are read back by `says`. C77_shown, C77_lens, C77_sizes, C77_prints, C77_assigned (an assigned number is what is printed next), C77_classes (the classes of lens and projection), C77_not_finite (inf, -inf and nan). Refuted: the text does not show which camera it is, the second focal length is not in it (C77_focal_refuted); the sensor line of a camera that was given none shows the default 17.30 x 13.00 (C77_sensor_refuted). The gps position and the centre of the image are not printed either. |
| C78 | `PropDetermine.v` compares two cameras of the models of `CameraTransform.v`, `Horizon.v` and `FitTerms.v`. Specification: `scaled s x y` (both nan, or the second s times the first), `same_tilt`, `moved_out s`. C78_length, C78_length_term, C78_elevation (lengths); C78_height, C78_elevation_height (heights, heading kept); C78_heading_refuted: the heading does matter for heights, because getObjectHeight takes the mean of two vertical lines' planes: the same pixels give 25/4 m and less than 5 m; C78_horizon, C78_tilt, C78_same_horizon (the horizon row of the middle column gives the tilt to 1/f_y); C78_scale, C78_scale_term (corresponding points, both samples in front of both cameras). |
| C79 | `PropPerspective.v`, over the models of `CameraTransform.v` and `Projection.v`. Specification: `between2`/`between3` (division of a segment), `reparam` (an increasing map of the unit interval onto itself), `depth`, `forwards` and `rightwards` (components along and across the heading on the level ground). C79_segment, C79_ground_segment, C79_ground_order, C79_size, C79_vanishing, C79_level_lines. C79_curved_refuted: the cylindrical and the equirectangular projection bend lines. |
| C80 | `RoundingPan.v` (getRay and imageFromCamera of the two panoramic projections, imageFromSpace and spaceFromImage with a given Z, over the reals with the rounded operations of `Rounding.v` and `RoundingGps.v` and a rounded tangent) and `PropRoundingPan.v`. Specification: `accurate_pan` (the accuracies of C75 and a tangent within 8u), `column_error`, `row_error`, `elevation_error` (explicit bounds), `axis_dist`, `eye_dist`, `off_poles`. Two directions within e of each other have angles within 9e/r up to a full turn (`angle_close`). C80_image, C80_double, C80_ground and C80_sky (all three projections), C80_round_trip, C80_plane (points set to zero because |z| < 1e-10). C80_seam_refuted: behind the camera a rounding of any size can move a point across the whole picture, as the rounded sine of 180 degrees does. `pdouble` shows that rounding to 53 bits meets the assumptions. |
| C81 | `PropSensitivity.v` over the models of C01-C20. Specification: `shows` (spaceFromImage with a given Z returns the point), `level`, `slant`, `depth`, `forwards`, `rightwards` (distances in the frame of the camera), `with_tilt`, `with_heading`, `with_elevation`, `with_position`, `turn_right`, `beside`, `ahead`. C81_pixel (bound for any orientation, by Lagrange's identity), C81_row (exact without roll), C81_tilt, C81_heading, C81_elevation, C81_position, C81_disparity, C81_range, C81_approach. C81_bounded_refuted: the error of one row has no bound towards the horizon. |
| C82 | `PropAngles.v` over `Orientation.v`. Specification: `motion` (a map of points that keeps distances and the sign of a volume, no matrices), `turns` (degrees up to full turns), `same_view` (equal camera coordinates of every point), `same_attitude`. A motion is a rotation and a shift (`motion_matrix`), every rotation has angles (`euler`, from the third row and column). C82_every_motion, C82_every_motion_ypr, C82_same_camera (an equivalence), C82_unique. |
| C83 | `PropResect.v` over the models of the camera and `PropAngles.v`. Specification: `agree_on` (imageFromSpace of both cameras gives one pixel for a point that both can show), `same_pose` (position and `same_attitude` of C82), `area2`. One pixel is one direction in camera coordinates (`agree_ray`), rotations that agree on two directions are equal (`agree_rot`). C83_two_landmarks, C83_four_landmarks, C83_ground_landmarks for all projections. C83_three_refuted: a turn about the line of two landmarks that moves the third along its ray. C83_focal_refuted: f and elevation doubled. |
| C84 | `PropGpsFlat.v` over `Gps.v` and `PropGps.v`. Specification: `place`, `is_angle`, `onward` of C30-C31 (vectors of the unit sphere), `planar` (distance of two points of the plane). C84_origin gives the polar form; `laws` puts the spherical law of cosines beside the planar one; C84_never_short and C84_stretch compare them (`bulge`: sin z / z falls up to PI, by the mean value theorem), C84_local is the bound without sines, C84_factor_refuted two points beside the antipode. |
| C85 | `PropTurn.v` over the models of the camera. Specification: `sees` (imageFromSpace of a point that can be shown gives this pixel, not on the seam), `across`/`down` (pixels from the principal point in focal lengths), `azimuth`/`slope` of a pixel. C85_no_parallax, C85_parallax, C85_reproject, C85_zoom for all projections; C85_pan for level cameras of all projections and C85_scroll for the panoramas in pixels; C85_roll and C85_tilt for rectilinear cameras; C85_scroll_refuted a panorama with tilt 60. |
| C86 | `ParamParts.v` models save and load of projection, orientation and lens over the parameter heap of `Param.v` (the file is the list of its entries; JSON is left out), `PropParts.v` proves. Specification: `same_part` (same type and the same parameter names), `complete` (every parameter reads a number), `visible` (no attribute set by hand hides a parameter), `camera_in_use`. C86_load, C86_load_returns for one part, C86_camera for three, C86_orientation_other_names, C86_lens_file_refuted and C86_bare_lens_refuted for the two surprises. |
| C87 | `PropLensCam.v`, on the camera model of `CameraTransform.v` with the lens of `Lens.v`. Specification: `shown_at` (the ray of a pixel points to the point, in coordinates of the camera), `observes` (camera without lens and point in front, or camera with a lens whose inverse is exact at the pixel), `corrects` (the lens moves a pixel of the picture to another, and back). Theorems C87_pixel, C87_ray, C87_recover, C87_recover_distance, C87_constraint, C87_distance, C87_height, C87_length, C87_triangulation, C87_ray_distance, C87_horizon, C87_inexact, C87_centre_refuted. |
| C88 | `RoundingLens.v` transcribes the two radius maps and the common pixel map with one rounding per operation (`lfloats` adds `r ** n` with relative error 4u to the operations of C71); `PropRoundingLens.v` proves C88_brown, C88_abc, C88_undistort and C88_double by a calculus of relative errors against the exact model of `Lens.v`, C88_continuous by the mean value inequality for `p |p|^n`, C88_image by composing with C65_image, C88_identity_refuted with an arithmetic that rounds everything up. Examples use `ldouble` (53 bit rounding). |
| C89 | `PropLensPicture.v`, on `Lens.v` and the camera with a lens of `PropLens.v`. Specification: `follows` (the lens takes a radius r to rho r), `pincushion`/`barrel` (rho r / r grows or falls), `collinear`, `resized`. Theorems C89_distinct, C89_brown_distinct, C89_fold, C89_centre_line, C89_symmetric, C89_row, C89_bent, C89_brown_shape, C89_stretch, C89_zoom, C89_resize, C89_abc_zoom_refuted. |
| C90 | StatSteps.v models normal and normal_bounded coordinate by coordinate on top of an arbitrary sampler for scipy's standard truncated normal distribution, with scipy's argument check (a < b and scale >= 0), numpy's check of the scale and the ZeroDivisionError of python numbers. The specification (truncated, between, ready) only speaks of the sampler's promise and of order. C90_bounded, C90_answers (exactly when it is answered), C90_number, C90_walk (induction over the steps), C90_path (every path between the limits can be taken), C90_units, C90_metropolis (against the model of C46), C90_normal, C90_normal_answers and C90_normal_unlimited. C90_bounded_refuted: a width of -0.0 with the limits in the wrong order is answered outside of them. Rounding is left out, so the last bit may exceed a limit. |
| C91 | RoundingLines.v models __intersectionOfTwoLines and spaceFromImages of two rectilinear cameras operation by operation on the rounded arithmetic of C65, with an arbitrary solver for np.linalg.solve, and LAPACK's elimination of a 2x2 system. The specification is `stable` (backward stability with 32 u), `depth`, `sight`, `within` and `crossing`. C91_solver: the elimination is stable. C91_lines: the computed point of two lines. C91_triangulation combines it with the rounding of the directions (C65) and the exact result (C27); C91_double gives numbers. C91_parallel_refuted: parallel lines for which the exact computation gives nan and a rounded one a point on neither line. |
| C92 | RoundingMesh.v models ray_intersect_triangle operation by operation on the rounded arithmetic of C65 (einsum and np.inner are sums of three products in any order, a division by a rounded zero gives inf or nan). The specification is exact geometry (`ray_at`, `tri_point`, `hit` of C21) with the sizes `measures` and the bounds `param_error`, `point_error`, `margin`. C92_plane: the parameter and the point on the plane of a triangle (use_planes). C92_hit, C92_miss: the decision for one triangle. C92_mesh: the first hit of a mesh, or none. C92_planes: the same for the planes of the triangles. C92_level: a level ray in or beside the plane of a level triangle. C92_double gives numbers. C92_ridge_refuted computes, with the digits of double precision (DoubleFacts.v), a vertical ray that passes through the ridge of a roof. |
| C93 | RoundingObjects.v models spaceFromImage with a given X, Y or Z (`f_spaceOn`), getObjectHeight and getObjectLength operation by operation on the rounded arithmetic of C65 and C75. The specification is exact geometry: `shown_at` relates a point and the pixel in which the exact camera shows it, `reach` and `in_reach` are the sizes, the results are compared with the height and with `rdist`. `on_plane` bounds the point on a plane whose coordinate is itself inexact; C93_height and C93_length follow, C93_double gives numbers. C93_ahead_refuted computes with the digits of double precision. |
| C94 | The model is that of C33-C35 (`GpsString.v`). `PropGpsTyped.v` has the specification: `typed` is a coordinate with the characters as typed, `typed_text` its text, `typed_ok` the allowed characters (white space by the explicit list of code points), `number` decimal numbers and their values as an inductive relation, `worth` and `stands_for` the meaning. `coord_first` follows the matching pattern, `coord_fails` and `bare_fails` show that the longer patterns fail on the shorter forms whatever follows (also where a bare number follows and the pattern backtracks into it), `float_number` that float() accepts no more than `number`. C94_single, C94_pair, C94_no_degree, C94_words_first; the refutations are computed. C94_documented_refuted and C94_small_letter_refuted read the docstring's own text and a small letter. The same file has C33_width and C33_text on width and precision of a placeholder. |
| C95 | `MapPlot.v`: the image and the extent given to plt.imshow, on top of the state machine of C42/C43. `PropMapPlot.v`: `edge` and `area` say where matplotlib draws the rows and columns of an image with an extent (origin='upper'); `sample_in` shows that the k-th of ceil(length/scaling) samples lies in the k-th of as many equal parts. C95_same, C95_top_view, C95_undistorted, C95_no_lens; C95_row_refuted, C95_list_refuted; `PropExtentKind.v`: C95_tuple (plotting an extent given as tuple raises). |
| C96 | `PropCompass.v`, on top of `sees`, `azimuth` and `slope` of C85: `stands` gives the compass direction and the distance of a point from the plumb line of the camera. C96_direction, C96_compass, C96_shown, C96_level, C96_plumb, C96_heights_to_scale, C96_circle, C96_range, C96_horizon_ratio; C96_gps through spaceFromGPS; C96_full_turn (limits of arctan2) and C96_less_than_a_turn; C96_straight_refuted, C96_equirectangular_scale_refuted, C96_plumb_refuted, C96_gps_refuted. |
| C97 | `RoundingMove.v` writes gps.py 443-458 and 471-477 over the rounded operations of `RoundingGps.v`; `PropRoundingMove.v` bounds the sine of the new latitude and the two arguments of arctan2, and compares the place found with the exact model's `moveDistance` (C31) as unit vectors. C97_move (each coordinate and the height), C97_ground (as an angle), C97_space, C97_double, C97_there_and_back (with the bound of C75 for the way back), C97_pole_refuted. |
| C98 | `PropLensPose.v`, over the cameras of C87. `photo` says that a point is shown at a pixel of the picture, with the pixel without lens beside it; `bare` takes the lens off. C98_corrected and C98_one_to_one reduce the camera to the bare one; C98_two_landmarks, C98_four_landmarks, C98_ground_landmarks (from C83), C98_no_parallax, C98_parallax (C85), C98_compass (C96), C98_straight (C79), C98_lens_or_zoom, C98_lens_not_zoom, C98_one_radius_refuted, C98_forgotten_refuted. The examples use the Brown lens of C87 at its sample radii 3/10 and 1/2. |
| C99 | `PropFieldOfView.v`. The specification: `framed` (the pixel is in the frame), `aside` and `over` (the angles of the point beside and above the optical axis, from its camera coordinates), `plumb` (its angle off straight down in the plane of the heading). C99_columns, C99_rows, C99_frame for pixels; C99_pyramid decides for every point of space, nan pixels included, C99_panorama for the other projections, C99_zoom compares two focal lengths; C99_tilted, C99_ground, C99_ground_ahead, C99_footprint, C99_horizon for cameras without roll; C99_level from C96; C99_off_centre_refuted, C99_bearing_refuted. |
| C45 | `Shape.v`, `PropShape.v`: parse_str and ensure_array_format on shapes, numpy broadcasting against an independent definition; refuted for `...` in the middle of a format. C45_errors: several arrays fail with the error of the first. |
| C46 | `Metropolis.v`, `PropMetropolis.v`: the sampler as a fold over the iterations, all random draws universally quantified. Number of samples, recorded probability (refuted with a prior trace), acceptance rule, support (refuted if the log probability attains +infinity), ranges for burn-in below 200 (refuted from 200 on). `C46_method`: the method of the camera. C46_tuning: when and by how much the step width is tuned. |
| C47 | `Fit.v`, `PropFitRun.v`: start search, minimiser and sampler as computations that ask for the log probability at positions; run on the parameter heap of C36-C41 they see a function of the position, and the state afterwards reads as if only the result had been set. Refuted: a start found by the 1000th draw. The optimiser is any such computation; its keyword arguments are not modelled. |
| C49 | `SensorDb.v`, `PropSensorDb.v`: `_getSensorFromDatabase` with the file in the working directory and the answer of the server as state (a page, or an interrupted call that leaves a part of it), text lines, `startswith`, `split`; `float()` is an arbitrary function of the text; `getCameraParametersFromExif` with tags that are pairs, other values or missing. Not modelled: encodings, PIL's reading of the file, the printed output. |
| C50 | `Lut.v`, `PropLut.v`: the pixel squares with the transposition and the reshapes, spaceFromImage with Z = 0, the areas, and the replacement of NaN. Compared with the shoelace area of the points where the lines of sight of the four corners meet the ground (a separate definition); a corner that meets it only behind the camera gives the undefined value, and one whose line of sight is exactly level gives the undefined value or infinity. C50_on_ground is the camera at height 0. Image sizes are ints. `PropLutArea.v` computes the values for rectilinear cameras (`descent`: metres down per metre of depth; the volume of the pyramid over a triangle of the ground computed twice): C50_value, C50_value_slice, C50_one_column, C50_nadir, C50_rows_fall, C50_counted (counting pixels with the table measures rectangles exactly); C50_roll_refuted. |
| C51 | `Border.v`, `PropBorder.v`: np.arange, the four sides of the border, both variants of the cone. The border is compared with a walk around the rectangle (position as a function of the length walked), the cone with the segments a plot of its rows draws. project_to_ground needs integer image sizes. C51_outline in `PropOutline.v`: the ground outline of a rectilinear camera is a convex quadrilateral with straight sides, area by `block_area` of C50. The docstring's space coordinates are refuted. |
| C52 | `Scene.v`, `PropScene.v`: the rows of addCube, addRect and addGrid; what a plot of rows with NaN gaps draws is defined separately, and compared with the edges of a cube, of a square and with grid lines. Scenes, their lists and arrays are a small heap: which scene a call changes, and which arrays are shared. What plotSceneViews and renderImage show is C70. C52_class_list: the list of the class itself is never written to. |
| C53 | `SetGps.v`, `PropSetGps.v`: on the parameter heap of C36-C41 with the string parser of C33-C35; refuted for an elevation given beside a sequence of two numbers. |
| C55 | `NdCamera.v`: commands on a heap of arrays that say which expression creates an array and which line writes to one; `PropBatch.v`. imageFromSpace, getRay, spaceFromImage keep every existing array, return a new one, and compute the functions of C14 (`..._value`). projection.imageFromCamera overwrites exactly the rows with |z| < 1e-10 of its argument and ray.getClosestPointFromLine normalises its argument (`..._refuted` give the concrete arrays). |
