{"id": "C01", "title": "Orientation is a rigid motion", "statement": "For every tilt, roll, heading and position of a SpatialOrientation (and of a SpatialOrientationYawPitchRoll), cameraFromSpace preserves distances, angles and handedness: the matrix it applies is orthonormal with determinant +1, is never singular (construction cannot raise LinAlgError), and the camera position is mapped to the camera origin.", "quantifier": "all real tilt/roll/heading (yaw/pitch/roll) angles, all positions, all points", "why_tests_cant": "A continuum of angles; only sampled by property tests, and an error in one sign is invisible for special angles.", "anchors": ["cameratransform/spatial.py:SpatialOrientation._initCameraMatrix", "cameratransform/spatial.py:SpatialOrientation.cameraFromSpace", "cameratransform/spatial.py:SpatialOrientationYawPitchRoll._initCameraMatrix"]}
{"id": "C02", "title": "Space and camera coordinates are mutually inverse", "statement": "spaceFromCamera(cameraFromSpace(P)) = P and cameraFromSpace(spaceFromCamera(Q)) = Q for every point; with direction=True the result is the difference of two translated results (the translation is not applied), so directions of rays are rotated only.", "quantifier": "all orientations, all points P, Q in 3D", "why_tests_cant": "Must hold for every orientation and every point.", "anchors": ["cameratransform/spatial.py:SpatialOrientation.cameraFromSpace", "cameratransform/spatial.py:SpatialOrientation.spaceFromCamera"]}
{"id": "C03", "title": "Angles mean what the documentation says", "statement": "The optical axis of the camera points, in space coordinates, in the direction (sin tilt sin heading, sin tilt cos heading, -cos tilt): heading 0 faces +y (north), heading 90 faces +x (east), tilt 0 faces straight down, 90 is horizontal, 180 up; roll leaves the optical axis unchanged and turns the image by roll degrees.", "quantifier": "all headings, tilts and rolls", "why_tests_cant": "Universally quantified over angles; a swapped sign passes on symmetric samples.", "anchors": ["cameratransform/spatial.py:SpatialOrientation", "docs/source/spatial.rst"]}
{"id": "C04", "title": "Heading is circular", "statement": "After construction and after every assignment, the stored heading is within [-360, 360]; a value outside is replaced by the value in [0, 360) congruent to it modulo 360, a value inside is stored untouched, and replacing a heading by a congruent one changes no transformation of the camera. The renormalisation terminates.", "quantifier": "all real headings, all points, any history of assignments", "why_tests_cant": "Unbounded domain and a recursive callback whose termination must hold for every input.", "anchors": ["cameratransform/spatial.py:SpatialOrientation._initCameraMatrix", "cameratransform/parameter_set.py:ParameterSet.__setattr__"]}
{"id": "C05", "title": "Yaw/pitch/roll is the same family of orientations", "statement": "A SpatialOrientationYawPitchRoll(yaw, pitch, roll) transforms every point exactly like a SpatialOrientation with heading=yaw, tilt=90+pitch, roll=-roll at the same position. (The class docstring states yaw = -heading; that version is false.)", "quantifier": "all yaw, pitch, roll, positions and points", "why_tests_cant": "Equality of two functions on a continuum.", "anchors": ["cameratransform/spatial.py:SpatialOrientationYawPitchRoll"]}
{"id": "C06", "title": "Rectilinear projection and rays are inverse, and exactly the points behind the camera are hidden", "statement": "For the RectilinearProjection: projecting the ray of a pixel (with any positive length) gives back that pixel; the ray of a projected visible point is a positive multiple of that point; imageFromCamera returns nan exactly for points with z > 0 (behind) or |z| < 1e-10, and with hide_backpoints=False only for |z| < 1e-10.", "quantifier": "all focal lengths different from 0, all centres, all pixels, all camera-space points", "why_tests_cant": "Round trip over continuous inputs, and an exact iff for the nan boundary.", "anchors": ["cameratransform/projection.py:RectilinearProjection.getRay", "cameratransform/projection.py:RectilinearProjection.imageFromCamera"]}
{"id": "C07", "title": "Cylindrical projection and rays are inverse", "statement": "For the CylindricalProjection: for every pixel less than 180 degrees from the centre column, imageFromCamera(getRay(pixel)) = pixel, and the ray of a projected point is a positive multiple of that point. True whenever the point's |z| >= 1e-10; false for points at 90 degrees to the side, which are returned as nan.", "quantifier": "all focal lengths, centres, pixels in the 360 degree range, all points off the vertical axis", "why_tests_cant": "The counterexamples form a measure-zero set that random testing never hits, the positive part is a continuum.", "anchors": ["cameratransform/projection.py:CylindricalProjection"]}
{"id": "C08", "title": "Equirectangular projection and rays are inverse", "statement": "For the EquirectangularProjection: for every pixel less than 180 degrees from the centre column and less than 90 degrees from the centre row, imageFromCamera(getRay(pixel)) = pixel, and the ray of a projected point is a positive multiple of that point. True whenever |z| >= 1e-10; false at 90 degrees to the side, where the pixel silently jumps to the far edge of the panorama.", "quantifier": "all focal lengths, centres, pixels in range, all points off the poles", "why_tests_cant": "Same: continuum plus a measure-zero failure set.", "anchors": ["cameratransform/projection.py:EquirectangularProjection"]}
{"id": "C09", "title": "Projection depends only on direction; normed rays have length one", "statement": "For all three projections, imageFromCamera(k*P) = imageFromCamera(P) for every k > 0 keeping |z| at least 1e-10; getRay(normed=True) is a positive multiple of getRay(normed=False) with Euclidean length exactly 1; the pixel at the image centre has the ray (0,0,-1).", "quantifier": "all points, scale factors, pixels, projections", "why_tests_cant": "Universal over a continuum.", "anchors": ["cameratransform/projection.py:RectilinearProjection", "cameratransform/projection.py:CylindricalProjection", "cameratransform/projection.py:EquirectangularProjection"]}
{"id": "C10", "title": "Field of view, focal length and image size conversions agree", "statement": "For each projection: focallengthFromFOV applied to getFieldOfView returns the focal length, getFieldOfView of a projection whose focal length came from focallengthFromFOV(v) returns v (0 < v < 180 for tangent-based axes), imageFromFOV(getFieldOfView) returns the image size; and for a centred camera the field of view equals the angle between the rays of the opposite image edges on the axis.", "quantifier": "all positive focal lengths and image sizes, all angles in range", "why_tests_cant": "Inverse functions over a continuum.", "anchors": ["cameratransform/projection.py:getFieldOfView", "cameratransform/projection.py:focallengthFromFOV", "cameratransform/projection.py:imageFromFOV"]}
{"id": "C11", "title": "Back-projection honours its constraint and projects to the same pixel", "statement": "spaceFromImage(p, X=x) (or Y, Z) returns either nan or a point whose X (Y, Z) coordinate is exactly the given value, lies on the ray of the pixel in front of the camera, and whose imageFromSpace is p again; with D=d the point is at distance exactly d from the camera. The result is nan exactly when the plane is hit behind the camera.", "quantifier": "all cameras without distortion, pixels, planes, distances", "why_tests_cant": "Continuum of cameras, pixels and planes.", "anchors": ["cameratransform/camera.py:Camera.spaceFromImage", "cameratransform/camera.py:Camera.imageFromSpace", "cameratransform/camera.py:Camera.getRay"]}
{"id": "C12", "title": "A visible world point is recovered from its pixel and one known coordinate", "statement": "For every space point P visible in the camera, spaceFromImage(imageFromSpace(P), Z=P.z) = P when P is not at camera height; likewise with X, Y and with D = distance of P.", "quantifier": "all cameras without distortion, all visible points", "why_tests_cant": "Continuum of cameras and points.", "anchors": ["cameratransform/camera.py:Camera.spaceFromImage", "cameratransform/camera.py:Camera.imageFromSpace"]}
{"id": "C13", "title": "Constraint precedence in spaceFromImage", "statement": "If several constraints are given exactly one is used: mesh before D before X before Y before Z; the default is Z=0; with no constraint at all (Z=None) the call raises instead of returning a point.", "quantifier": "all combinations of given/omitted constraints", "why_tests_cant": "Combinations are finite but the claim that ignored values have no effect ranges over all their values.", "anchors": ["cameratransform/camera.py:Camera.spaceFromImage"]}
{"id": "C14", "title": "Batches are processed row by row", "statement": "Transforming an N x k array gives, in row i, the result of transforming row i alone, for every N (including N = 1, 2 and 3) and every transformation (imageFromSpace, getRay, spaceFromImage, cameraFromSpace, getClosestPointFromLine, intersectionOfTwoLines, moveDistance, ...). (False: spaceFromImage with planes or distances for two or more leading axes, moveDistance of one point by several distances, two 3D GPS points at once, and R ray origins with a single direction. intersectionOfTwoLines answers the right points, but as a list instead of an array as soon as one pair is parallel.)", "quantifier": "all N, all rows, all transformations", "why_tests_cant": "Unbounded N; broadcasting accidents depend on particular sizes.", "anchors": ["cameratransform/camera.py:Camera.spaceFromImage", "cameratransform/projection.py", "cameratransform/spatial.py", "cameratransform/utils.py:ensure_array_format"]}
{"id": "C15", "title": "Object height is recovered", "statement": "If feet and head are the images of the points (x,y,Z) and (x,y,Z+h), getObjectHeight(feet, head, Z) = h whenever x and y differ from the camera's position; (false at the exact column where the viewing ray has a zero x or y component: the result is nan).", "quantifier": "all cameras, all positions, all heights", "why_tests_cant": "Continuum; the failing set has measure zero.", "anchors": ["cameratransform/camera.py:Camera.getObjectHeight"]}
{"id": "C16", "title": "Object length is recovered", "statement": "If front and back are the images of two visible points in the plane at height Z, getObjectLength(front, back, Z) is their Euclidean distance; it is symmetric and non-negative.", "quantifier": "all cameras, all pairs of visible points in the plane", "why_tests_cant": "Continuum.", "anchors": ["cameratransform/camera.py:Camera.getObjectLength"]}
{"id": "C17", "title": "Horizon", "statement": "distanceToHorizon is the chord length on the sphere of radius R_earth between the camera's foot point and the point of tangency: it is 0 at elevation 0, strictly increasing in the elevation and never exceeds the line-of-sight distance; getImageHorizon returns for every requested column the row of the image whose back-projection to that distance is closest to height 0 (first such row), or nan if there is none, and the same rows for a single column as for a list; for a rectilinear camera whose column goes neither past the nadir nor past the zenith this row is less than one row from the position whose line of sight goes below level by the angle with the sine elevation/distanceToHorizon, and the first or the last row when that position is above or below the picture (in closed form for a level camera: center_y + f_y sqrt(1 + u^2) sqrt(E (R + E) / ((R - E) (2 R + E))), u the column in focal lengths, E the elevation, R the radius); it is the row where the lines of sight touch the sphere (false: these dip nearly twice as much, and for a level camera 10 m above the earth with a focal length of 3500 pixels the row is more than two rows too high; the level camera whose computed row is the true one of a camera at the height E stands between 3.75 E and 4 E high).", "quantifier": "all elevations >= 0, all columns, all image heights", "why_tests_cant": "Continuum of elevations, unbounded image heights.", "anchors": ["cameratransform/camera.py:Camera.distanceToHorizon", "cameratransform/camera.py:Camera.getImageHorizon"]}
{"id": "C18", "title": "Lens distortion and undistortion are inverse", "statement": "For Brown and ABC lenses, imageFromDistorted(distortedFromImage(p)) = p for every pixel whose radius is a fixed point of the radius inverse; both directions move points only radially (in the coordinates scaled by the lens) ; NoDistortion returns points untouched; the centre of the image is a fixed point (false: it becomes nan in both directions).", "quantifier": "all lens coefficients, all pixels", "why_tests_cant": "Continuum; the centre pixel is a single point.", "anchors": ["cameratransform/lens_distortion.py:BrownLensDistortion", "cameratransform/lens_distortion.py:ABCDistortion", "cameratransform/lens_distortion.py:NoDistortion"]}
{"id": "C19", "title": "Distortion polynomials", "statement": "With all coefficients zero Brown and ABC lenses are the identity away from the centre; an ABC lens fixes every point on the circle of radius min(width,height)/2 whatever a, b, c; for non-negative Brown coefficients the radius map is strictly increasing and never moves a point inwards.", "quantifier": "all coefficients, all radii", "why_tests_cant": "Continuum of coefficients and radii.", "anchors": ["cameratransform/lens_distortion.py:BrownLensDistortion._convert_radius", "cameratransform/lens_distortion.py:ABCDistortion._convert_radius"]}
{"id": "C20", "title": "Numerical inversion of the radius map", "statement": "The inverse returned by invert_function reproduces every sampled radius exactly when the sampled radius map is strictly increasing; samples where the map decreases are dropped; if the remaining samples are not strictly increasing the inversion silently becomes the identity instead of raising.", "quantifier": "all radius maps and sample grids", "why_tests_cant": "Ranges over functions.", "anchors": ["cameratransform/lens_distortion.py:invert_function"]}
{"id": "C21", "title": "Ray/mesh intersection is sound, complete and nearest", "statement": "ray_intersect_triangle returns the point of the ray (parameter >= 0) lying in one of the (non-degenerate) triangles, boundary included, with the smallest ray parameter over all triangles; if no triangle is hit the result is nan (false: it is +-inf in every component in which the direction is non-zero); a triangle of zero area is never hit (false: it is 'hit' at the ray origin).", "quantifier": "all origins, directions, all finite non-empty meshes", "why_tests_cant": "Unbounded mesh sizes, continuous geometry, boundary cases of measure zero.", "anchors": ["cameratransform/ray.py:ray_intersect_triangle"]}
{"id": "C22", "title": "Closest point of two lines", "statement": "For non-parallel lines intersectionOfTwoLines returns the midpoint of the unique shortest connecting segment (the intersection point if they meet); for parallel lines it returns nan; a batch gives the per-row results even if some rows are parallel.", "quantifier": "all points and direction vectors, all batch sizes", "why_tests_cant": "Continuum; minimality quantifies over all pairs of points on the lines.", "anchors": ["cameratransform/ray.py:intersectionOfTwoLines"]}
{"id": "C23", "title": "Distance of two lines", "statement": "distanceOfTwoLines is the infimum of the distances of points of the two lines, for lines that are exactly parallel or whose directions have cross product longer than 1e-8, including zero direction vectors (a point); nearly parallel or very short direction vectors are treated as parallel.", "quantifier": "all points and direction vectors", "why_tests_cant": "Minimality over all pairs of points.", "anchors": ["cameratransform/ray.py:distanceOfTwoLines"]}
{"id": "C24", "title": "Foot of the perpendicular", "statement": "getClosestPointFromLine returns the point on the line with the smallest distance to the given point; the connection is perpendicular to the line. Side effect: the caller's direction array is overwritten by its normalised version. distanceLinePoint is the length of that connection (nan for a zero direction). (False: distanceLinePoint of several directions gives their distances; it gives one number between them. Of several points it gives the root of the sum of the squared distances.)", "quantifier": "all lines with non-zero direction and all points", "why_tests_cant": "Minimality over all points of the line.", "anchors": ["cameratransform/ray.py:getClosestPointFromLine", "cameratransform/ray.py:distanceLinePoint"]}
{"id": "C25", "title": "Areas", "statement": "areaOfTriangle equals half the length of the cross product of two edge vectors (is 0 exactly for collinear corners, invariant under permuting corners and rigid motion); areaOfQuadrilateral equals the shoelace area, i.e. the sum of the two triangles for a convex quadrilateral, and is invariant under cyclic renumbering and reversal.", "quantifier": "all triangles and quadrilaterals", "why_tests_cant": "Continuum.", "anchors": ["cameratransform/ray.py:areaOfTriangle", "cameratransform/ray.py:areaOfQuadrilateral"]}
{"id": "C26", "title": "Extruded wall mesh", "statement": "extrudeLine(points, z0, z1) returns two triangles per segment, all in the vertical wall over the segment, with total area equal to the wall's area; the mesh covers the wall (false: the two triangles overlap and leave the upper middle uncovered, so a ray through it misses).", "quantifier": "all polylines of any length, all z0, z1", "why_tests_cant": "Unbounded polylines; a gap between triangles is a set property.", "anchors": ["cameratransform/ray.py:extrudeLine"]}
{"id": "C27", "title": "Stereo triangulation recovers the point", "statement": "For a CameraGroup with two cameras and a space point P visible in both and not collinear with the two camera positions, spaceFromImages(imagesFromSpace(P)) = P and discanteBetweenRays = 0, also for many points in one call. (False below the absolute tolerance of distanceOfTwoLines: for rays that meet very far away discanteBetweenRays is the distance of a camera to the other ray.)", "quantifier": "all pairs of cameras without distortion, all points", "why_tests_cant": "Continuum of camera pairs.", "anchors": ["cameratransform/camera.py:CameraGroup.spaceFromImages", "cameratransform/camera.py:CameraGroup.imagesFromSpace", "cameratransform/camera.py:CameraGroup.discanteBetweenRays"]}
{"id": "C28", "title": "CameraGroup wiring", "statement": "A CameraGroup built from lists of projections, orientations and lenses has as many cameras as the last list given, camera i uses element i modulo length of each list; every parameter of every listed component is reachable through the group by name ('name' for single components, 'C<i>_name' for lists), and writing it through the group, the camera or the component is visible through the other two. (False after load(): the group's names then still denote the components which that camera no longer uses.)", "quantifier": "all list lengths, all names, all values", "why_tests_cant": "Unbounded lengths; aliasing property.", "anchors": ["cameratransform/camera.py:CameraGroup.__init__"]}
{"id": "C29", "title": "Rotating and scaling the world", "statement": "Camera.rotateSpace(d) makes the camera see the world rotated clockwise by d around the origin: the image of the rotated point equals the old image of the point. CameraGroup.scaleSpace(s), s > 0, makes every camera see s*P where it saw P (false when cameras share one orientation object: it is then scaled once per camera).", "quantifier": "all cameras, angles, scales, points, group sizes", "why_tests_cant": "Continuum plus aliasing.", "anchors": ["cameratransform/camera.py:Camera.rotateSpace", "cameratransform/camera.py:CameraGroup.scaleSpace"]}
{"id": "C30", "title": "GPS distance is the great-circle metric", "statement": "getDistance of two (lat, lon) points equals R times the angle between their unit vectors (R = 6371 km): always defined (arcsin argument within [0,1]), symmetric, >= 0, <= pi R, 0 exactly for the same place on the sphere, satisfies the triangle inequality; with heights on both points the height difference is added in quadrature; a height on only one point is ignored.", "quantifier": "all latitudes and longitudes", "why_tests_cant": "Continuum; domain error only at antipodal points.", "anchors": ["cameratransform/gps.py:getDistance"]}
{"id": "C31", "title": "Moving a distance in a direction", "statement": "For points without height, getDistance(start, moveDistance(start, d, b)) = d for 0 <= d <= pi R, and getBearing(start, moveDistance(start, d, b)) = b modulo 360 for 0 < d < pi R and start not a pole. With a height h the move is done on the sphere of radius R+h, so the distance measured back is d R/(R+h).", "quantifier": "all starts, distances and bearings", "why_tests_cant": "Continuum, spherical trigonometry.", "anchors": ["cameratransform/gps.py:moveDistance", "cameratransform/gps.py:getBearing"]}
{"id": "C32", "title": "GPS and space coordinates are inverse", "statement": "gps.spaceFromGPS(gps.gpsFromSpace(s, g0), g0) = s for positions closer than pi R around a 2D origin; heights pass through unchanged. False for Camera.spaceFromGPS(Camera.gpsFromSpace(s)) when the elevation is not 0 (radius mismatch), and for a batch of exactly two 3D points (heights are dropped).", "quantifier": "all origins, positions, batch sizes", "why_tests_cant": "Failure depends on batch size exactly 2.", "anchors": ["cameratransform/gps.py:spaceFromGPS", "cameratransform/gps.py:gpsFromSpace", "cameratransform/camera.py:Camera.gpsFromSpace", "cameratransform/camera.py:Camera.spaceFromGPS"]}
{"id": "C33", "title": "GPS strings round trip", "statement": "gpsFromString(formatGPS(lat, lon)) returns lat and lon up to half a unit of the last printed digit for the default format and the documented formats, for both the list of two strings and the joined string.", "quantifier": "all latitudes and longitudes", "why_tests_cant": "Every digit string; rounding carries and backtracking regular expressions.", "anchors": ["cameratransform/gps.py:formatGPS", "cameratransform/gps.py:gpsFromString", "cameratransform/gps.py:processDegree"]}
{"id": "C34", "title": "Formatted GPS strings are normalised", "statement": "formatGPS never prints 60 minutes or 60 seconds: the printed minutes and seconds are below 60 and the printed value differs from the input by at most half a unit of the last digit. (True for formats whose numbers before the last one are %d; false if a leading number is rounded, e.g. '%.0f': the minutes are counted twice.)", "quantifier": "all coordinates, all number formats", "why_tests_cant": "Rounding boundary cases of measure zero.", "anchors": ["cameratransform/gps.py:formatGPS"]}
{"id": "C35", "title": "Sign handling of GPS strings", "statement": "The hemisphere letter is S/W exactly for negative input; a format without letter keeps the sign (false for '%d' degrees when the value is between -1 and 0: the sign is lost); parsing gives a negative value for S, W or a leading minus, positive otherwise. Formats with no placeholder or more than three numbers raise ValueError.", "quantifier": "all coordinates and formats", "why_tests_cant": "Universal over values and format strings.", "anchors": ["cameratransform/gps.py:formatGPS", "cameratransform/gps.py:processDegree"]}
{"id": "C36", "title": "Parameters: read your writes, nothing else changes", "statement": "Assigning a parameter through a camera, its projection, orientation or lens and reading it back through any of them returns the assigned value (None falls back to the default; an out-of-range heading to its normalised value), and every other parameter keeps its value except focallength_x_px/focallength_y_px, which follow focallength_px. (False for a projection built from view_x_deg/view_y_deg: its own image_width_px/image_height_px attributes stay frozen.)", "quantifier": "all histories of assignments, all parameters", "why_tests_cant": "Quantifies over arbitrary histories and aliasing.", "anchors": ["cameratransform/parameter_set.py:ParameterSet", "cameratransform/parameter_set.py:ClassWithParameterSet", "cameratransform/projection.py:CameraProjection.__init__", "cameratransform/camera.py:Camera.__init__"]}
{"id": "C37", "title": "Transformations always use the current parameters", "statement": "After any history of assignments, defaults changes, fits, samples and loads on a camera, the orientation matrices, position and lens scale/offset/coefficients in use are those of the current parameter values (false if one projection is shared by two lenses, or one lens by cameras with different projections).", "quantifier": "all histories of operations", "why_tests_cant": "Invariant over unbounded histories with aliased callbacks.", "anchors": ["cameratransform/parameter_set.py", "cameratransform/spatial.py:SpatialOrientation.__init__", "cameratransform/lens_distortion.py:BrownLensDistortion.setProjection", "cameratransform/lens_distortion.py:ABCDistortion.setProjection"]}
{"id": "C38", "title": "Default values", "statement": "A parameter without value reads its default; changing defaults.x changes what is read exactly for parameters that have no value, and never overrides a user value; a parameter can not be created without value and default. (False in two cases: after focallength_px was set to None, changing the default of focallength_px overwrites an assigned focallength_x_px; a default heading outside [-360,360] becomes a user value and shadows later defaults.)", "quantifier": "all histories", "why_tests_cant": "Arbitrary histories.", "anchors": ["cameratransform/parameter_set.py:DefaultAccess", "cameratransform/parameter_set.py:Parameter.__init__"]}
{"id": "C39", "title": "Uncertain parameters", "statement": "Assigning (mean, std) makes the parameter read mean; sample() changes only parameters with a (mean, std), keeps mean and std, and set_to_mean() restores exactly the means. False in two cases: focallength_x_px/focallength_y_px are overwritten by the (possibly outdated) focallength_px, and a sampled or fitted heading outside [-360,360] loses its mean and std.", "quantifier": "all random draws, all histories, all callback orders", "why_tests_cant": "Depends on random draws and set iteration order.", "anchors": ["cameratransform/parameter_set.py:ClassWithParameterSet.sample", "cameratransform/parameter_set.py:ClassWithParameterSet.set_to_mean", "cameratransform/projection.py:CameraProjection.__init__"]}
{"id": "C40", "title": "Fit parameter bookkeeping", "statement": "get_fit_parameters returns exactly the parameters (of the requested types: intrinsic, extrinsic 1 and 2, distortion, gps) which the user has not set (or set to None), in order; set_fit_parameters writes exactly the given known names, marks them as fitted, ignores unknown names, and runs each affected callback once, in an order that does not influence the result. (False in two cases: a fitted heading outside [-360,360] becomes a user value and is no longer a fit parameter; with one projection shared by two lenses the order of the callbacks matters.)", "quantifier": "all parameter sets, names, values, orders", "why_tests_cant": "Set iteration order is unspecified.", "anchors": ["cameratransform/parameter_set.py:ParameterSet.get_fit_parameters", "cameratransform/parameter_set.py:ParameterSet.set_fit_parameters"]}
{"id": "C41", "title": "Saving and loading a camera", "statement": "load_camera(f) after cam.save(f) gives a camera of the same projection and lens type, with the same value for every saved parameter and hence the same transformations; (false: focallength_px reads 100 afterwards, a later sample()/set_to_mean() then resets both focal lengths to 100, and a yaw-pitch-roll orientation is lost).", "quantifier": "all cameras, all parameter values, all histories before saving", "why_tests_cant": "Every camera; failure shows only in a later operation.", "anchors": ["cameratransform/camera.py:Camera.save", "cameratransform/camera.py:Camera.load", "cameratransform/camera.py:load_camera"]}
{"id": "C42", "title": "Cached maps", "statement": "getTopViewOfImage/undistortImage use the same map a fresh computation would give whenever camera parameters, Z, hide_backpoints, extent and scaling are unchanged since the cached computation; (false as soon as only a camera parameter, Z or hide_backpoints is changed: the outdated map is reused; also after load). A tuple as extent of undistortImage gives the picture of a list; an array works once, after which every call of undistortImage on that camera raises for ever, whatever extent is given (false).", "quantifier": "all histories of calls and parameter changes", "why_tests_cant": "Staleness depends on the history of calls.", "anchors": ["cameratransform/camera.py:Camera._getMap", "cameratransform/camera.py:Camera._getUndistortMap"]}
{"id": "C43", "title": "Rendered images", "statement": "undistortImage with NoDistortion, default extent and scaling returns the image unchanged (plus an opaque alpha channel for RGB input); with an integer crop extent it returns exactly the crop; an image of the wrong size is rejected unless skip_size_check; getTopViewOfImage has its first row at the largest y. Both show, at every pixel, the pixel of the image nearest to where the camera sees that position, and the single precision of the map changes this at most within 1/256 pixel of the middle between two pixels (exactly there it may: false). (False: a lens with all coefficients 0 blanks the centre of the image; the guessed extent of the top view may show nothing of what the camera sees.)", "quantifier": "all images and sizes", "why_tests_cant": "Unbounded image sizes, two flips that must cancel.", "anchors": ["cameratransform/camera.py:Camera.undistortImage", "cameratransform/camera.py:Camera.getTopViewOfImage"]}
{"id": "C44", "title": "Projection constructor", "statement": "Every way of specifying image size, centre, focal length (px, mm+sensor, field of view) either raises ValueError or yields a projection with exactly the specified values and the documented derived ones (centre defaults to the middle of the image); contradictory specifications raise (false in listed cases, e.g. view_x_deg with focallength_y_px silently ignores the latter; a tuple focallength_px is stored as a tuple instead of being split).", "quantifier": "all combinations and values of constructor arguments", "why_tests_cant": "2^15 combinations with arbitrary values.", "anchors": ["cameratransform/projection.py:CameraProjection.__init__"]}
{"id": "C45", "title": "Shape validation", "statement": "ensure_array_format returns its argument unchanged exactly if its shape matches the pattern ('...' matching any leading dimensions, equal letters equal sizes, numbers themselves), and raises otherwise; with several arrays all must have the same shape. (False for '...' in the middle of a pattern, which switches the checks before it off.)", "quantifier": "all shapes of any rank and all patterns", "why_tests_cant": "Unbounded ranks.", "anchors": ["cameratransform/utils.py:ensure_array_format", "cameratransform/utils.py:string_to_shape"]}
{"id": "C46", "title": "Metropolis sampling", "statement": "metropolis returns max(0, iterations - burn - 1) samples; every sample is a position at which the log probability was evaluated with that value; a sampler started at a finite log probability never returns a sample of zero probability; all samples stay in the given ranges (false: the adaptive scale factor can push positions outside).", "quantifier": "all log probability functions, starts, random draws, iteration counts", "why_tests_cant": "All random draws and unbounded iteration counts.", "anchors": ["cameratransform/statistic.py:metropolis"]}
{"id": "C47", "title": "Fitting", "statement": "fit(parameters) evaluates the probability only at positions for the named parameters, raises if no start of finite probability is found, and leaves the camera at the minimiser's result with every other parameter unchanged; (false: if the 1000th random restart succeeds the call still raises).", "quantifier": "all log probabilities, optimisers and random draws", "why_tests_cant": "Depends on oracles and draws.", "anchors": ["cameratransform/parameter_set.py:ClassWithParameterSet.fit"]}
{"id": "C48", "title": "Log probability", "statement": "getLogProbability is the sum of all registered terms evaluated at the current parameters, -inf if that is nan; registering with only_plot adds no term; clearLogProbability empties it; a CameraGroup adds the terms of its cameras.", "quantifier": "all lists of terms", "why_tests_cant": "Unbounded lists.", "anchors": ["cameratransform/parameter_set.py:ClassWithParameterSet.getLogProbability", "cameratransform/camera.py:CameraGroup.getLogProbability"]}
{"id": "C49", "title": "Sensor database lookup", "statement": "_getSensorFromDatabase returns the sizes of the first matching line of the database or None, whatever the line endings of the file; the database is downloaded at most once; (false under a failed download: an empty file remains and every later lookup returns None); getCameraParametersFromExif(sensor_from_database=False) uses the exif resolution (false: it always raises).", "quantifier": "all database contents, crash points of the download, histories of calls", "why_tests_cant": "Crash in the middle of a download.", "anchors": ["cameratransform/camera.py:_getSensorFromDatabase", "cameratransform/camera.py:getCameraParametersFromExif"]}
{"id": "C50", "title": "Pixel area look-up table", "statement": "generateLUT()[y] is the ground area covered by pixel y of the middle column (shoelace area of the back-projected pixel square), undef_value if a corner meets the ground only behind the camera, and undef_value or infinity, never a number, if the line of sight of a corner is exactly level; for a camera at height 0 every area is 0 and undef_value if the line of sight of a corner is level; whole_image=True gives height x width such areas. For a rectilinear camera above the ground the entry is H^2/(f_x f_y) (1/(d1 d2 d3) + 1/(d1 d3 d4))/2 with the descents d of its four corners per metre of depth. Without roll it depends only on the row: every column of the whole table is the slice, lower rows have smaller areas, looking straight down every pixel has H/f_x times H/f_y, and the entries of some rows times a number of columns are exactly the area that this rectangle of the picture has on the ground. False with roll: the slice has the undefined value where other columns of the row see the ground.", "quantifier": "all cameras, image sizes", "why_tests_cant": "Unbounded image sizes.", "anchors": ["cameratransform/camera.py:Camera.generateLUT"]}
{"id": "C51", "title": "Image border and camera cone", "statement": "getImageBorder(resolution) lists only points on the border rectangle, in order around it, without duplicates, neighbours at most resolution apart; getCameraCone consists of the back-projected border and, per corner, a segment from the camera position; when a rectilinear camera pictures only ground the outline on the ground is a convex quadrilateral with straight sides on which the points follow each other in order, and its area is the one of the picture computed from the heights and angles; (the docstring's claim that the border is in space coordinates is false).", "quantifier": "all image sizes and resolutions", "why_tests_cant": "Unbounded sizes.", "anchors": ["cameratransform/camera.py:Camera.getImageBorder", "cameratransform/camera.py:Camera.getCameraCone"]}
{"id": "C52", "title": "Scene primitives", "statement": "addCube draws exactly the 12 edges of the axis-parallel cube, addRect the 4 edges of the rectangle, addGrid one line per x and per y value spanning the value range; each call appends exactly one object.", "quantifier": "all positions, widths, value lists", "why_tests_cant": "Unbounded lists.", "anchors": ["cameratransform/scene.py:Scene.addCube", "cameratransform/scene.py:Scene.addRect", "cameratransform/scene.py:Scene.addGrid"]}
{"id": "C53", "title": "Setting the GPS position", "statement": "setGPSpos(lat, lon, elevation), setGPSpos([lat, lon, elevation]) and the string form set gps_lat, gps_lon and, only if given, the elevation; (false: an explicit elevation is ignored when lat is a two-element sequence).", "quantifier": "all argument forms and values", "why_tests_cant": "Exception-driven dispatch over argument types.", "anchors": ["cameratransform/camera.py:Camera.setGPSpos"]}
{"id": "C54", "title": "Point correspondence error", "statement": "pointCorrespondenceError is 0 in both images for corresponding points that are images of one space point, for two rectilinear cameras in general position: a corresponding point lies on its epipolar line.", "quantifier": "all camera pairs, all points", "why_tests_cant": "Continuum.", "anchors": ["cameratransform/camera.py:CameraGroup.pointCorrespondenceError"]}
{"id": "C55", "title": "Calls do not modify their arguments", "statement": "Camera.imageFromSpace, getRay and spaceFromImage leave the caller's arrays unchanged; (false for projection.imageFromCamera: rows with |z| < 1e-10 of the caller's array are overwritten by zeros, and for ray.getClosestPointFromLine).", "quantifier": "all arrays", "why_tests_cant": "Aliasing; only visible for special rows.", "anchors": ["cameratransform/projection.py:RectilinearProjection.imageFromCamera", "cameratransform/ray.py:getClosestPointFromLine"]}
{"id": "C56", "title": "No ordinary operation raises", "statement": "In every history of constructions, assignments, default changes, fits, samples, set_to_mean calls, saves and loads that never stores None as a value, a default or a fit result, no call raises: every callback finds all the parameters it reads. (False as soon as None is assigned to a parameter without default: the callback then raises.)", "quantifier": "all histories of operations on all cameras and groups", "why_tests_cant": "Unbounded histories; the callbacks read other parameters than the one assigned.", "anchors": ["cameratransform/parameter_set.py:ParameterSet", "cameratransform/spatial.py:SpatialOrientation", "cameratransform/lens_distortion.py:BrownLensDistortion"]}
{"id": "C57", "title": "Image size attributes of a projection", "statement": "Assigning image_width_px or image_height_px of a projection changes the size its methods (getFieldOfView, focallengthFromFOV, save) use; (false for a projection constructed from view_x_deg or view_y_deg: the constructor leaves plain attributes that hide the parameters, so the methods keep the old size while a camera built from the projection sees the new one). What a projection built from a view sees stays the size of its construction through every later history of constructions, assignments, defaults, fits, samples and loads; one built without a view never hides a parameter.", "quantifier": "all constructor arguments, all sizes, all later histories", "why_tests_cant": "Attribute lookup order; the constructor and the later assignment are separate calls.", "anchors": ["cameratransform/projection.py:CameraProjection.__init__", "cameratransform/parameter_set.py:ClassWithParameterSet.__setattr__"]}
{"id": "C58", "title": "Fit terms reward cameras that explain the observations", "statement": "Each add...Information call adds a term to the log probability of a camera (object heights and lengths, landmarks, horizon, distance and pixel correspondences of two cameras). The term of exact observations is largest for the camera that made them: no other camera gets a larger value, and the largest value is reached exactly by the cameras that reproduce every observation. Heights, lengths and the horizon that the camera computes: always; the horizon of the sphere that a picture shows: false, the camera 10 m above the earth that took the picture gets less than one at 40 m. Landmarks: if the uncertainty is the same in all directions; with different uncertainties per axis the samples along the ray favour rays along the axis of largest uncertainty and a camera that shows the landmark at another pixel can win (false). The uncertainties of landmarks and of the horizon may be a number, one row or one row for each observation, with the same meaning as written out, and so may the expected heights and lengths; other lengths raise. Pixels and positions of landmarks are paired in their order and other numbers of them raise, except that one pixel counts for all positions and one position for all pixels, so a forgotten pixel goes unnoticed by the fit (the plot raises) and a wrong camera wins (false). The same holds for feet and heads, for fronts and backs, and for the corresponding pixels of two cameras; these may have an uncertainty each, and the true cameras still win. An array of variations, which the documentation allows, always raises when the term is evaluated (false). The samples of all landmarks reach as far as the largest uncertainty of any of them: for equal uncertainties per axis that adds the same to every camera, otherwise one less certain landmark can make a wrong camera win (false). Correspondences: if the samples of the rays are in front of the other camera; otherwise the true pair of cameras gets nan, which counts as impossible (false). The distance of two cameras ignores their elevations (false for cameras at different heights).", "quantifier": "all cameras, all lists of observations, all positive uncertainties", "why_tests_cant": "The claim compares the true camera with every other camera; a test fits one example and checks that the optimum is near.", "anchors": ["cameratransform/camera.py:addObjectHeightInformation", "cameratransform/camera.py:addObjectLengthInformation", "cameratransform/camera.py:addLandmarkInformation", "cameratransform/camera.py:addHorizonInformation", "cameratransform/camera.py:addBaselineInformation", "cameratransform/camera.py:addPointCorrespondenceInformation"]}
{"id": "C59", "title": "Pixels and gps positions", "statement": "A visible point with one known coordinate (its height, or its position east or north) is given by gpsFromImage as the gps position reached from the camera's gps origin by walking as far east and north as the point's space coordinates, on the sphere through the camera, at the height of the point. imageFromGPS of that position is the pixel again if the camera's elevation is 0; otherwise it is the pixel of the point moved horizontally towards the origin by the fraction e/(R+e) of its distance (two conversions with different radii), which is another pixel (false for elevated cameras, more than two pixels for one at 10 km). An array of gps points with heights is shown point by point, except that two points lose their heights (false). The uncertainties of gps landmarks may be given as a number, one row or one row for each, and different numbers of pixels and positions raise unless one of them is one. The landmark term given by gps positions of exact observations with the same uncertainty in all directions is not larger for any other camera or origin, unless there are exactly two landmarks, whose heights are lost: then a camera that shows neither landmark at its pixel can win (false).", "quantifier": "all cameras, all gps origins away from the poles, all visible points, all arrays of gps positions, all lists of landmarks", "why_tests_cant": "A test converts a few points of one camera with a tolerance that hides the change of radius, and never an array of exactly two points with heights.", "anchors": ["cameratransform/camera.py:gpsFromImage", "cameratransform/camera.py:imageFromGPS", "cameratransform/camera.py:gpsFromSpace", "cameratransform/camera.py:spaceFromGPS", "cameratransform/camera.py:addLandmarkInformationGPS", "cameratransform/gps.py:spaceFromGPS"]}
{"id": "C60", "title": "Relative pose from point correspondences", "statement": "setCameraParametersByPointCorrespondence sets the first camera of a pair to look straight down at its position and places the second one so that the pair has the relative pose found by OpenCV. The distance of the two cameras is the baseline. The relative pose is wrong (false): the view axis of the second camera is the true one mirrored at the plane x = 0 of the first camera, the pose is the one found by OpenCV only if its rotation does not tilt the x axis out of the image plane and carries the mirrored translation to its negative, and then the x axes of the two cameras are opposite. For two cameras side by side with the same orientation the second camera is turned by half a turn and no point of space is seen at corresponding pixels.", "quantifier": "all positions, all rotations and translations returned by OpenCV with a turned axis, all baselines; plus the untilted pair", "why_tests_cant": "The function has no test; the claim relates a rotation extracted from a matrix to all points of space.", "anchors": ["cameratransform/camera.py:setCameraParametersByPointCorrespondence", "cameratransform/camera.py:rotationToEuler"]}
{"id": "C61", "title": "Sampling with bayesianfridge explores the parameters", "statement": "camera.fridge(parameters) hands the sampler the log probability of the camera with the values the sampler proposes, records for every sample the log probability of the camera with that sample and leaves the camera at the most probable sample. It raises ValueError and leaves the camera alone if there are no samples. Exceptions that hold in the code: the sampler always gets the log probability of the camera as it was before, so its samples are those for a constant log probability; with additional parameters the recorded probability belongs to the values the sampler used last. A FitParameter takes its prior from the distribution, else from lower and upper, else from mean and std, and raises ValueError otherwise; a uniform prior gives the bounds, a normal one gives none and does not influence a fit; a parameter given by its distribution makes fit raise before anything is changed.", "quantifier": "for all reachable cameras, parameter lists, terms of the log probability, samplers (any computation that asks for log probabilities) and FitParameter arguments", "why_tests_cant": "the sampler is an external package with random decisions; tests see single runs and cannot tell a flat log probability from a badly sampled one", "anchors": ["cameratransform/parameter_set.py:ClassWithParameterSet.fridge", "cameratransform/parameter_set.py:ClassWithParameterSet.set_to_mean", "cameratransform/statistic.py:FitParameter", "cameratransform/statistic.py:Model"]}
{"id": "C62", "title": "Epipolar lines", "statement": "plotEpilines draws of each line a*x + b*y + c = 0 the part inside the image: it joins exactly the points where the line crosses a side between its corners, and for a line through the inside and through no corner these are two different points whose segment is what line and image have in common. It raises exactly if some line crosses no side; so it raises for a line through the inside that meets the border in corners only (the claim that every line meeting the image is drawn is false). plotMyEpiploarLines draws for a pixel of one camera pixels of the other (rectilinear) camera that are on one straight line through the epipole, the image of the first camera's position; the cross plotEpilines draws is at this epipole if the other camera is in front and is not drawn (nan) otherwise; the number it prints is the distance of the corresponding pixel from that line and is zero for the two pixels of one point.", "quantifier": "all lines and image sizes; all pairs of cameras, pixels and space points in general position", "why_tests_cant": "plotting functions are not tested; clipping is a claim about all lines and the epipolar constraint one about all pairs of poses", "anchors": ["cameratransform/camera.py:CameraGroup.plotEpilines", "cameratransform/camera.py:CameraGroup.plotMyEpiploarLines", "cameratransform/camera.py:Camera.getPos"]}
{"id": "C63", "title": "Unknown quantities of the fit terms are sampled and fitted", "statement": "A term of the log probability may have a parameter of its own (for example an unknown variation of object heights). metropolis samples these additional parameters together with the given ones: with one given parameter and any number of additional ones it walks through all of them from the first start that is not impossible, always with the step of the given parameter, records every position with its log probability and leaves the camera at the most probable one; without additional parameters it is the sampling of C46. Exceptions that hold in the code: with two or more parameters and an additional one it always raises ValueError; the additional parameters are left at the last proposal, so the log probability after sampling need not be that of the most probable sample; fit never changes the additional parameters; the mean and standard deviation of normal priors do not influence sampling; a parameter with a distribution of its own makes it raise before anything is changed.", "quantifier": "for all reachable cameras, parameter lists, values of the additional parameters, terms, steps, numbers of iterations and random draws", "why_tests_cant": "the sampler is random and its state is spread over the camera and the parameter objects; no test uses additional parameters", "anchors": ["cameratransform/parameter_set.py:ClassWithParameterSet.metropolis", "cameratransform/parameter_set.py:ClassWithParameterSet.fit", "cameratransform/parameter_set.py:ClassWithParameterSet.addCustomoLogProbability", "cameratransform/statistic.py:metropolis", "cameratransform/camera.py:Camera.addObjectHeightInformation"]}
{"id": "C64", "title": "What plotFitInformation draws agrees with what is fitted", "statement": "The head (back) drawn for an observed foot (front) is the pixel of an object of exactly the given height (length): measured with getObjectHeight (getObjectLength) between the observed and the drawn pixel it has that value, and it is drawn on the observed head (back) exactly if the object has the given value. A landmark with equal uncertainties is drawn on the observed pixel exactly if its term of the fit has its largest value. The lines join every observation with its own prediction and nothing else. (The last fails for points given as a grid; for an object with front and back on the same spot nothing is drawn.)", "quantifier": "all cameras without lens distortion, all projections, all points that can be shown, all heights and lengths, all lists of points", "why_tests_cant": "The plots are only looked at; that the drawn pixel coincides with the observed one exactly when the model fits is a statement about all cameras and objects.", "anchors": ["cameratransform/camera.py:Camera.addObjectHeightInformation", "cameratransform/camera.py:Camera.addObjectLengthInformation", "cameratransform/camera.py:Camera.addLandmarkInformation", "cameratransform/parameter_set.py:ParameterSet.plotFitInformation"]}
{"id": "C65", "title": "Rounding errors of the transformations are bounded", "statement": "In rounded arithmetic with relative error u per operation the rectilinear transformations stay near their exact values: every entry of the rotation matrix within 1000 u; the pixel of a point within u times an explicit bound that grows only with the obliqueness of the view (in double precision a hundred-thousandth of a pixel for every point not extremely close to the plane of the camera); points before and behind the camera are shown and hidden as without rounding; a pixel is recovered from its ray within 5 u of its distance to the image centre; and the ground point of a pixel is within u times an explicit bound that grows towards the horizon, pixels of the sky having none. (Closer to the horizon than about u the decision may be wrong.)", "quantifier": "all roundings with relative error at most u <= 10^-6 (IEEE double precision is shown to be one), all rectilinear cameras without lens distortion, all points and pixels away from the camera plane and the horizon", "why_tests_cant": "Tests compare a few results with tolerances; no number of them bounds the rounding error for all cameras and points.", "anchors": ["cameratransform/spatial.py:SpatialOrientation._initCameraMatrix", "cameratransform/spatial.py:SpatialOrientation.cameraFromSpace", "cameratransform/projection.py:RectilinearProjection.imageFromCamera", "cameratransform/projection.py:RectilinearProjection.getRay", "cameratransform/camera.py:Camera.imageFromSpace", "cameratransform/camera.py:Camera.spaceFromImage"]}
{"id": "C66", "title": "The Metropolis chain balances the probability it is given", "statement": "The samples of metropolis are one Markov chain (after the burn-in the scale factor does not change), and without ranges this chain satisfies detailed balance for the density exp(getLogProb): the density of being at X and going to Y equals that of being at Y and going to X. With ranges the truncated proposals are not symmetric: the chain then balances the density times the room that a proposal has in the ranges, so that samples near a border of a range come too rarely; and with a tuned scale factor there are positions that are left and not reached again, so that the chain balances no positive density.", "quantifier": "all functions getLogProb (also with value -inf), positions, steps, scale factors, ranges", "why_tests_cant": "The distribution of the samples is a limit statement; a test with some thousand samples cannot tell a biased sampler from an unbiased one near the borders.", "anchors": ["cameratransform/statistic.py:metropolis"]}
{"id": "C67", "title": "Cameras sampled from a trace", "statement": "After metropolis(), however often sample() and set_to_mean() have been called in between, sample() sets the camera to one sample of the trace, so that every attribute and transformation reads as if this sample alone had been set, and returns the log probability of the camera as it then is; set_to_mean() brings back the most probable camera. For any trace the named parameters take the values of the row with the drawn label and no other parameter changes, also not an uncertain one; the call works exactly if the drawn number is the label of one row (a trace cut with trace[100:] fails).", "quantifier": "all cameras reachable by the operations of the parameter model, all log probabilities that read the camera, all traces, all sequences of sample() and set_to_mean(), all random numbers", "why_tests_cant": "The returned probability has to belong to the state reached from any earlier state; tests call sample() once on a fresh object, if at all.", "anchors": ["cameratransform/parameter_set.py:ClassWithParameterSet.sample", "cameratransform/parameter_set.py:ClassWithParameterSet.set_to_mean", "cameratransform/parameter_set.py:ClassWithParameterSet.set_trace", "cameratransform/parameter_set.py:ClassWithParameterSet.metropolis"]}
{"id": "C68", "title": "What the summary and the plot of a trace show", "statement": "printTraceSummary prints a line for every column but the last, in order; the printed standard deviation has two digits and is within 5 % of the true one, the printed mean is within half a standard deviation of the true mean, which lies strictly inside the printed interval. A column whose samples are all equal raises, and only such a column. plotTrace draws for each of the first N columns a red line at the value of one and the same most probable sample and a black line at the mean.", "quantifier": "all traces with finite values, all numbers of rows and columns, all N", "why_tests_cant": "Whether the digits are chosen rightly depends on the magnitude of the standard deviation; a test covers a few magnitudes, and not the constant columns that raise.", "anchors": ["cameratransform/statistic.py:print_mean_std", "cameratransform/statistic.py:printTraceSummary", "cameratransform/statistic.py:plotTrace"]}
{"id": "C69", "title": "Positions given as texts, numbers, lists and with heights", "statement": "gpsFromString turns every documented form of a position (one text, two texts or numbers, each with or without a height) into its numbers, a list of positions into one row per position if all or none have a height (and raises otherwise), and keeps tables of numbers of any shape. Places written with formatGPS in the usual formats and read back as a list give the same places within half a unit of the last digit, with their heights.", "quantifier": "all texts, all nested lists, all numbers of positions, all heights", "why_tests_cant": "The function is recursive over nested lists whose two-element lists have two readings; tests cover the four forms of the docstring.", "anchors": ["cameratransform/gps.py:gpsFromString", "cameratransform/gps.py:formatGPS"]}
{"id": "C70", "title": "The pictures of a scene", "statement": "The image view of a scene shows a pixel exactly if the camera (rectilinear, without lens distortion) sees there a point of one of the objects' lines whose two ends are in front of the camera; for a cube or a square in front of the camera these are the pixels of its edges and no others. The three plans show exactly the orthogonal projections of the camera's cone and of the objects. renderImage gives the same picture, exactly when the image sizes are non-negative ints.", "quantifier": "all cameras, all objects (lists of rows with gaps), all pixels", "why_tests_cant": "A picture has infinitely many pixels; tests (there are none) could only compare single images.", "anchors": ["cameratransform/scene.py:Scene.plotSceneViews", "cameratransform/scene.py:Scene.renderImage", "cameratransform/scene.py:Scene.addCube"]}
{"id": "C71", "title": "A calibration is applied as OpenCV means it", "statement": "After the results of cv2.calibrateCamera (without tangential distortion) are applied to the camera of the calibration window, the camera computes with exactly these numbers, shows every point in front of it (off the optical axis) where cv2.projectPoints does, and undistortImage takes each pixel from where cv2.undistort takes it. The pattern points stand in the order of the detected corners.", "quantifier": "all histories of the camera, all calibration results, all points, all image sizes and pixels", "why_tests_cant": "Agreement of two camera models is a statement about all points and all coefficients; the window has no tests.", "anchors": ["cameratransform/gui_tools/calibrate/gui_calibrate.py:Window.fitCalibration", "cameratransform/gui_tools/calibrate/gui_calibrate.py:Window.newCalibration", "cameratransform/gui_tools/calibrate/gui_calibrate.py:getPatternPoints", "cameratransform/lens_distortion.py:BrownLensDistortion", "cameratransform/camera.py:Camera.undistortImage"]}
{"id": "C72", "title": "The calibration window fits and shows what belongs together", "statement": "Whatever the user does and however the threads interleave: only images with corners are ever used; the fit gets, for each used image, the corners found in that very image (if no two listed files share a stored corner file); when the processing started by \"Process\" has come to rest, every listed image is done or failed; a corrected picture is the one of the current calibration and has its width and height, and a selected picture has been loaded and corrected when all loading has ended unless its size is wrong, if calibrations arrive only while no picture is loading; without loaded calibrations the fit's image size is that of the first listed image; and exactly the parameters whose box is not ticked are left alone.", "quantifier": "all sequences of user actions and thread steps, all stored corner files, all pictures", "why_tests_cant": "The window starts threads that change the shared images; its outcome depends on their interleaving, which no test of the window (there is none) can enumerate.", "anchors": ["cameratransform/gui_tools/calibrate/gui_calibrate.py:Window.fitCalibration", "cameratransform/gui_tools/calibrate/gui_calibrate.py:Window.processNextImage", "cameratransform/gui_tools/calibrate/gui_calibrate.py:Window.newCalibration", "cameratransform/gui_tools/calibrate/gui_calibrate.py:Window.loadBatch", "cameratransform/gui_tools/calibrate/gui_calibrate.py:MyImage", "cameratransform/gui_tools/calibrate/calibrate.py:processImage"]}
{"id": "C73", "title": "The picture view keeps under the cursor what is there", "statement": "In the view of the calibration window, after any history of its actions: zooming stretches the picture about the cursor; while dragging (also with the wheel turned) the grabbed point stays under the cursor; after fitInView the whole picture is visible, in the middle and as large as possible, and stays so for new pictures, resized windows and quarter turns until the next zoom or drag; centerOn puts the point in the middle; GetExtend tells the visible part up to half a pixel; fitSmallDimensionInView fills one direction exactly and keeps the middle in the other; mapToOrigin and mapFromOrigin agree with what is shown; and drawing the widget again changes nothing, nor does resizing it after a zoom or drag.", "quantifier": "all histories of view actions, all window and picture sizes, all points", "why_tests_cant": "The nested transforms accumulate over the history of zooms, drags and resizes; the view has no tests and no run of a GUI covers all histories.", "anchors": ["cameratransform/gui_tools/calibrate/QExtendedGraphicsView.py:QExtendedGraphicsView.scaleOrigin", "cameratransform/gui_tools/calibrate/QExtendedGraphicsView.py:QExtendedGraphicsView.fitInView", "cameratransform/gui_tools/calibrate/QExtendedGraphicsView.py:QExtendedGraphicsView.centerOn", "cameratransform/gui_tools/calibrate/QExtendedGraphicsView.py:QExtendedGraphicsView.GetExtend", "cameratransform/gui_tools/calibrate/QExtendedGraphicsView.py:QExtendedGraphicsView.fitSmallDimensionInView", "cameratransform/gui_tools/calibrate/QExtendedGraphicsView.py:QExtendedGraphicsView.mouseMoveEvent"]}
{"id": "C74", "title": "The demonstrator draws the camera its sliders say", "statement": "After any dragging of sliders, clicking of the labels for the angles and pressing of Reset, the camera drawn by the demonstrator has the values of the visible sliders and a centred image; clicking the other label leaves every point where it is, clicking back restores all sliders, converted angles stay inside their sliders' ranges, and Reset restores the first view.", "quantifier": "all sequences of drags, clicks and resets", "why_tests_cant": "Each set_val calls update while the labels and cameras are half switched; only reasoning over all histories shows that the two cameras and the hidden sliders never leak into the drawing.", "anchors": ["cameratransform/gui_tools/demonstrator/demo_matplotlib.py:open_demo", "cameratransform/spatial.py:SpatialOrientationYawPitchRoll"]}
{"id": "C75", "title": "Rounding does not spoil GPS distances and local coordinates", "statement": "In any floating-point arithmetic with relative error u, getDistance of two places that are not on opposite sides of the earth is a number within 3600 u earth radii (over the cosine of half the angle) of the exact great-circle distance, also at the poles and for nearly equal places; a place is at distance exactly zero from itself, distances are symmetric to the last digit, getBearing points in the exact direction up to 700 u over the sine of the angle, and spaceFromGPS is within 6000 u earth radii (five micrometres in double precision) for places up to 6371 km apart.", "quantifier": "all arithmetics of the given accuracy, all pairs of places on the earth", "why_tests_cant": "The haversine formula takes the root of a sum that vanishes and divides by nothing, the bearing loses all digits for close places: only an error analysis over all places tells whether the losses cancel in the local coordinates; sample values cannot.", "anchors": ["cameratransform/gps.py:getDistance", "cameratransform/gps.py:getBearing", "cameratransform/gps.py:spaceFromGPS"]}
{"id": "C76", "title": "The Qt demonstrator draws what its inputs show", "statement": "Whatever is typed, dragged, checked or chosen in the window of demo_qt.py, in whatever order, the camera of the last drawing has the numbers the inputs show, the chosen projection and the chosen scene; with a locked aspect ratio both focal lengths are equal and with a centred image the centre is exactly in the middle, in the drawing and in the inputs. The only exception, an input that was locked in between and gets back the number it had sent before, is repaired by the next change of anything else.", "quantifier": "all finite histories of user actions on the twelve number inputs, two check boxes and two combo boxes; all roundings of the slider position", "why_tests_cant": "The inputs suppress their own signals and remember what they sent last; whether a drawing can be left behind depends on the history of locking, typing and dragging, of which there are infinitely many.", "anchors": ["cameratransform/gui_tools/demonstrator/demo_qt.py:Window.updatePlot", "cameratransform/gui_tools/demonstrator/QtShortCuts.py:QInputNumber", "cameratransform/gui_tools/demonstrator/QtShortCuts.py:QInput._emitSignal"]}
{"id": "C77", "title": "print(camera) shows the parameters the camera has now", "statement": "After any history of operations, the text of a camera has exactly one line for each of focal length, position, elevation and the three angles of its orientation, and one for each lens coefficient, and the decimal number in that line is the value that reading the attribute gives, to half a unit of the last printed digit; the sensor line and the image line show the two sizes. A complete camera always prints.", "quantifier": "all reachable object heaps, all cameras in them, all projection, orientation and lens classes, all values", "why_tests_cant": "Whether the text is current depends on the history of assignments, defaults, fits and exchanged tables, and whether a printed decimal is within half a unit depends on the value; there are infinitely many of both.", "anchors": ["cameratransform/camera.py:Camera.__str__", "cameratransform/projection.py:CameraProjection.__str__", "cameratransform/spatial.py:SpatialOrientation.__str__", "cameratransform/lens_distortion.py:LensDistortion.__str__"]}
{"id": "C78", "title": "which parameters the observations of a fit determine", "statement": "For a fixed tilt and roll, a measured length is proportional to the height of the camera above the plane and does not depend on its heading or position, so one length observed on the ground determines the elevation and nothing about heading and position; the same holds of measured heights when the heading is kept. The row in which the horizon is found does not depend on heading and position, and determines the tilt to the angle of a pixel. Corresponding points leave the scale open: cameras s times as far from the origin have the same term.", "quantifier": "all pairs of cameras, projections, pixels, observations and scales s > 0", "why_tests_cant": "That a parameter cannot be found from a kind of observation is a statement about all other parameter values with equal likelihood; sampling a few never shows that no value is preferred.", "anchors": ["cameratransform/camera.py:Camera.getObjectLength", "cameratransform/camera.py:Camera.getObjectHeight", "cameratransform/camera.py:Camera.getImageHorizon", "cameratransform/camera.py:Camera.addObjectLengthInformation", "cameratransform/camera.py:Camera.addHorizonInformation", "cameratransform/camera.py:CameraGroup.addPointCorrespondenceInformation"]}
{"id": "C79", "title": "Perspective: straight lines stay straight and in order, far things are small, parallel lines meet", "statement": "For the rectilinear projection without lens distortion: a segment in front of the camera is shown as the segment between the images of its ends, in the same order and without gaps, and a segment of the picture that looks down is a segment on the ground, likewise. For a camera without roll, what is lower in the picture is nearer on the ground in any column, and in one row further right is further right. A displacement parallel to the picture is shown with size f/depth. Parallel lines that lead away end in one pixel that does not depend on where the camera is; all level lines end in one row given by the tilt.", "quantifier": "all rectilinear cameras, orientations, points, segments, planes and directions", "why_tests_cant": "Straightness and order are statements about all points of a segment, vanishing points about limits; both are over a continuum of cameras and directions.", "anchors": ["cameratransform/camera.py:Camera.imageFromSpace", "cameratransform/camera.py:Camera.spaceFromImage", "cameratransform/projection.py:RectilinearProjection.imageFromCamera", "cameratransform/projection.py:RectilinearProjection.getRay", "cameratransform/spatial.py:SpatialOrientation.cameraFromSpace"]}
{"id": "C80", "title": "Rounding errors of panoramas", "statement": "With floating-point operations of relative accuracy u, the pixel that a cylindrical or equirectangular camera computes for a point is near the exact one: the row always, the column up to a full turn of 2 pi f_x pixels, and without such a turn unless the point is seen at the seam behind the camera. The bounds grow with the distance divided by the distance from the camera's vertical axis; in double precision they are below a ten-thousandth of a pixel. The ground point of a pixel is near the exact one, pixels above the horizon have none, and a pixel is recovered from its ray.", "quantifier": "all arithmetics of accuracy u up to 1e-6, all panoramic cameras, orientations within one turn, points, pixels and planes within stated distances from the singular sets", "why_tests_cant": "A test compares a few values with a tolerance; the bound is over all inputs and over every arithmetic with the stated accuracy, and the failure at the seam needs an input that depends on the rounding.", "anchors": ["cameratransform/projection.py:CylindricalProjection.getRay", "cameratransform/projection.py:CylindricalProjection.imageFromCamera", "cameratransform/projection.py:EquirectangularProjection.getRay", "cameratransform/projection.py:EquirectangularProjection.imageFromCamera", "cameratransform/camera.py:Camera.imageFromSpace", "cameratransform/camera.py:Camera.spaceFromImage"]}
{"id": "C81", "title": "How errors of pixels and parameters move measured points", "statement": "The points of a plane that two pixels of a rectilinear camera show are at most as far apart as the angle between the pixels times the distance of one point times the depth of the other, over the height of the camera. Without roll the distances ahead and to the side are given exactly by rows and columns. An error of the tilt moves a point along the heading by the sine of the error times the product of the distances over the height; an error of the heading turns it about the foot of the camera (clockwise, for every projection), of the elevation scales it, of the position shifts it. Two equal cameras side by side show a point in one row, with columns f_x*B/depth apart; a camera that moves ahead magnifies the picture about its middle by depth/(depth-B).", "quantifier": "all cameras without lens (rectilinear for the pixel, row, tilt and picture laws, all projections for heading, elevation and position), pixels, planes, errors of any size", "why_tests_cant": "Tests compare single positions; how an error of an input carries over to the measured point is a law between two runs, over all inputs and all sizes of the error.", "anchors": ["cameratransform/camera.py:Camera.spaceFromImage", "cameratransform/camera.py:Camera.imageFromSpace", "cameratransform/spatial.py:SpatialOrientation._initCameraMatrix", "cameratransform/projection.py:RectilinearProjection.getRay", "cameratransform/projection.py:RectilinearProjection.imageFromCamera"]}
{"id": "C82", "title": "Every attitude has angles, and which angles mean the same camera", "statement": "Every motion of space that keeps distances and handedness is the change of coordinates of some camera: there is a position and a tilt in [0,180], roll and heading in (-180,180] that give it (and likewise yaw, pitch in [-90,90] and roll). Two sets of parameters give the same camera exactly if the positions are equal and the angles agree up to full turns, or the tilt is negated with roll and heading turned by 180 degrees, or both look straight down (up) with the same difference (sum) of roll and heading; so for tilts between 0 and 180 the angles are unique.", "quantifier": "all distance- and handedness-keeping maps of space, all pairs of finite orientation parameters", "why_tests_cant": "Existence of parameters for every attitude and a complete description of the parameters that coincide are statements about all real angles; a test can only try some.", "anchors": ["cameratransform/spatial.py:SpatialOrientation._initCameraMatrix", "cameratransform/spatial.py:SpatialOrientation.cameraFromSpace", "cameratransform/spatial.py:SpatialOrientationYawPitchRoll._initCameraMatrix"]}
{"id": "C83", "title": "Which landmarks determine a camera", "statement": "With a known position, two landmarks in different directions at their pixels determine the attitude of a camera of any projection. With an unknown position, four landmarks of one plane (in particular of level ground) of which no three are on a line determine position and attitude of a camera that is not in the plane. Three landmarks do not, and landmarks on the ground seen from straight above do not tell the focal length from the elevation.", "quantifier": "all pairs of cameras with the same projection, all landmarks shown at the same pixels", "why_tests_cant": "Uniqueness of the camera that explains a picture is a statement about all other cameras; a test (or a fit) only finds one.", "anchors": ["cameratransform/camera.py:Camera.imageFromSpace", "cameratransform/camera.py:Camera.addLandmarkInformation", "cameratransform/spatial.py:SpatialOrientation.cameraFromSpace", "cameratransform/projection.py:RectilinearProjection.imageFromCamera", "cameratransform/projection.py:CylindricalProjection.imageFromCamera", "cameratransform/projection.py:EquirectangularProjection.imageFromCamera"]}
{"id": "C84", "title": "Distances between GPS points measured in space coordinates", "statement": "The space coordinates of GPS points are polar coordinates around the origin: directions and distances from the origin are exact. The distance of two points measured in space coordinates is never shorter than the distance over ground, and within r earth radii of the origin longer by at most the factor r / sin r, that is at most by the part r^2/5 (50 millionths within 100 km). Without a bound on r no factor holds.", "quantifier": "all origins, all pairs of GPS points, all radii below half a circumference", "why_tests_cant": "The error of a map projection is a bound over all pairs of points; a test measures single pairs, and near the antipode the stretching has no bound.", "anchors": ["cameratransform/gps.py:spaceFromGPS", "cameratransform/gps.py:getDistance", "cameratransform/gps.py:getBearing", "cameratransform/camera.py:Camera.spaceFromGPS"]}
{"id": "C85", "title": "What turning, zooming and moving a camera does to its picture", "statement": "Two cameras at one place, of any projections, show everything without parallax: the pixel of one determines the pixel of the other. From two places, points behind each other for one camera are apart for the other. Zooming scales the picture about the principal point; another projection keeps the angle beside the axis and the slope. Turning a level camera shifts these angles by the change of the heading, so a panorama scrolls by f times the angle; rolling turns a rectilinear picture clockwise; tilting adds to the angle below the axis. A panorama that does not look level does not scroll.", "quantifier": "all pairs of cameras, all points both show, all angles", "why_tests_cant": "The laws relate the pictures of two cameras for all points and angles; a test compares a few pixels.", "anchors": ["cameratransform/camera.py:Camera.imageFromSpace", "cameratransform/spatial.py:SpatialOrientation._initCameraMatrix", "cameratransform/spatial.py:SpatialOrientation.cameraFromSpace", "cameratransform/projection.py:RectilinearProjection.imageFromCamera", "cameratransform/projection.py:CylindricalProjection.imageFromCamera", "cameratransform/projection.py:EquirectangularProjection.imageFromCamera"]}
{"id": "C86", "title": "Saving and loading the parts of a camera", "statement": "The file of a projection, an orientation or a lens, loaded into a part of the same type, makes every parameter read the saved number, except focallength_px which a projection does not save; nothing that the part does not own changes, and loading does not raise. Loading the three files of a camera into the parts of another camera of the same types makes both transform alike, also with yaw, pitch and roll, which Camera.save loses. An orientation ignores the names it does not have. The file of a lens that sits in a camera also holds that camera's focal lengths, centre and image size: loaded into the lens of another camera it overwrites them there, and loaded into a lens of no camera they become attributes that hide the later camera's values.", "quantifier": "all reachable states of both sides, all parts, all values", "why_tests_cant": "That files carry every value for every sequence of earlier operations, and which other objects a load changes, is a statement about all states; a test saves and loads a few.", "anchors": ["cameratransform/projection.py:CameraProjection.save", "cameratransform/projection.py:CameraProjection.load", "cameratransform/spatial.py:SpatialOrientation.save", "cameratransform/spatial.py:SpatialOrientation.load", "cameratransform/lens_distortion.py:LensDistortion.save", "cameratransform/lens_distortion.py:LensDistortion.load", "cameratransform/lens_distortion.py:BrownLensDistortion.setProjection"]}
{"id": "C87", "title": "A camera with a lens measures like one without", "statement": "For every camera with a lens: the picture of a point is the pixel that the camera without lens would give, moved along its radius. Wherever the inverse of the lens is exact, the ray of that picture passes through the point, the point is found again from its pixel and a coordinate or its distance, heights and lengths of objects come out right, two cameras (each with or without a lens) triangulate the point and their rays have distance 0. A pixel of the picture with a given coordinate or distance gives the point on the ray of the corrected pixel, nan exactly behind the camera, and the picture of the result is that pixel again. The horizon is searched on the corrected pixels. Where the inverse is not exact, the pixel found back is wrong by exactly the error of the radius. A point straight ahead is lost: its pixel is nan.", "quantifier": "all cameras (all projections, orientations), all lenses, all points and pixels", "why_tests_cant": "Every combination of projection, orientation, lens and point is a different computation; a test with a lens compares a few points to stored numbers.", "anchors": ["cameratransform/camera.py:Camera.imageFromSpace", "cameratransform/camera.py:Camera.spaceFromImage", "cameratransform/camera.py:Camera.getRay", "cameratransform/camera.py:Camera.getObjectHeight", "cameratransform/camera.py:Camera.getObjectLength", "cameratransform/camera.py:Camera.getImageHorizon", "cameratransform/camera.py:CameraGroup.spaceFromImages", "cameratransform/camera.py:CameraGroup.discanteBetweenRays", "cameratransform/lens_distortion.py:BrownLensDistortion.imageFromDistorted", "cameratransform/lens_distortion.py:BrownLensDistortion.distortedFromImage"]}
{"id": "C88", "title": "Rounding errors of lens distortion", "statement": "In floating point arithmetic whose operations have relative error u, distortion with the Brown model or the ABC model gives each pixel coordinate to within u (150 |x - centre| S + |result|), where S is the sum of the absolute values of the terms of the radius map divided by the radius; in double precision this is below 2e-9 pixels for coefficients up to 1 within one focal length and 10000 pixels of the centre. Undistortion has the same error when the inverse of the radius map does. An error of the pixel is passed on with at most the factor 1 + 3|k1| h^2 + 5|k2| h^4 + 7|k3| h^6 for radii up to h, so the error of the picture of a point is bounded through all steps. A lens with all coefficients zero is not exactly the identity in such arithmetic.", "quantifier": "all rounding functions with the stated accuracy, all coefficients, projections and pixels other than the centre", "why_tests_cant": "A test compares a few distorted pixels on one machine's arithmetic; the bound holds for every pixel, every coefficient and every arithmetic of that accuracy.", "anchors": ["cameratransform/lens_distortion.py:BrownLensDistortion._convert_radius", "cameratransform/lens_distortion.py:BrownLensDistortion.distortedFromImage", "cameratransform/lens_distortion.py:BrownLensDistortion.imageFromDistorted", "cameratransform/lens_distortion.py:ABCDistortion._convert_radius", "cameratransform/lens_distortion.py:ABCDistortion.distortedFromImage", "cameratransform/camera.py:Camera.imageFromSpace"]}
{"id": "C89", "title": "What a lens does to the picture", "statement": "A lens shows different pixels at different places wherever its radius map is positive and injective: everywhere for Brown's model without negative coefficients, and up to the radius 1/sqrt(-3 k1) when only k1 is negative; beyond that radius the picture folds, every pixel lying on one further in. Straight lines through the centre stay straight, on their sides of the centre and in order, and mirroring in the axes (and turning, for square pixels) commutes with the lens. Three pixels of any other line, the one nearest to the centre and two on either side of it, stay on a line exactly when the lens magnifies them equally, so Brown's model bends every such line: like a pincushion for non-negative and like a barrel for non-positive coefficients that are not all zero. Along the radius the picture is stretched by 1 + 3 k1 r^2 + 5 k2 r^4 + 7 k3 r^6. With Brown's model the distortion, in units of the focal length, is the same for every focal length and principal point, with the ABC model it is not; both scale with a resized picture.", "quantifier": "all lenses (any radius map), all coefficients, projections, orientations and pixels other than the centre", "why_tests_cant": "The claims compare all pixels of a picture, all lines, all zoom positions; a test distorts a handful of pixels with one set of coefficients.", "anchors": ["cameratransform/lens_distortion.py:BrownLensDistortion.distortedFromImage", "cameratransform/lens_distortion.py:BrownLensDistortion._convert_radius", "cameratransform/lens_distortion.py:BrownLensDistortion.setProjection", "cameratransform/lens_distortion.py:ABCDistortion.distortedFromImage", "cameratransform/lens_distortion.py:ABCDistortion.setProjection", "cameratransform/camera.py:Camera.imageFromSpace"]}
{"id": "C90", "title": "Random steps stay between their limits", "statement": "Adding a normal_bounded(sigma, min, max) step to a position gives, for every position (also one outside the limits), every limit (also an infinite one) and every draw of the truncated normal distribution, a finite position of the same length that lies between min and max in every coordinate, or an error. It is answered exactly if min < max, the position is finite, and sigma is positive (or zero with the position strictly inside). A walk of any number of such steps therefore never raises and never leaves the limits. In other units of length the same draws give the same step; before tuning it is the proposal of metropolis. A normal(sigma) step is unlimited: some draw leaves any limits.", "quantifier": "All numbers (finite, infinite, NaN), all lengths of the position, all numbers of steps, all samplers that keep to the limits of the truncated normal distribution.", "why_tests_cant": "The steps are random: a test sees a few draws of a continuous distribution and almost never the extreme ones, and cannot try every position, limit and width.", "anchors": ["cameratransform/statistic.py:32-46", "cameratransform/statistic.py:49-65", "cameratransform/statistic.py:108"]}
{"id": "C91", "title": "Rounding errors of triangulation", "statement": "In rounded arithmetic with relative error u, for every two cameras with a rectilinear projection, every point ahead of both and its two exact pixels, CameraGroup.spaceFromImages returns a point (never nan) whose coordinates differ from the true ones by at most u rho^4 (10^9 rho D + 7000 B)/sigma, where rho bounds the field of view, D the depths, B the coordinates of the point, and sigma is the squared sine of the angle at which the lines of sight cross times their squared lengths per metre of depth, as long as sigma is at least 10^8 u rho^4. This holds for every backward stable solver of the two equations, and the elimination with row interchanges that LAPACK performs is one. In double precision: 2 mm for points up to 100 m ahead of cameras that see up to 45 degrees to each side, with lines of sight that cross at about 6 degrees or more. The nan for parallel lines is not guaranteed once numbers are rounded.", "quantifier": "All roundings with relative error u, all backward stable solvers, all pairs of cameras (projection, orientation within one turn), all points ahead of both with sigma above the threshold; for the lines: all origins, directions and points near both.", "why_tests_cant": "The error depends on the rounding of every operation and on the angle between the lines; a test compares a few points with a tolerance and says nothing about others.", "anchors": ["cameratransform/ray.py:107-157", "cameratransform/camera.py:218-222"]}
{"id": "C92", "title": "Rounding errors of intersections with meshes", "statement": "In rounded arithmetic with relative error u, for every ray and every triangle that the ray meets at a moderate angle (flatness F = L L m/|n.D|, thinness K = L^4/|n|^2), ray_intersect_triangle finds the intersection whenever it lies inside the triangle by more than a margin of about K(100000 u F S/L + 900 u H/L + 1300 u) and in front of the origin, with a point that is off by at most 300 u F S + 2 u H, and finds none when the ray passes by more than this margin; S bounds the way to the triangle, H the origin, L the edges, m the direction. For a mesh all of whose triangles are hit or missed that clearly, the point returned is near the first point of the mesh on the ray, and no point is returned exactly when no triangle is hit. In double precision: a billionth of the size of the triangle, and two millionths of it at the border, from up to 1000 times its size away. At the border itself the claim is false: two triangles that share an edge can both miss a ray that goes through the edge, so a surface without holes lets the ray through.", "quantifier": "All roundings with relative error u, all rays, all triangles that are met at a flatness below 1/(120 u) and have a thinness below 1/(5600 u), all meshes of such triangles in any order.", "why_tests_cant": "The comparisons with 0 and 1 are decided by the rounding of some forty operations; tests hit triangles in the middle, and the rays that leak through an edge are exceptional.", "anchors": ["cameratransform/ray.py:23-24", "cameratransform/ray.py:27-104", "cameratransform/camera.py:1133-1136"]}
{"id": "C93", "title": "Rounding errors of the heights and lengths of objects", "statement": "In rounded arithmetic with relative error u, getObjectHeight and getObjectLength, applied to the pixels of the ends of an object, return its true height and length up to an error that is linear in u. If everything is at most S from the camera, S is at most s times the smallest offset of the object from the camera along x, y and z, and 3200000 u s^3 <= 1, the height is right up to 3200000 u S s^3 (the foot's error passes into both estimates of the head and is magnified there). A length on a plane whose distance from the camera is at least S/s is right up to 6300000 u S s^2. In double precision: to a millimetre for everything within a kilometre, s up to 10 for heights and 20 for lengths. Without the lower bounds on the offsets the claim is false of heights: an object of 2 m that stands 64 m away and 2^-44 m beside straight ahead is measured as 6 m, since its x is rounded to the camera's and one of the two averaged estimates is then the camera's own height.", "quantifier": "All roundings with relative error u, all cameras with a rectilinear projection without lens, all orientations within one turn, all objects in front of the camera within the stated bounds, all inverse matrices that are inverse up to rounding.", "why_tests_cant": "The error is that of some sixty roundings, passed from the foot point to the head's two estimates; tests compare a few heights to a few digits, and the directions in which an estimate collapses are exceptional.", "anchors": ["cameratransform/camera.py:1143-1157", "cameratransform/camera.py:1243-1251", "cameratransform/camera.py:1272-1278"]}
{"id": "C94", "title": "Coordinates as people type them", "statement": "gpsFromString reads every coordinate typed in one of the documented forms: degrees, minutes and seconds, degrees and minutes, or degrees alone, with an optional sign in front, leading zeros, any of the three minute marks (which the minutes form may leave out) and of the five second marks, any Unicode white space between the parts, and an optional letter after it. The value is |degrees| + minutes/60 + seconds/3600, negative exactly if a minus is in front or the letter is S or W; a field that is not a decimal number (two points, a sign inside) raises ValueError and nothing else does. The same holds for a latitude and a longitude of the same form, parted by white space, a letter or a comma; what follows the last letter is ignored. A text without a degree sign, or with anything but a number first, gives None. False: that the order does not matter (with the longitude first only the longitude comes back, as a single number) and that the letter of the second coordinate always counts (a letter N or S there is ignored), and that a latitude and a longitude of different forms are both read (with degrees alone first the minutes and the letter of the second are lost, with the longer form first the second is lost); that the text the docstring gives first is read (its apostrophe U+2019 is not a minute mark, and one number without seconds and sign comes back); that a small letter counts.", "quantifier": "All digits strings of any length, all marks, all white space, letters present or absent, all trailing texts.", "why_tests_cant": "The texts are unbounded and the three patterns are tried in turn with backtracking, so whether a longer pattern takes a shorter text is a question about all continuations; tests read a few texts with one kind of mark and blank.", "anchors": ["cameratransform/gps.py:160-194", "cameratransform/gps.py:255-278"]}
{"id": "C95", "title": "Where plotted images are drawn", "statement": "With do_plot=True the functions return and cache exactly what they do without it. The top view is drawn over its extent: after any calls of a camera that is not changed in between, every cell of the plot contains a point (x, y) of the axes whose image at the given height is what the cell shows, for any extent and any scaling; if the sides of the extent are multiples of the scaling it is the lower left corner of the cell. The plot of the undistorted image has every column at its place and every row exactly one pixel above it: without a lens pixel (i, j) is drawn around x = j + 1/2, y = i - 1/2. False: that each row is drawn at its place, and, when the caller has changed the extent list between two calls, that the cells show points in them (the old picture is drawn at the new place). Plotting an undistorted image with a tuple as extent raises.", "quantifier": "all images, extents and scalings (also such that the last cell is cut), all rows and columns, all histories of calls", "why_tests_cant": "The tests never plot; whether sample positions and drawn cells agree for extents that are no multiple of the scaling is a claim about all real extents, and the half and whole pixel offsets depend on the order of two reversals in different functions.", "anchors": ["cameratransform/camera.py:Camera.undistortImage", "cameratransform/camera.py:Camera.getTopViewOfImage", "cameratransform/camera.py:Camera._getMap", "cameratransform/camera.py:Camera._getUndistortMap"]}
{"id": "C96", "title": "A level camera is a compass, a level and a range finder", "statement": "For a camera with tilt 90 and roll 0, of any projection: what a pixel shows stands in the compass direction heading plus the angle of the column, below the camera by the slope of the pixel times its distance. What is as high as the camera, and only that, is in the middle row; a plumb line is one column, from top to bottom (to scale for the rectilinear and cylindrical projection); level circles are rows of a panorama; the distance of a point of known height and the height of a thing standing on it follow from the rows. A landmark given by its gps position is in the column of the bearing that getBearing gives, if the camera is at its gps position (pos_x_m = pos_y_m = 0; false otherwise). A panorama with a field of view of 360 degrees shows everything between its edges, at every attitude; with less it does not. False: that straight edges stay straight in a panorama, that equal heights are equally many pixels of an equirectangular one, that plumb lines are columns of a tilted camera.", "quantifier": "all level cameras of the three projections with any focal lengths, centres, positions and headings; all points they show; all gps positions; for the full turn all attitudes", "why_tests_cant": "The tests check round trips, which a mirrored or shifted compass would pass as well; that columns are bearings for every heading, wrapped around the turn, is a claim about all angles, and the edges of the 360 degree panorama are reached only in limits.", "anchors": ["cameratransform/projection.py:CylindricalProjection.imageFromCamera", "cameratransform/projection.py:EquirectangularProjection.imageFromCamera", "cameratransform/projection.py:RectilinearProjection.imageFromCamera", "cameratransform/projection.py:CylindricalProjection.getFieldOfView", "cameratransform/camera.py:Camera.imageFromSpace", "cameratransform/camera.py:Camera.imageFromGPS", "cameratransform/gps.py:getBearing"]}
{"id": "C97", "title": "Rounding moves the destination of a walk by less than a hundredth of a millimetre", "statement": "With every operation rounded (relative error u), moveDistance finds a place whose great-circle angle to the exact destination is at most u * (4600 / cos(lat1) + 1500 / cos(lat2)), for any start, distance up to four radii, bearing and height, as long as both ends keep clear of the poles (300 u < cos(lat2)^2 and 500 u < cos(lat1) cos(lat2)); the same holds for gpsFromSpace of any local coordinates but the origin. In double precision between 60 degrees South and North that is less than 0.01 mm on the ground, and getDistance finds the distance moved again within 0.02 mm. False: that a place is found at all for every walk: on the way to a pole the rounded argument of arcsin may exceed one, and both coordinates are nan.", "quantifier": "all arithmetics with the stated accuracy, all starts, distances, bearings, heights and local coordinates within the stated limits", "why_tests_cant": "The tests compare a few walks to eight digits; the bound has to hold for every rounding of every intermediate result, and the loss of accuracy near the poles and the nan at them are met only on walks that no test takes.", "anchors": ["cameratransform/gps.py:moveDistance", "cameratransform/gps.py:gpsFromSpace", "cameratransform/gps.py:getDistance"]}
{"id": "C98", "title": "What the pixels of a camera with a lens tell", "statement": "Correcting a pixel of the picture of a camera with a lens gives the pixel at which the same camera without the lens shows the point, and two pixels of pictures of one lens are equal exactly when the corrected pixels are. So the landmarks that determine a camera determine it through a known lens as well (two in different directions for a known position, four in general position or on the ground otherwise), cameras at one place see the same things hidden behind each other whatever lenses they have and cameras at two places do not, the corrected pixel of a level camera gives compass direction and slope, and the corrected pixels of a straight edge are on a straight line in order. A Brown lens and a zoom agree on a point exactly when the magnification of the lens at its radius is the zoom; landmarks at two radii exclude every zoom if k1, k2, k3 have one sign. False: that four landmarks in general position tell a lens from a zoom, if all are at one distance from the centre; and that a camera without its lens measures right (20 m are taken for 16 m).", "quantifier": "all projections, cameras, poses, lenses (any radius map and centre), landmarks and pixels at which the inverse of the lens is exact", "why_tests_cant": "The tests take a few pixels there and back through one lens; that nothing learned from pixels is lost through a lens, and what an unknown lens can be confused with, are statements about all pairs of cameras.", "anchors": ["cameratransform/camera.py:imageFromSpace", "cameratransform/lens_distortion.py:imageFromDistorted", "cameratransform/lens_distortion.py:distortedFromImage", "cameratransform/lens_distortion.py:BrownLensDistortion"]}
{"id": "C99", "title": "The field of view tells what is in the picture", "statement": "With the principal point in the middle, a point that a camera shows is within the frame of the picture exactly when it is at most half of the horizontal field of view beside the optical axis and at most half of the vertical one above or below it, for every projection. A rectilinear camera pictures exactly the points of the pyramid with these half angles; none behind the camera; a panorama in any attitude exactly the points within both half angles. Zooming in at one place only takes things out of the picture. Without roll: on the line straight ahead the picture shows the ground exactly from H tan(tilt - VY/2) to H tan(tilt + VY/2), everything beyond the near end if the horizon is in the picture, no ground if the horizon is below it; the horizon is in the picture exactly when |90 - tilt| <= VY/2; looking straight down, the picture shows a rectangle of 2 H tan(VX/2) by 2 H tan(VY/2) of the ground. A level camera of any projection has a thing between its left and right edges exactly when its compass direction is within VX/2 of the heading. False: with the principal point out of the middle; and that a tilted camera only pictures compass directions within VX/2 of its heading.", "quantifier": "all projections, cameras (focal lengths, sizes), poses, points in space, pixels and fields of view", "why_tests_cant": "Tests compare getFieldOfView with a number for one camera; that this number decides what is pictured is a statement about all points of space.", "anchors": ["cameratransform/projection.py:getFieldOfView", "cameratransform/projection.py:imageFromCamera", "cameratransform/camera.py:imageFromSpace"]}
