{"id": "C01", "title": "HEALPix pixel index <-> (ring, position) is a bijection", "statement": "For every nside >= 1, healpix_pix2ij followed by healpix_ij2pix returns the pixel it started from for every pixel 0 <= p < 12*nside^2, the (ring, position) it produces is a legal one (1 <= ring <= 4*nside-1, 1 <= position <= number of pixels of that ring), and conversely every legal (ring, position) is mapped to a pixel in range that pix2ij maps back to it.", "quantifier": "all nside >= 1, all pixels, all legal ring/position pairs", "why_tests_cant": "nside and p are unbounded; the formula goes through nested floor/sqrt whose correctness at ring boundaries is a number-theoretic fact, tests only sample a few nside", "anchors": ["magpie/pixel/healpix_index.py:healpix_pix2ij", "magpie/pixel/healpix_index.py:healpix_ij2pix"]}
{"id": "C02", "title": "pix2ij is exact in IEEE double arithmetic for every practical nside", "statement": "Executed in IEEE-754 binary64 (round to nearest even), healpix_pix2ij returns exactly the ring and position of every pixel for every nside up to 27397078 (so for every power of two up to 2^24); up to nside 2^25 the ring is still right for every pixel, and so is the position on every ring before ring 3*nside. Numbers outside the map are treated as in exact arithmetic: beyond 12*nside^2 and below -1 the call raises.", "quantifier": "all nside with 1 <= nside <= 27397078 (2^25 for the ring), all pixels 0 <= p < 12*nside^2", "why_tests_cant": "about 10^16 pixels; rounding errors near ring boundaries cannot be enumerated", "anchors": ["magpie/pixel/healpix_index.py:healpix_pix2ij"]}
{"id": "C03", "title": "pix2ij breaks down in double arithmetic above nside 27397078", "statement": "User expectation: pixel indices are converted correctly for all nside supported by HEALPix (up to 2^29). Violated: in binary64 arithmetic every nside above 27397078 has a valid pixel whose reported ring and position are not its own (the south-cap position formula adds integers beyond 2^53); at nside = 2^25 the two pixels 12*nside^2-2 and 12*nside^2-1 are both reported as (4*nside-1, 4).", "quantifier": "all nside > 27397078; explicit pair of pixels at nside = 2^25", "why_tests_cant": "a failing input lies beyond 10^16 pixels; no random test will hit it", "anchors": ["magpie/pixel/healpix_index.py:healpix_pix2ij"]}
{"id": "C04", "title": "Array calls of the HEALPix index functions agree with element-wise scalar calls", "statement": "For healpix_pix2ij, healpix_ij2pix, healpix_j2jd, healpix_pix2xy the array branch (np.where masks and fancy-index assignment) returns, position by position, what the scalar branch returns on each element whenever the element is a valid pixel; for a pixel beyond the map the scalar call raises while the array call silently yields (0,0).", "quantifier": "all nside >= 1, all arrays of any length", "why_tests_cant": "the two branches are separately written code; agreement over arrays of arbitrary length and content is a forall statement", "anchors": ["magpie/pixel/healpix_index.py:healpix_pix2ij", "magpie/pixel/healpix_index.py:healpix_ij2pix", "magpie/pixel/healpix_index.py:healpix_j2jd"]}
{"id": "C05", "title": "Pixel centres are the published HEALPix ring-scheme centres", "statement": "Mapping a pixel to the projection plane with healpix_pix2xy and from there to the sphere with healpix_xy2ang yields the HEALPix standard centre: in the caps z = ±(1 - i^2/(3 nside^2)), phi = (j-1/2) pi/(2 i); in the equatorial belt z = 4/3 - 2 i/(3 nside), phi = (j - fodd) pi/(2 nside).", "quantifier": "all nside >= 1 (even and odd), all pixels", "why_tests_cant": "two separately coded parity cases and three regions, all nside; tests check nside 2 or so", "anchors": ["magpie/pixel/healpix_index.py:healpix_pix2xy", "magpie/pixel/healpix_index.py:healpix_j2jd", "magpie/pixel/healpix_index.py:healpix_i2id", "magpie/coords/healpix.py:healpix_xy2ang"]}
{"id": "C06", "title": "Distinct pixels have disjoint diamonds and every plane centre is in range", "statement": "For valid pixels p <> q the plane centres differ by at least two half-diagonals in the L1 metric (so the open diamonds |dx|+|dy| < pi/(4 nside) are disjoint, also across the 2*pi wrap), every centre has 0 <= x < 2*pi and |y| < pi/2, and the closed diamonds of the 12*nside^2 pixels cover the whole HEALPix plane region.", "quantifier": "all nside >= 1, all pairs of pixels", "why_tests_cant": "pairs of pixels over unbounded nside", "anchors": ["magpie/pixel/healpix_index.py:healpix_pix2xy", "magpie/pixel/healpix_boundary.py:_healpix_get_delta"]}
{"id": "C07", "title": "The star indices are integers and invert exactly", "statement": "For every valid pixel the (i*, j*) computed by healpix_ijd2ijs are exact non-negative integers (the truncation loses nothing) and healpix_ijs2ijd recovers the dash indices exactly; conversely ijd2ijs inverts ijs2ijd on all non-negative integer pairs.", "quantifier": "all nside >= 1, all pixels, all non-negative integer star pairs", "why_tests_cant": "truncation is only harmless because of a parity fact relating ring and position for all nside", "anchors": ["magpie/pixel/healpix_index.py:healpix_ijd2ijs", "magpie/pixel/healpix_index.py:healpix_ijs2ijd"]}
{"id": "C08", "title": "Neighbour query loses the pairing of its two outputs", "statement": "User expectation: healpix_ijs_neighbours returns two arrays that pair up into the neighbouring pixels of a pixel. Violated: each array is de-duplicated and sorted on its own, so for every pixel in the interior of a base face (and off the phi=0 seam) the two arrays have 3 entries each, pairing them gives the pixel itself and two of its eight neighbours, and the other six are lost; in general the two outputs may even have different lengths.", "quantifier": "all nside >= 1 and all pixels away from the face borders (characterisation); witness for differing lengths", "why_tests_cant": "the characterisation is for every interior pixel of every nside", "anchors": ["magpie/pixel/healpix_index.py:healpix_ijs_neighbours"]}
{"id": "C09", "title": "Pixel outlines lie exactly on the pixel's diamond", "statement": "healpix_boundary(p, nside, steps) returns `steps`-controlled arrays all of whose points satisfy |x-xp|+|y-yp| = pi/(4 nside), the four sides start and end at the four corners, successive sides join, and healpix_boundary_top/bot stay in the upper/lower half and reverse exactly under the reverse flag.", "quantifier": "all nside >= 1, all pixels, all step counts", "why_tests_cant": "continuous outline with an arbitrary number of points", "anchors": ["magpie/pixel/healpix_boundary.py:healpix_boundary", "magpie/pixel/healpix_boundary.py:healpix_boundary_top", "magpie/pixel/healpix_boundary.py:healpix_boundary_bot", "magpie/pixel/healpix_boundary.py:_healpix_top_left"]}
{"id": "C10", "title": "Random points of a HEALPix pixel lie in that pixel's diamond, uniformly", "statement": "For all uniform draws the points of _randoms_healpix_xy satisfy |x-xp|+|y-yp| <= pi/(4 nside) up to a 2*pi wrap of x, x ends in [0,2*pi), and the map from draws to points is the inverse-CDF map: the fraction of the diamond's area left of x equals the draw, and y is uniform on the vertical chord.", "quantifier": "all nside >= 1, all pixels, all draws in [0,1)^2", "why_tests_cant": "the claim is about every possible random draw", "anchors": ["magpie/randoms/usphere.py:_randoms_healpix_xy"]}
{"id": "C11", "title": "Random points on the sphere inside a pixel project back into that pixel", "statement": "Every point returned by randoms_healpix_pixel, projected to the plane with healpix_ang2xy, lies in the diamond of the requested pixel (modulo 2*pi in x), for all first draws in [0,1) and second draws in (0,1). A second draw equal to 0 is an exception: the point can fall on the cut between two southern facets and then projects back into another pixel.", "quantifier": "all nside >= 1, all pixels, all draws", "why_tests_cant": "all draws, and the composition of four functions", "anchors": ["magpie/randoms/usphere.py:randoms_healpix_pixel", "magpie/coords/healpix.py:healpix_xy2ang", "magpie/coords/healpix.py:healpix_ang2xy"]}
{"id": "C12", "title": "Plane <-> sphere HEALPix maps are mutually inverse", "statement": "healpix_xy2ang(healpix_ang2xy(phi, theta)) = (phi, theta) for all phi in [0,2pi), theta in (0,pi), and healpix_ang2xy(healpix_xy2ang(x,y)) = (x,y) for every point (x,y) of the HEALPix plane region off the poles (taking, of the two edges glued together at the cut between polar facets, the left one; a point of the right edge comes back on the left edge of the next facet); both images are in range, the facet apexes are the poles, and theta of any returned point is in [0,pi].", "quantifier": "all angles / all plane points of the region", "why_tests_cant": "continuum of inputs, facet boundaries", "anchors": ["magpie/coords/healpix.py:healpix_xy2ang", "magpie/coords/healpix.py:healpix_ang2xy"]}
{"id": "C13", "title": "The HEALPix projection is equal-area", "statement": "On the interior of each region the map (x,y) -> (phi, z=cos theta) of healpix_xy2ang has constant Jacobian determinant dphi/dx * dz/dy = 8/(3 pi), so all pixels have equal area on the sphere: the pixel of any ring and position has solid angle 4 pi / (12 nside^2).", "quantifier": "all plane points in the open equatorial and polar regions", "why_tests_cant": "a statement about derivatives at every point", "anchors": ["magpie/coords/healpix.py:healpix_xy2ang"]}
{"id": "C14", "title": "Cartesian <-> polar conversion is exact and canonical", "statement": "cart2polar returns r >= 0 and 0 <= phi < 2pi, polar2cart of that gives back (x,y) for every point and centre, and cart2polar(polar2cart(r,phi)) = (r,phi) for every r > 0 and phi in [0,2pi). The array branch agrees with the scalar branch.", "quantifier": "all reals x, y, centres; all r > 0, phi", "why_tests_cant": "continuum of inputs and the four quadrants / axes", "anchors": ["magpie/coords/conversions.py:cart2polar", "magpie/coords/conversions.py:polar2cart"]}
{"id": "C15", "title": "Cartesian <-> spherical conversion is exact and canonical", "statement": "cart2sphere returns r >= 0, phi in [0,2pi), theta in [0,pi], sphere2cart gives the point back for every input including the origin, and the converse holds for r > 0, theta in (0,pi).", "quantifier": "all reals x, y, z, centres", "why_tests_cant": "continuum of inputs, degenerate axis and origin", "anchors": ["magpie/coords/conversions.py:cart2sphere", "magpie/coords/conversions.py:sphere2cart"]}
{"id": "C16", "title": "Orthographic lift lands on the sphere or yields the fill value", "statement": "ortho2cart(x,y,r,fill) returns (x,y,z) with x^2+y^2+z^2 = r^2 and z > 0 exactly when x^2+y^2 < r^2 and z = fill otherwise (so limb points with x^2+y^2 = r^2 are reported as outside).", "quantifier": "all reals", "why_tests_cant": "continuum; the strict boundary case", "anchors": ["magpie/coords/conversions.py:ortho2cart"]}
{"id": "C17", "title": "usphere_rotate is a rigid rotation carrying start to end", "statement": "For accepted inputs whose start and end directions are neither equal nor antipodal, the map performed by usphere_rotate preserves the dot product of any two directions, sends the start direction to the end direction, keeps the rotation axis fixed, and rotating back from end to start is its inverse. A point with an undefined angle stays undefined.", "quantifier": "all directions (phi,theta) of points, start and end in the accepted ranges", "why_tests_cant": "continuum; composition of matrices, cross products and an inverse", "anchors": ["magpie/coords/usphere.py:usphere_rotate"]}
{"id": "C18", "title": "usphere_rotate yields NaN for accepted degenerate pairs", "statement": "User expectation: any start/end that passes the assertions is rotated correctly. Violated: only exactly equal (phi, theta) pairs are refused; every other in-range pair whose directions coincide (same pole with different phi, phi 0 versus 2pi) or are antipodal passes the assertions, and in exact arithmetic the axis normalisation divides by zero and every output is NaN (in floating point this is so at the pole theta = 0; for the other pairs the rounding of pi leaves an axis made of rounding errors).", "quantifier": "all accepted start/end pairs whose directions are parallel", "why_tests_cant": "characterises the whole failing set", "anchors": ["magpie/coords/usphere.py:usphere_rotate"]}
{"id": "C19", "title": "usphere_phi_shift adds the shift modulo 2 pi", "statement": "For phi in [0,2pi] and -2pi < dphi < 2pi the result is in [0,2pi] and differs from phi + dphi by a multiple of 2pi; shifting by dphi and then -dphi gives phi back modulo 2pi; |dphi| >= 2pi is rejected.", "quantifier": "all phi, all dphi, scalars and arrays of any length", "why_tests_cant": "continuum, arrays of any length", "anchors": ["magpie/coords/usphere.py:usphere_phi_shift"]}
{"id": "C20", "title": "usphere_phi_shift / usphere_shift / usphere_spin overwrite the caller's array", "statement": "User expectation: coordinate transforms return new arrays and leave their inputs untouched. Violated: for array inputs usphere_phi_shift writes the shifted values into the caller's array (the returned object is the argument itself) and every finite element changes when dphi is not 0; usphere_shift overwrites the caller's phi in the same way; usphere_spin overwrites it exactly when theta_center = 0 (for phi in [0,2pi]).", "quantifier": "all arrays; every call with dphi that changes some element", "why_tests_cant": "aliasing is invisible to value-based tests", "anchors": ["magpie/coords/usphere.py:usphere_phi_shift", "magpie/coords/usphere.py:usphere_shift", "magpie/coords/usphere.py:usphere_spin"]}
{"id": "C21", "title": "usphere_shift carries the start centre to the end centre rigidly", "statement": "usphere_shift preserves all angular separations and maps (phi_start, theta_start) to (phi_end, theta_end) for all in-range centres except two families: |phi_end - phi_start| = 2pi raises AssertionError, and {theta_start, theta_end} = {0, pi} gives NaN everywhere. Every centre outside the sky is refused; an undefined angle never becomes defined.", "quantifier": "all directions and centres", "why_tests_cant": "continuum", "anchors": ["magpie/coords/usphere.py:usphere_shift"]}
{"id": "C22", "title": "usphere_spin is the rotation by alpha about the centre", "statement": "usphere_spin fixes the centre direction, preserves angular separations, and moves every point by the rotation through angle alpha about the centre axis; alpha = 2*pi, explicitly allowed by its own check, is rejected by an inner assertion, and the exact south pole as centre (also allowed) is degenerate: NaN everywhere in exact arithmetic. Every other centre off the sky or angle outside [0,2pi) is refused.", "quantifier": "all directions, centres, alpha in [0,2pi)", "why_tests_cant": "continuum", "anchors": ["magpie/coords/usphere.py:usphere_spin"]}
{"id": "C23", "title": "Sky area is additive, totals 4 pi, and is not protected against reversed limits", "statement": "usphere_area is additive under splitting in phi or theta, equals 4 pi for the whole sphere, is strictly positive for ordered limits; reversed limits are accepted and give a negative area.", "quantifier": "all limits in range", "why_tests_cant": "continuum", "anchors": ["magpie/coords/usphere_util.py:usphere_area"]}
{"id": "C24", "title": "Longitude/latitude conversion is an involution", "statement": "lonlat2sphere(sphere2lonlat(phi,theta)) = (phi,theta) and vice versa; colatitudes in [0,pi] correspond exactly to latitudes in [-pi/2,pi/2].", "quantifier": "all phi, theta", "why_tests_cant": "continuum", "anchors": ["magpie/coords/usphere_util.py:sphere2lonlat", "magpie/coords/usphere_util.py:lonlat2sphere"]}
{"id": "C25", "title": "rotate_polar never returns a rotated angle", "statement": "User expectation: rotate_polar(phi, rotate) returns phi rotated. Violated: the function discards phi, and for every accepted scalar rotation raises TypeError; for all other rotations AssertionError; no scalar call ever succeeds. The only calls that return are those with a one-element array rotation, and they return that array whatever phi is; empty arrays raise AssertionError, longer ones ValueError. The rotate_polar methods of both Box2Ring classes, which pass three arguments, never return either: after any history of calls they raise TypeError for a map of the right shape and AssertionError otherwise, and change nothing.", "quantifier": "all phi, all rotate; all histories of calls for the methods", "why_tests_cant": "total failure over all inputs", "anchors": ["magpie/coords/polar.py:rotate_polar", "magpie/densegrid/box2ring.py:Box2Ring.rotate_polar", "magpie/montecarlo/box2ring.py:Box2Ring.rotate_polar"]}
{"id": "C26", "title": "rotate_polar_grid shifts exact multiples of the bin width by one bin too many", "statement": "User expectation: rotating a polar grid by m bin widths shifts rows by m. Violated: for an exact multiple m the interpolation weights are exchanged, so row i receives row i+m+1 (and the last row receives the already overwritten first row); with m = 0 the caller's grid is modified in place.", "quantifier": "all grids with >= 2 rows, all m", "why_tests_cant": "all grid sizes and contents", "anchors": ["magpie/coords/polar.py:rotate_polar_grid"]}
{"id": "C27", "title": "Cartesian grid edges and midpoints", "statement": "get_xedges returns ngrid+1 equally spaced edges from xmin to xmin+length exactly; xedges2mid returns the ngrid midpoints, each the mean of adjacent edges; grid1d midpoints are xmin + (i+1/2) dx.", "quantifier": "all ngrid >= 1, lengths, xmin", "why_tests_cant": "all sizes", "anchors": ["magpie/grids/cartesian.py:get_xedges", "magpie/grids/cartesian.py:xedges2mid", "magpie/grids/cartesian.py:grid1d"]}
{"id": "C28", "title": "xmid2edges does not invert xedges2mid", "statement": "User expectation: xmid2edges(xedges2mid(edges)) = edges on a uniform grid. Violated: every returned edge is displaced by half a bin (lower edges too low, last too high), for every uniform grid of >= 2 bins; a single midpoint raises IndexError.", "quantifier": "all uniform grids with >= 2 bins, positive spacing", "why_tests_cant": "the deviation is for all grids", "anchors": ["magpie/grids/cartesian.py:xmid2edges", "magpie/grids/cartesian.py:xedges2mid"]}
{"id": "C29", "title": "Tensor grids index as [i,j(,k)]", "statement": "grid2d/grid3d return arrays of shape (nx,ny(,nz)) whose [i,j(,k)] entries are the i-th x, j-th y (k-th z) midpoints, a scalar box size/grid is used for every axis.", "quantifier": "all shapes and entries", "why_tests_cant": "all shapes", "anchors": ["magpie/grids/cartesian.py:grid2d", "magpie/grids/cartesian.py:grid3d"]}
{"id": "C30", "title": "Equal-area polar grid has exactly base*nr^2 pixels of equal area", "statement": "polarEA_grid returns polarEA_npix = base_nphi*nr^2 points, ring k holds base_nphi*(2k+1) of them, each angular cell of each ring has the area polarEA_area, and the areas sum to pi*rmax^2. Without rings the grid call raises ValueError; with no base sectors it returns no points, with a negative number it raises ValueError (except -1 with one ring: no points).", "quantifier": "all nr >= 1, base_nphi >= 1, rmax", "why_tests_cant": "all nr (induction)", "anchors": ["magpie/grids/polar.py:polarEA_grid", "magpie/grids/polar.py:polarEA_area", "magpie/grids/polar.py:polarEA_npix"]}
{"id": "C31", "title": "Polar pixel areas tile the annulus", "statement": "get_polar_area2d / get_pixarea assign each polar cell half (r_out^2-r_in^2)*dphi; summed over a grid of equal angular bins this is the area of the annular sector (for unequal angular bins it is not, since the first bin's width is used for all rows); polargrid midpoints lie strictly between the edges.", "quantifier": "all radial edges and angular edges", "why_tests_cant": "all grids", "anchors": ["magpie/polar/polar2radial.py:get_polar_area2d", "magpie/polar/polar2radial.py:get_pixarea", "magpie/grids/polar.py:polargrid"]}
{"id": "C32", "title": "rebin_1d reproduces constants and stays within the data range", "statement": "For strictly increasing edges every finite value of rebin_1d lies between the minimum and maximum of the data (also with positive weights); constant data give that constant in every finite output bin; the result is linear in the data; output has one value per new bin; a value is non-finite exactly when the new bin misses the closed data range or has zero width on an interior edge; mismatched lengths and decreasing edges raise AssertionError.", "quantifier": "all edge arrays, data, new edges", "why_tests_cant": "all arrays of any length", "anchors": ["magpie/one_d/one_d.py:rebin_1d"]}
{"id": "C33", "title": "rebin_1d onto the same bins is the identity", "statement": "For strictly increasing edges (uniform or not), rebinning onto the original edges returns the data unchanged.", "quantifier": "all strictly increasing edge arrays and data", "why_tests_cant": "all arrays", "anchors": ["magpie/one_d/one_d.py:rebin_1d"]}
{"id": "C34", "title": "rebin_1d is the overlap average on uniform bins unless one bin swallows the whole range", "statement": "On uniform bins the value of a new bin overlapping the data range equals the overlap-length weighted mean of the old bins, provided the new bin does not contain both the first and the last edge.", "quantifier": "all uniform grids, data, new bins", "why_tests_cant": "all arrays, all positions of the new bin", "anchors": ["magpie/one_d/one_d.py:rebin_1d"]}
{"id": "C35", "title": "rebin_1d double counts the last bin when a new bin covers the whole range", "statement": "User expectation: a new bin covering the whole range returns the mean of all bins. Violated: the result is (sum of data + last datum)/(n+1), i.e. the last bin enters twice.", "quantifier": "all strictly increasing edges, all data, all covering bins", "why_tests_cant": "holds for every array (negative index wrap-around)", "anchors": ["magpie/one_d/one_d.py:rebin_1d"]}
{"id": "C36", "title": "rebin_1d is not conservative on non-uniform bins", "statement": "User expectation: the new value is the mean of the underlying histogram over the new bin. Violated for non-uniform bins: the weights are fractions of old bins rather than lengths, and the last weight is normalised by the wrong bin's width. For a new bin around exactly one interior edge the value is right exactly when the two old bins have equal widths or equal values.", "quantifier": "all increasing edges for the one-edge characterisation; exists edges, data, new bin for the multi-edge witness", "why_tests_cant": "needs non-uniform bins", "anchors": ["magpie/one_d/one_d.py:rebin_1d"]}
{"id": "C37", "title": "rebin_1d_single_bin_weights disagrees with rebin_1d", "statement": "User expectation: weights from rebin_1d_single_bin_weights reproduce rebin_1d as a weighted mean. Violated when exactly one old edge falls in the new bin: the weights are stored one bin too high, and the call raises IndexError at the last interior or last edge. With no edge, the first edge only, or several but not all, the weights do reproduce rebin_1d for all data. Over all edges the weights are all one (the plain mean) while rebin_1d counts the last bin twice. NaN is returned exactly for a new bin beside the edges. A bin of no width on an interior edge has all weights zero (or raises on the last interior edge) where rebin_1d gives NaN. Without edges the weights function raises ValueError.", "quantifier": "all increasing edges, all new bins of each kind", "why_tests_cant": "all positions", "anchors": ["magpie/one_d/one_d.py:rebin_1d_single_bin_weights", "magpie/one_d/one_d.py:rebin_1d"]}
{"id": "C38", "title": "Error propagation of rebin_1d is not the identity on identical bins", "statement": "User expectation: rebinning onto the same edges returns sigma unchanged. Violated: with three bins or more the second bin's error becomes sqrt(s0^2+s1^2)/2 while all others are unchanged; with two bins it is a width-weighted combination; with one bin it is not finite.", "quantifier": "all strictly increasing edges, all non-negative errors, all numbers of bins", "why_tests_cant": "all grids", "anchors": ["magpie/one_d/one_d.py:rebin_1d"]}
{"id": "C39", "title": "grid2grid remapping weights are exact overlap fractions", "statement": "For each output pixel the kernel's weights are the fractions of the output pixel covered by each source cell, all entries needed fit in the advertised weight length, and they sum to the fraction of the output pixel inside the source domain (1 when fully inside).", "quantifier": "all grid sizes, extents, output pixels not lying inside the cell just left of the domain", "why_tests_cant": "all sizes; the buffer-length bound is an inequality over the reals", "anchors": ["magpie/src/remap_utils.f90:remap_1d_grid2grid_pixel", "magpie/src/remap_utils.f90:get_remap_pix_len", "magpie/src/remap_utils.f90:which_pix"]}
{"id": "C40", "title": "1-D grid remap is the exact cell average and conserves the integral", "statement": "grid2grid1D returns for each output cell the average of the piecewise-constant input over the cell (input extended by zero outside the domain); when the output grid covers the input domain with the same extent the integral is conserved; constants and bounds are preserved; identical grids give the identity; the map is linear.", "quantifier": "all grids and fields", "why_tests_cant": "all sizes", "anchors": ["magpie/remap/grid2grid.py:grid2grid1D", "magpie/src/remap_1d_grid2grid.f90:remap_1d_grid2grid"]}
{"id": "C41", "title": "2-D grid remap is the exact cell average and conserves the integral", "statement": "As C40 for grid2grid2D: value = sum of products of overlap fractions times input; total mass conserved for equal extents; constants, bounds, linearity.", "quantifier": "all grids and fields", "why_tests_cant": "all sizes", "anchors": ["magpie/remap/grid2grid.py:grid2grid2D", "magpie/src/remap_2d_grid2grid.f90:remap_2d_grid2grid", "magpie/src/remap_utils.f90:pix1dto2d"]}
{"id": "C42", "title": "3-D grid remap is the exact cell average and conserves the integral", "statement": "As C40 for grid2grid3D.", "quantifier": "all grids and fields", "why_tests_cant": "all sizes", "anchors": ["magpie/remap/grid2grid.py:grid2grid3D", "magpie/src/remap_3d_grid2grid.f90:remap_3d_grid2grid", "magpie/src/remap_utils.f90:pix1dto3d"]}
{"id": "C43", "title": "Output cells just below the source domain read uninitialised weights", "statement": "User expectation: output cells outside the source domain receive 0. Violated: if an output cell lies entirely within one cell width below the domain, neither indices nor weights are assigned and the result is whatever the buffers held before (previous cell's weights or arbitrary memory).", "quantifier": "all buffer contents; all such cells", "why_tests_cant": "depends on memory contents", "anchors": ["magpie/src/remap_utils.f90:remap_1d_grid2grid_pixel", "magpie/src/remap_1d_grid2grid.f90:remap_1d_grid2grid"]}
{"id": "C44", "title": "Default arguments of the grid2grid wrappers", "statement": "User expectation: boxsizeout defaults to the input box size, ngridout may be a list. Violated: grid2grid1D without boxsizeout raises TypeError always; grid2grid3D with a list ngridout raises ValueError always; 2-D works.", "quantifier": "all other arguments", "why_tests_cant": "all inputs fail", "anchors": ["magpie/remap/grid2grid.py:grid2grid1D", "magpie/remap/grid2grid.py:grid2grid3D"]}
{"id": "C45", "title": "Azimuthal averaging preserves constants and bounds", "statement": "polar2radial returns for each radius a weighted mean: between the min and max of the ring, equal to the constant for constant maps, non-finite exactly when the ring weights sum to zero; without weights the plain mean; the error estimate is non-negative and scales linearly in sigma.", "quantifier": "all maps, weights >= 0", "why_tests_cant": "all shapes", "anchors": ["magpie/polar/polar2radial.py:polar2radial"]}
{"id": "C46", "title": "Cumulative radial profile", "statement": "cumulative_radial returns one value per edge, starts at 0, is non-decreasing for non-negative profiles, its last value is the total area integral, and for f = 1 the k-th value is pi (r_k^2 - r_0^2).", "quantifier": "all edges, profiles", "why_tests_cant": "all lengths", "anchors": ["magpie/polar/radial.py:cumulative_radial"]}
{"id": "C47", "title": "randoms_1d always raises", "statement": "User expectation: randoms_1d returns size points in [xmin,xmax]. Violated: every call raises NameError (ValueError for a negative size).", "quantifier": "all arguments", "why_tests_cant": "total failure", "anchors": ["magpie/randoms/cart.py:randoms_1d"]}
{"id": "C48", "title": "randoms_2d and randoms_3d always raise", "statement": "User expectation: randoms_2d/randoms_3d return the requested number of points with mins <= x < maxs per axis. Violated: every call raises (NameError for a non-negative size and non-empty limits, ValueError for a negative size, IndexError for empty limits), whatever the draws.", "quantifier": "all draws, sizes and limits", "why_tests_cant": "total failure for all arguments", "anchors": ["magpie/randoms/cart.py:randoms_2d", "magpie/randoms/cart.py:randoms_3d"]}
{"id": "C49", "title": "Polar and spherical randoms are in range and inverse-CDF exact", "statement": "randoms_polar, randoms_sphere_r, randoms_sphere, randoms_usphere return points within the requested radial/angular limits, and the enclosed area/volume/solid-angle fraction of each coordinate equals its uniform draw. For any limits, negative ones included, a radius of randoms_sphere_r is the cube root of the interpolated cube and NaN exactly where that is negative.", "quantifier": "all draws, all ordered limits", "why_tests_cant": "all draws; distributional correctness", "anchors": ["magpie/randoms/polar.py:randoms_polar", "magpie/randoms/sphere.py:randoms_sphere_r", "magpie/randoms/sphere.py:randoms_sphere", "magpie/randoms/usphere.py:randoms_usphere"]}
{"id": "C50", "title": "pdf2cdf builds a proper CDF", "statement": "For non-negative pdf values with positive sum on uniform midpoints pdf2cdf yields a non-decreasing cdf from 0 to 1, at the bin edges, and the returned normalised pdf integrates to one; randoms_cdf rejects anything not spanning [0,1] and with linear interpolation returns values within the edges, non-decreasing in the draw; randoms_pdf (linear) puts exactly a draw interval of length pdf_j/sum(pdf) linearly into bin j and refuses an identically zero pdf.", "quantifier": "all pdfs of any length, all draws", "why_tests_cant": "all lengths", "anchors": ["magpie/randoms/pdf.py:pdf2cdf", "magpie/randoms/pdf.py:randoms_cdf", "magpie/randoms/pdf.py:randoms_pdf"]}
{"id": "C51", "title": "shuffle is a permutation, random_draw draws without replacement", "statement": "shuffle returns a permutation of its input; random_draw(sample,size) with 0 <= size < len returns size elements at pairwise distinct positions; size >= len is rejected; the drawn positions are those of the smallest sort keys. User expectation: a negative size is rejected. Violated: it is accepted and returns max(0,len+size) elements.", "quantifier": "all samples, all draws of sort keys", "why_tests_cant": "all lengths and draws", "anchors": ["magpie/randoms/subsample.py:shuffle", "magpie/randoms/subsample.py:random_draw"]}
{"id": "C52", "title": "random_prob_draw keeps exactly the elements whose draw is at most their probability", "statement": "With size=None the result is a rearrangement of exactly the elements whose draw is <= their probability: probability >= 1 is always kept, negative never. User expectation: probability 0 is never kept. Violated: it is kept when its draw is exactly 0. With a size (0 <= size < len, positive probabilities) the result is a rearrangement of the size elements with the smallest draw/probability ratios; size >= len and non-positive probabilities are rejected, and a single probability for all elements raises TypeError.", "quantifier": "all samples, probabilities, draws", "why_tests_cant": "all draws", "anchors": ["magpie/randoms/subsample.py:random_prob_draw"]}
{"id": "C53", "title": "Stochastic integer weights are unbiased", "statement": "stochastic_integer_weights returns floor or ceil of each weight, integers unchanged, and its expectation over a uniform draw equals the weight exactly; stochastic_binary_weights caps at 1 (so is 0/1 for non-negative weights) and has expectation min(w,1). Arrays behave entry by entry.", "quantifier": "all weights, all draws", "why_tests_cant": "distributional statement", "anchors": ["magpie/randoms/subsample.py:stochastic_integer_weights", "magpie/randoms/subsample.py:stochastic_binary_weights"]}
{"id": "C54", "title": "Basic shape outlines lie on their shape", "statement": "get_square returns `steps` points, a quarter of them equally spaced along each side from corner to corner in order, so all lie on the perimeter, all corners are visited and successive points share a coordinate; get_arc returns `steps` points at equally spaced angles at distance |r| from the centre, closing for a full circle; get_disc points lie on the two arcs or two radial sides of the segment; step counts that are not positive multiples of 4 are rejected.", "quantifier": "all limits, all step counts", "why_tests_cant": "all steps", "anchors": ["magpie/pixel/basic_shapes.py:get_square", "magpie/pixel/basic_shapes.py:get_arc", "magpie/pixel/basic_shapes.py:get_disc"]}
{"id": "C55", "title": "get_box draws exactly the twelve edges, and hidden-edge removal is sound but incomplete", "statement": "get_box returns each of the twelve edges exactly once, sampled from end to end; with return_nearest every removed edge is really hidden behind the box (all its inner points), everything is removed when the view point is inside. User expectation: only visible edges are kept. Violated: the line of sight is only tested at 100 samples, so from 98 box lengths away nothing is ever removed, e.g. the unit cube seen from (-98,-98,-98).", "quantifier": "all boxes, step counts and view points; witness for kept hidden edges", "why_tests_cant": "all view points", "anchors": ["magpie/pixel/basic_shapes.py:get_box"]}
{"id": "C56", "title": "is_pos_monotonic characterises non-decreasing arrays", "statement": "is_pos_monotonic returns true exactly when the array is non-decreasing (for all pairs i<=j); repeated edges are therefore accepted.", "quantifier": "all arrays", "why_tests_cant": "all lengths", "anchors": ["magpie/utils/check.py:is_pos_monotonic"]}
{"id": "C57", "title": "progress_bar lines are well-formed and end exactly once", "statement": "For every loop length, bar length and refresh count: the drawn bar shows floor((index+1)*bar_length/length) done markers and has constant width, it is full exactly at the last index, exactly one newline is written over the loop (the last character at the last index), and something is printed at between min(num_refresh,length) and 2*min(num_refresh,length)-1 indices. User expectation (docstring): num_refresh is the number of refreshes. Violated: 99 steps with num_refresh 50 print 99 times. A zero length or refresh count raises ZeroDivisionError.", "quantifier": "all lengths, indices", "why_tests_cant": "all loops", "anchors": ["magpie/utils/progress.py:progress_bar"]}
{"id": "C58", "title": "Dense Box2Ring remap is an area-weighted mean of map samples", "statement": "With equal radial and angular refinement factors b, every polar cell of the remapped map is the ring-area-weighted mean of the map values at the b by b refined bin centres, where points outside the box count as 0; so cell values stay within the range of the map (extended by 0 where the cell leaves the box), constants are reproduced when the circle lies in the box, and get_mask_in_bound is the covered fraction. A weight map gives the weighted mean, NaN where the weights cancel. Different refinement factors make every remap raise ValueError; a single radial or angular bin makes the set-up raise IndexError.", "quantifier": "all maps, boxes, polar grids and refinement factors", "why_tests_cant": "holds for all sizes and real coordinates; the tests cannot enumerate grids", "anchors": ["magpie/densegrid/box2ring.py:Box2Ring.setup_box", "magpie/densegrid/box2ring.py:Box2Ring.setup_polar", "magpie/densegrid/box2ring.py:Box2Ring.remap", "magpie/densegrid/box2ring.py:Box2Ring.get_mask_in_bound"]}
{"id": "C59", "title": "Dense Box2Ring.polar2radial and the caller's weights", "statement": "User expectation: calling polar2radial twice with the same arguments gives the same profile. Violated: as soon as one polar cell is completely outside the box, each call multiplies the caller's weight array by the mask in place, so the second call averages with other weights; partly covered cells contribute nothing to the sum but do count in the normalisation. Without such a cell, or without weights, calls are repeatable. The error of a ring is the error of that weighted mean with each cell's error divided by the square root of the number of pixels in its area; errors of partly covered cells are left out when something is masked.", "quantifier": "all maps, weights, boxes and polar grids", "why_tests_cant": "depends on the history of calls sharing one array", "anchors": ["magpie/densegrid/box2ring.py:Box2Ring.polar2radial"]}
{"id": "C65", "title": "Re-using a dense Box2Ring object keeps the old mask", "statement": "User expectation: after setting the object up again, polar2radial behaves as on a new object. Violated: mask_in_bound and pixarea are cached on the first call and never cleared by setup_box or setup_polar, so later profiles are computed with the mask of the first set-up.", "quantifier": "all pairs of set-ups with the same number of bins, all maps", "why_tests_cant": "depends on the history of the object", "anchors": ["magpie/densegrid/box2ring.py:Box2Ring.polar2radial", "magpie/densegrid/box2ring.py:Box2Ring.setup_box", "magpie/densegrid/box2ring.py:Box2Ring.setup_polar"]}
{"id": "C60", "title": "Heal2Ortho remap multiplies the map by the refinement factor", "statement": "User expectation: remapping a constant sky returns that constant. Violated: every cell of an unweighted remap is the refinement factor (rebin) times the mean of the sky over the visible sample positions of the cell, so a constant 1 comes back as 2 with the default refinement of 2. A remap with a weight map is the correct weighted mean over the visible samples. Cells whose centre is off the sphere are NaN; different refinement factors in x and y raise ValueError; a single row or column raises IndexError.", "quantifier": "all maps, weights, picture sizes, centres, radii and refinement factors, any ang2pix", "why_tests_cant": "all sizes and sky maps", "anchors": ["magpie/densegrid/heal2ortho.py:Heal2Ortho.remap", "magpie/densegrid/heal2ortho.py:Heal2Ortho.setup_box"]}
{"id": "C61", "title": "PointOfView transform/reverse", "statement": "For every camera looking at a target, transform is perspective projection in the (unique) upright frame that looks at the target. Without spin, reverse undoes transform for points in front of the camera and returns the mirror image for points behind it. User expectation: the same holds with a spin. Violated: with any non-zero spin reverse raises (the negated spin is rejected), so no round trip is possible.", "quantifier": "all points and view parameters", "why_tests_cant": "continuum", "anchors": ["magpie/densegrid/pointofview.py:PointOfView.transform", "magpie/densegrid/pointofview.py:PointOfView.reverse", "magpie/densegrid/pointofview.py:PointOfView.setup"]}
{"id": "C66", "title": "Heal2Ortho.transform agrees with the picture", "statement": "Heal2Ortho.transform(phi, theta) gives the east and north components of the direction about the picture centre, and NaN for directions on the far side. The sky direction painted at (x, y) is unique and is reported by transform at (x, y)/radius. User expectation: transformed catalogue positions line up with the remapped picture. Violated for radius != 1 (transform ignores it) and, in exact arithmetic, for a centre at the south pole (every direction gives NaN). For arrays transform works element by element. User expectation: the caller's arrays are left alone. Violated: the array of longitudes is overwritten with shifted values, so projecting the same catalogue again gives other positions.", "quantifier": "all directions, centres and radii", "why_tests_cant": "continuum", "anchors": ["magpie/densegrid/heal2ortho.py:Heal2Ortho.transform", "magpie/densegrid/heal2ortho.py:Heal2Ortho.setup_box"]}
{"id": "C62", "title": "Dense Cube2Shell samples the transposed cube", "statement": "User expectation: densegrid Cube2Shell.remap of a field tabulated on the object's own x3d, y3d, z3d arrays samples it at matching coordinates. Violated: x and y are exchanged (with equal voxel counts the sample in voxel (i,j,k) receives the field at the centre (x_j, y_i, z_k)), and with different counts a sample beyond the shorter axis raises IndexError. For an array indexed [x,y,z] the result is right: each output pixel is the volume-weighted mean over the refined shells of its bin of the down-graded shell, whose pixels hold the value of the voxel containing the pixel centre (for the last periodic image inside the cube, 0 outside); constants are preserved when every sample is inside. A single radial bin raises IndexError; all other sensible arguments of setup_polar are accepted, all others refused with AssertionError.", "quantifier": "all cubes, voxel counts, centres, shells, refinements, images and fields; every healpy pix2ang and ud_grade", "why_tests_cant": "The exchange is invisible for square symmetric test fields; the statement is over all sizes, centres and refinements.", "anchors": ["magpie/densegrid/cube2shell.py:Cube2Shell.remap", "magpie/densegrid/cube2shell.py:Cube2Shell.setup_polar", "magpie/densegrid/cube2shell.py:Cube2Shell.setup_cube"]}
{"id": "C63", "title": "Monte-Carlo remap of a box is a mean over samples, when it runs at all", "statement": "For montecarlo Box2Ring: each polar cell is sampled at mc_size points, all inside the cell; whenever set-up, get_weights and remap succeed, each cell of the result is the (weighted) mean of the map over the pixels containing the in-box samples, so constants are kept, bounds are respected and a cell is NaN exactly when none of its samples is in the box. User expectation: the calls succeed for every grid inside the box. Violated: the lists of sampled pixels are stored in an object array, and when every cell touches the same non-zero number of pixels numpy makes a three-dimensional array and remap raises IndexError; when only some row has equal counts get_weights raises ValueError. A grid inside a one-pixel box always fails. A box of zero width along an axis is sampled as a box of width 1 around it.", "quantifier": "all boxes, linear and logarithmic polar grids, maps, weights and draws", "why_tests_cant": "The failure depends on the coincidence of sample counts, which seeded tests may never meet; the mean property is over all draws.", "anchors": ["magpie/montecarlo/box2ring.py:Box2Ring.remap", "magpie/montecarlo/box2ring.py:Box2Ring.get_weights", "magpie/montecarlo/box2ring.py:Box2Ring.setup_polar_lin"]}
{"id": "C67", "title": "Logarithmic radial bins of the Monte-Carlo rings", "statement": "montecarlo Box2Ring.setup_polar_log makes numr bins with increasing edges: without addzero a geometric progression from rmin to rmax; with addzero and numr >= 2 a bin [0, rmin] followed by a geometric progression from rmin to rmax. User expectation: the bins always reach rmax. Violated: with addzero (the default) and numr = 1 the single bin is [0, rmin] and rmax is ignored.", "quantifier": "all 0 < rmin < rmax, bin counts and angular ranges", "why_tests_cant": "Ratios are real-number identities over all limits; the degenerate case is a default argument combination.", "anchors": ["magpie/montecarlo/box2ring.py:Box2Ring.setup_polar_log"]}
{"id": "C68", "title": "Monte-Carlo mask marks cells that touch the box", "statement": "Whenever montecarlo Box2Ring.get_mask_in_bound succeeds, the mask is 1 on the cells with at least one sample in the box and 0 on the others. User expectation: 1 means the cell remains inside the box. Violated: a cell half of whose samples are outside is marked 1.", "quantifier": "all boxes, polar grids and draws", "why_tests_cant": "The claim ranges over all draws of the samples.", "anchors": ["magpie/montecarlo/box2ring.py:Box2Ring.get_mask_in_bound"]}
{"id": "C64", "title": "Advertised HEALPix ring/polar remappers cannot run", "statement": "User expectation: Heal2Ring and Heal2Polar (dense and Monte-Carlo) remap a HEALPix map, and Heal2Ring rotates and averages it. Violated: for every argument and every answer of healpy no dense set-up and remap returns a result, because coords.sky_area does not exist (AttributeError); Monte-Carlo get_weights raises AttributeError (randoms.randoms_sky does not exist), so remap raises TypeError, or AssertionError for any weight map when nside is a Python int, since a shape tuple is compared with an int; polar2radial raises AttributeError and rotate_polar TypeError.", "quantifier": "all set-up arguments, maps, weights and answers of healpy", "why_tests_cant": "Total failure for all arguments; the classes are not exercised by the tests of the package.", "anchors": ["magpie/densegrid/heal2ring.py:Heal2Ring.remap", "magpie/densegrid/heal2polar.py:Heal2Polar.remap", "magpie/montecarlo/heal2ring.py:Heal2Ring.get_weights", "magpie/montecarlo/heal2ring.py:Heal2Ring.remap", "magpie/montecarlo/heal2polar.py:Heal2Polar.get_weights", "magpie/montecarlo/heal2polar.py:Heal2Polar.remap"]}
{"id": "C70", "title": "Monte-Carlo radial profile", "statement": "montecarlo Box2Ring.polar2radial on a freshly prepared object returns for every ring the (weighted) mean over the polar cells that have a sample in the box, NaN if such a cell has no value or the weights add up to zero, and the error propagated from independent cell errors; on a remapped map this is the average of the finite cells, stays within the range of the box map and reproduces constants; the caller's weights are set to zero outside the box, which does not change a repeated call. User expectation: the profile belongs to the current box, polar grid and weights. Violated: every later call uses the stored mask and areas of the first.", "quantifier": "all boxes, polar grids, draws, maps (with NaN), errors and weights, sequences of calls", "why_tests_cant": "Ranges over all draws and NaN patterns; the stale state shows only over a sequence of calls.", "anchors": ["magpie/montecarlo/box2ring.py:Box2Ring.polar2radial", "magpie/montecarlo/box2ring.py:Box2Ring.remap", "magpie/montecarlo/box2ring.py:Box2Ring.get_mask_in_bound"]}
{"id": "C69", "title": "Monte-Carlo shells of a cube are means over samples, when they can be computed", "statement": "For montecarlo Cube2Shell: every pixel of every shell is sampled at mc_size points between the radii of the shell (volume fraction equal to the draw) in directions of the pixel's diamond drawn evenly over its area; whenever set-up, get_weights and remap succeed, each pixel of the result is the (weighted) mean of the map, indexed [y, x, z], over the voxels containing the in-cube samples, hp.UNSEEN exactly when no sample is in the cube, so constants are kept and bounds respected; a field tabulated on the object's own x3d, y3d, z3d gives the mean of the field at the voxel middles. User expectation: the calls succeed for shells inside the cube. Violated: equal numbers of sampled voxels make remap raise IndexError or get_weights ValueError (a one-voxel cube always fails). User expectation: the array layout is the one of the dense Cube2Shell. Violated: an array with the x axis first is read with x and y exchanged. The shape of the map is never checked. A cube of zero width along an axis is sampled as one of width 1 around it.", "quantifier": "all cubes, linear and logarithmic shells, nside >= 1, numbers of samples, draws, maps and weights", "why_tests_cant": "The failures depend on coincidences of sample counts and on the array layout (invisible on symmetric inputs); the mean property is over all draws.", "anchors": ["magpie/montecarlo/cube2shell.py:Cube2Shell.remap", "magpie/montecarlo/cube2shell.py:Cube2Shell.get_weights", "magpie/montecarlo/cube2shell.py:Cube2Shell.setup_polar_lin", "magpie/montecarlo/cube2shell.py:Cube2Shell.setup_polar_log"]}
{"id": "C71", "title": "Neighbour index sets around a pixel", "statement": "For nside >= 2 healpix_ijs_neighbours is expected to return the first and the second star indices of the pixels that touch the given pixel (have a corner in common on the sphere). It does, for every pixel except those on the left edges of the four north polar faces and on the last two diagonals before phi = 0; both arrays are always strictly increasing. User expectation: it does so for every pixel. Violated: on the left edge of a north polar face (the polar pixel excepted) the index of a neighbour across the edge is always missing (offset by one); on the last two diagonals before the seam a neighbour beyond the seam is missing from one of the arrays (wrap-around test off by one), with exactly two exceptions; at nside = 1 exactly eight of the twelve pixels have the right sets, and an index that belongs to no pixel is returned.", "quantifier": "all nside >= 1, all pixels", "why_tests_cant": "The statement compares index arithmetic in nine branches with contact on the sphere for every nside; the test of the package only checks that the call returns.", "anchors": ["magpie/pixel/healpix_index.py:healpix_ijs_neighbours"]}
{"id": "C72", "title": "HEALPix ring and box grids: accepted arguments and sampled directions", "statement": "setup_polar_cap (Heal2Ring) and setup_box (Heal2Polar) accept exactly the documented ranges with at least two rings and sectors (rows and columns), and lay out equal cells. Every fine cell of Heal2Ring and Heal2Polar looks up the pixel of the direction obtained by rotating the cell's polar (or longitude-latitude) position by the shift, then to the centre: the angular distance from the centre is exactly the cell's radius, the box of Heal2Polar is a longitude-latitude patch turned by alpha about its middle. With a healpy that answers for every sky position the set-up succeeds for every centre with 0 <= phi < 2pi and 0 <= theta < pi (boxes: <= pi), 0 <= shift < 2pi. User expectation: every documented argument works. Violated: a ring centred on the exact south pole has no defined directions (ValueError in exact arithmetic), a phi of the centre or a shift of exactly 2pi is refused, and a single ring or sector raises IndexError.", "quantifier": "all radii, angles, centres, shifts, grid sizes, refinements and pixel look-ups", "why_tests_cant": "Sampled directions are a composition of two rotations of a continuum of positions; the tests compare nothing with the geometry.", "anchors": ["magpie/densegrid/heal2ring.py:Heal2Ring.setup_polar_cap", "magpie/densegrid/heal2polar.py:Heal2Polar.setup_box"]}
{"id": "C73", "title": "Errors of rebinned values", "statement": "rebin_1d with errors returns one error per new bin: NaN exactly when the new bin has no length, shares no length with the old bins, or covers a single old bin symmetrically. The error is that of the mean over the covered parts of independent bins whenever at most one old edge lies in the new bin (any bin widths), and, for several edges, when the new bin ends before the last edge, starts at the third or a later edge or not after the first, and the bins around its last edge are equally wide. User expectation: it always is. Violated: in all other cases with several edges the exact result is another combination (the bin the new bin starts in is dropped, or bin 0 taken whole; a new bin over all edges counts the last bin twice; lengths beyond the last edge count). User expectation: unit weights change nothing and weighting still reduces errors. Violated: with weights the error is a quotient of two errors, and equal errors c always give exactly c, however many bins are averaged.", "quantifier": "all increasing edges, new bins, errors and weights", "why_tests_cant": "Equalities of real-valued error formulas over all edges and positions of the new bin; the tests compare single cases.", "anchors": ["magpie/one_d/one_d.py:rebin_1d", "magpie/one_d/one_d.py:_rebin_1d_single_bin_sigma"]}
{"id": "C74", "title": "Orthographic plotting helpers", "statement": "PlotOrtho.plot_grid with positive spacings draws floor(360/dphi) meridians and floor(180/dtheta) parallels at equal angles, every point at the orthographic projection of its direction (nothing on the far side); dphi = 0 raises ZeroDivisionError and -180 <= dphi < 0 ValueError. plot_labels(onsphere=True) writes exactly the grid angles in degrees at the projected, shifted positions that are visible and inside the frame. finalize(outeredge=False) and imshow use the frame of the map, with x reversed when seen from inside. User expectation: lines are dphi degrees apart. Violated unless dphi divides 360 (dphi = 100 gives 120). User expectation: the other helpers draw something. Violated for all arguments: plot_box, plot_circle, plot_polar_box and finalize with its default outer edge raise NameError, plot_labels with its default arguments never returns (AttributeError).", "quantifier": "all centres other than the south pole, spacings, frames, zero-points and shifts", "why_tests_cant": "Needs a figure back-end and equalities over all spacings; total failures for all arguments.", "anchors": ["magpie/plots/ortho.py:PlotOrtho.plot_grid", "magpie/plots/ortho.py:PlotOrtho.plot_labels", "magpie/plots/ortho.py:PlotOrtho.plot_polar_box", "magpie/plots/ortho.py:PlotOrtho.finalize", "magpie/plots/shapes.py:plot_box", "magpie/plots/shapes.py:plot_circle"]}
{"id": "C75", "title": "Box2Ring over arbitrary sequences of calls", "statement": "For every sequence of method calls on a densegrid Box2Ring object, successful or raising: remap uses exactly the last successful setup_box and the last successful setup_polar since the last clean, raises TypeError if there is none, and changes nothing; clean makes the object as new for every later sequence; calls refused by assertions (other than polar2radial) change nothing; the stored mask, pixel area and cell areas were computed from a box and rings in force at an earlier point since the last clean; after clean and both set-ups polar2radial is that of a new object. The edges stored are those of the last setup_polar with sensible arguments since the last clean. Methods called without what they need raise a definite exception: get_mask_in_bound and rotate_polar AssertionError, polar2radial TypeError without a box or edges and AssertionError with edges but no rings or for a map of another shape. User expectation: a call that raises leaves the object as it was. Violated: setup_polar with a single ring or sector raises IndexError after replacing redges and pedges, while remap goes on with the old rings; a polar2radial refused because of the shape of the map fixes the pixel area of the current box for later profiles.", "quantifier": "all sequences of calls with all arguments", "why_tests_cant": "A property of all call histories including failing calls; unit tests exercise single calls on new objects.", "anchors": ["magpie/densegrid/box2ring.py:Box2Ring.setup_polar", "magpie/densegrid/box2ring.py:Box2Ring.setup_box", "magpie/densegrid/box2ring.py:Box2Ring.remap", "magpie/densegrid/box2ring.py:Box2Ring.polar2radial", "magpie/densegrid/box2ring.py:Box2Ring.clean"]}
{"id": "C76", "title": "Monte Carlo Box2Ring over arbitrary sequences of calls", "statement": "For every sequence of method calls on a montecarlo Box2Ring object, successful or raising: clean makes the object as new for every later sequence; the stored weights are those of the last successful get_weights since the last clean and were made for the box and rings in force at that call; remap returns only with such weights and otherwise raises; after both set-ups in either order and get_weights, remap is that of a new object whatever was called before, and after clean so is polar2radial; stored mask, pixel area and cell areas were computed from what the object held at an earlier point since the last clean; refused calls other than polar2radial and single-ring or single-sector set-ups change nothing. The edges stored are those of the last set-up of rings with sensible arguments, linear or logarithmic, since the last clean. Methods called without what they need raise a definite exception (TypeError or AssertionError, stated for each) without changing the object. User expectation: remap uses the rings and the box set up last. Violated: new rings or a new box of the same numbers of bins are silently ignored until get_weights is called again. User expectation: a set-up that raises leaves the object usable. Violated: a linear set-up with one ring or one sector raises IndexError after replacing the edges, and get_weights then raises IndexError for the old rings.", "quantifier": "all sequences of calls with all arguments and all draws", "why_tests_cant": "A property of all call histories including failing calls and of all random draws; unit tests exercise single calls on new objects.", "anchors": ["magpie/montecarlo/box2ring.py:Box2Ring.setup_polar_lin", "magpie/montecarlo/box2ring.py:Box2Ring.setup_polar_log", "magpie/montecarlo/box2ring.py:Box2Ring.setup_box", "magpie/montecarlo/box2ring.py:Box2Ring.get_weights", "magpie/montecarlo/box2ring.py:Box2Ring.remap", "magpie/montecarlo/box2ring.py:Box2Ring.polar2radial", "magpie/montecarlo/box2ring.py:Box2Ring.clean"]}
{"id": "C77", "title": "Dense Cube2Shell over arbitrary sequences of calls", "statement": "For every sequence of method calls on a densegrid Cube2Shell object, successful or raising: remap uses exactly the last cube and the last shells set up since the last clean, with the images of the centre placed by the cube in force when the shells were set up, and changes nothing; it raises TypeError if no setup_polar has succeeded since the last clean; clean makes the object as new for every later sequence; calls refused by assertions change nothing; replacing the cube by one with the same side lengths gives the same maps as setting up the shells again. User expectation: after a new setup_cube the periodic images of the centre are those of the new cube. Violated: with other side lengths remap keeps the old images (a map of ones comes back as zeros) until setup_polar is repeated. User expectation: a set-up that raises leaves the object as it was. Violated: setup_cube with numz = 0 raises IndexError and turns every later map into that of a zero field, with numz = -1 every later remap raises IndexError, with numz <= -2 the old voxels are moved to the new x and y corner; setup_polar with one shell raises IndexError and every map that could be remapped before raises ValueError.", "quantifier": "all sequences of calls with all arguments, all answers of healpy", "why_tests_cant": "A property of all call histories including failing calls; unit tests exercise single calls on new objects.", "anchors": ["magpie/densegrid/cube2shell.py:Cube2Shell.setup_cube", "magpie/densegrid/cube2shell.py:Cube2Shell.setup_polar", "magpie/densegrid/cube2shell.py:Cube2Shell.remap", "magpie/densegrid/cube2shell.py:Cube2Shell.clean"]}
{"id": "C78", "title": "Monte Carlo Cube2Shell over arbitrary sequences of calls", "statement": "For every sequence of method calls on a montecarlo Cube2Shell object, successful or raising: get_weights samples exactly the last cube and the last shells set up since the last clean; remap uses the weights of the last successful get_weights since the last clean and changes nothing, and raises TypeError if there is none; clean makes the object as new for every later sequence; calls refused by assertions and calls of get_weights that raise change nothing; after any history, set-ups in either order, get_weights and any remaps give the map of a new object. Without radii get_weights and remap raise TypeError; a setup_cube with no cells along z raises ValueError or IndexError and leaves its other edges behind. User expectation: remap uses the grids set up last. Violated: every setup_cube, successful or not, is ignored by remap until get_weights is repeated (a cube moved away from the shell still gives its old values, though no sample is in it), and new shells of the same nside are ignored but for their number. User expectation: a set-up that raises leaves the object as it was. Violated: setup_polar_lin with one shell raises IndexError, after which remap returns only the first shell of the old map and get_weights samples the new shell around the old centre.", "quantifier": "all sequences of calls with all arguments, all draws of the random numbers", "why_tests_cant": "A property of all call histories including failing calls and of all random draws; unit tests exercise single calls on new objects.", "anchors": ["magpie/montecarlo/cube2shell.py:Cube2Shell.setup_cube", "magpie/montecarlo/cube2shell.py:Cube2Shell.setup_polar_lin", "magpie/montecarlo/cube2shell.py:Cube2Shell.setup_polar_log", "magpie/montecarlo/cube2shell.py:Cube2Shell.get_weights", "magpie/montecarlo/cube2shell.py:Cube2Shell.remap", "magpie/montecarlo/cube2shell.py:Cube2Shell.clean"]}
{"id": "C79", "title": "Heal2Ortho over arbitrary sequences of calls", "statement": "For every sequence of method calls on a densegrid Heal2Ortho object, successful or raising: remap uses exactly the last setup_box since the last clean, with pixels of the nside in force at that call, and changes nothing; transform uses the centre of the last setup_box with an acceptable grid; without one remap and transform raise; clean makes the object as new; refused setup_map calls and setup_box calls with an unacceptable grid change nothing. User expectation: after setup_map the maps of the new nside are shown. Violated: remap goes on to look up the pixels of the old nside until setup_box is repeated (a map with nside 2 shows pixel 5 instead of 20). User expectation: a setup_box that raises leaves the object as it was. Violated: a centre off the sky raises AssertionError, after which transform always raises, remap raises ValueError if the number of refined cells changed and paints the old picture if only the centre changed; setup_box before setup_map raises, a later setup_map does not repair it, and a map with as many pixels as there are refined cells is then painted silently, pixel after pixel.", "quantifier": "all sequences of calls with all arguments, all answers of healpy", "why_tests_cant": "A property of all call histories including failing calls; unit tests exercise single calls on new objects.", "anchors": ["magpie/densegrid/heal2ortho.py:Heal2Ortho.setup_map", "magpie/densegrid/heal2ortho.py:Heal2Ortho.setup_box", "magpie/densegrid/heal2ortho.py:Heal2Ortho.remap", "magpie/densegrid/heal2ortho.py:Heal2Ortho.transform", "magpie/densegrid/heal2ortho.py:Heal2Ortho.clean"]}
{"id": "C80", "title": "Polar and spherical coordinates in double precision", "statement": "In IEEE double precision, for all finite inputs of moderate size: the longitude of cart2polar and cart2sphere is finite, within [0, 2 pi] and off by at most 2^-51 from the wrapped angle, hence (the double 2 pi being below the real number) within [0, 2 pi) of the real numbers and within 2^-50 of the true direction plus the error of the library's arctan2; the distances of cart2polar and cart2sphere are within a relative 2^-50 of the exact distance, and that of cart2sphere is at least every coordinate difference, so the colatitude is never NaN and within [0, pi]; at the centre the colatitude is 0; the height of ortho2cart is between 0 and the radius, or the fill value. User expectation: longitudes are below the double 2*np.pi. Violated: exactly the directions at most 2^-51 below the axis get the double 2 pi. User expectation: the colatitude is a number for every point off the centre. Violated closer than about 1e-161 to the centre (NaN) and beyond about 1e154 (infinite distance, a point on the pole gets the colatitude of the equator).", "quantifier": "all doubles within the stated sizes, all functions arctan2 and arccos that respect their ranges", "why_tests_cant": "Rounding errors depend on the particular doubles; no set of tests covers the 2^64 values of each argument.", "anchors": ["magpie/coords/conversions.py:cart2polar", "magpie/coords/conversions.py:cart2sphere", "magpie/coords/conversions.py:ortho2cart"]}
{"id": "C81", "title": "Shifted longitudes in double precision", "statement": "In IEEE double precision usphere_phi_shift of any longitude within [0, 2 pi] is accepted exactly for finite shifts strictly between -2 pi and 2 pi and otherwise raises AssertionError; the result is finite, within [0, 2 pi], and within 2^-50 of the exact sum modulo the double 2 pi and 2^-49 modulo the real 2 pi; arrays are shifted element by element like scalars; after any number n of shifts the longitude is still within the range and has drifted by at most n 2^-50 (n 2^-49 against the real 2 pi).", "quantifier": "all doubles, all arrays, all sequences of shifts", "why_tests_cant": "Rounding at the wrap-around and accumulated drift depend on the particular doubles and on the number of shifts.", "anchors": ["magpie/coords/usphere.py:usphere_phi_shift"]}
{"id": "C82", "title": "Random positions in double precision", "statement": "In IEEE double precision, for all doubles drawn from [0, 1): longitudes of randoms_polar and randoms_usphere are finite and between their limits, in either order; drawn from 0 upwards they are strictly below the upper limit; radii of randoms_polar are between their limits, for limits that are zero or between 2^-511 and 2^511; colatitudes of randoms_usphere are never NaN and within [0, pi] for every pair of limits, and their cosine before arccos is between the cosines of the limits. User expectation: the upper limit itself is never drawn. Violated: limits 1 and 2 with the largest draw give exactly 2. User expectation: radii keep to their limits at every scale. Violated: below about 1e-161 they come out too small and from 2^512 on infinite.", "quantifier": "all doubles within the stated sizes, all draws, all functions cos and arccos that respect their ranges", "why_tests_cant": "Whether a rounded interpolation leaves its interval depends on the particular doubles; a sampled test cannot show that no draw does.", "anchors": ["magpie/randoms/polar.py:randoms_polar", "magpie/randoms/usphere.py:randoms_usphere"]}
{"id": "C83", "title": "PointOfView over arbitrary sequences of calls", "statement": "For every sequence of setup, transform, reverse and clean calls on a PointOfView object, successful or raising, and of changes the caller makes to the lists passed in: transform shows the view of the last successful setup since the last clean, carried to where the camera list now is; as long as the camera list is left alone this is the view of that setup, whatever happens to the target list; clean makes the object as new; transform and reverse change nothing and the caller's lists are never changed; without a setup transform and reverse raise TypeError; lists with fewer than three entries raise IndexError. User expectation: the view belongs to the setup. Violated: changing the list given as camera moves the camera without aiming it again, so the target leaves the middle of the picture. User expectation: a setup that raises leaves the object as it was. Violated: the object then has camera and display of the refused setup with direction and spin of the old one.", "quantifier": "all sequences of calls with all arguments, all changes of the caller's lists", "why_tests_cant": "A property of all call histories and of sharing between caller and object; unit tests exercise single calls on new objects with lists nobody else holds.", "anchors": ["magpie/densegrid/pointofview.py:PointOfView.setup", "magpie/densegrid/pointofview.py:PointOfView.transform", "magpie/densegrid/pointofview.py:PointOfView.reverse", "magpie/densegrid/pointofview.py:PointOfView.clean"]}
{"id": "C84", "title": "HEALPix ring and polar remappers over arbitrary sequences of calls", "statement": "User expectation: some order of set-up calls makes Heal2Ring and Heal2Polar (dense and Monte-Carlo) work. Violated: for every sequence of method calls, successful or raising, with every argument and every answer of healpy, no call of get_weights, remap, rotate_polar or polar2radial ever returns a value, and none of them leaves a trace on the object; polar2radial raises AttributeError once acceptable set-up arguments were given since the last clean, and TypeError before; which exception get_weights, remap and rotate_polar raise is also determined by the history (AttributeError, TypeError, ValueError or AssertionError). Set-up calls themselves are reliable: whatever was called before, they succeed or raise exactly as on a new object with the nside in force; clean makes the object as new.", "quantifier": "all sequences of calls with all arguments (positive refinements), all answers of healpy", "why_tests_cant": "That no order of calls whatsoever produces a result is a statement about infinitely many call histories, including stale attributes left by failed set-ups.", "anchors": ["magpie/densegrid/heal2ring.py:Heal2Ring", "magpie/densegrid/heal2polar.py:Heal2Polar", "magpie/montecarlo/heal2ring.py:Heal2Ring", "magpie/montecarlo/heal2polar.py:Heal2Polar"]}
{"id": "C85", "title": "Grid edges and mid-points in double precision", "statement": "In IEEE double precision the edges of get_xedges for 1 to 2^50 cells start exactly at xmin, end exactly at the rounded xmin + length, never decrease, and are within 2^-49 of the largest coordinate of the exact edges; mid-points of grid1d are finite and between the edges of their cell, so all are inside the box and in order; cells wider than 2^-48 of the largest coordinate have distinct edges; the azimuths of polargrid over the full circle are within [0, 2 pi] and the radii between rmin and the rounded rmin + (rmax - rmin). Zero cells give the single edge xmin and no mid-points, cell counts below -1 raise ValueError. User expectation: n cells of a box of positive length are n different cells. Violated: of eight cells of [2^53, 2^53 + 4] the first has width zero.", "quantifier": "all finite xmin and non-negative lengths up to 2^1020 whose rounded box is empty or wider than 2^-960, all cell counts up to 2^50", "why_tests_cant": "The order of rounded edges depends on xmin, length and the number of cells together; tests check a few round numbers.", "anchors": ["magpie/grids/cartesian.py:get_xedges", "magpie/grids/cartesian.py:xedges2mid", "magpie/grids/cartesian.py:grid1d", "magpie/grids/polar.py:polargrid"]}
{"id": "C86", "title": "Plane and star indices and pixel centres in double precision", "statement": "In IEEE double precision, for every nside up to 2^48 and every ring position, healpix_i2id, healpix_j2jd and healpix_ijd2ijs return exactly what exact arithmetic gives, and healpix_ijs2ijd and healpix_ijd2ijs are exact inverses on star indices; for every nside up to 27397078 and every pixel the centre computed by healpix_pix2xy is within 2^-48 of the true centre (with the real number pi), strictly inside its own pixel and in no other, with 0 <= x < 2 pi and |y| < pi/2.", "quantifier": "all nside in the stated ranges, all pixels", "why_tests_cant": "The pixels number up to 9 10^15; a rounding error in one division or floor would misplace single pixels only.", "anchors": ["magpie/pixel/healpix_index.py:healpix_i2id", "magpie/pixel/healpix_index.py:healpix_j2jd", "magpie/pixel/healpix_index.py:healpix_ijd2ijs", "magpie/pixel/healpix_index.py:healpix_ijs2ijd", "magpie/pixel/healpix_index.py:healpix_pix2xy"]}
{"id": "C87", "title": "Random radii of a shell in double precision", "statement": "With any pow accurate to one unit in the last place, every radius drawn by randoms_sphere_r for r_min <= r_max (zero or between 2^-300 and 2^300) is finite and keeps to the shell up to a relative 2^-43. User expectation: no radius is below r_min. Violated: for every shell with r_min >= 1000 the draw 0 gives a radius strictly below r_min, because 1./3. is rounded down.", "quantifier": "all radii in the stated range, all draws in [0,1), all pow functions accurate to 2^-52", "why_tests_cant": "The offending draw has probability 2^-53, so no test hits it; the sign of the error depends on the rounding of 1/3.", "anchors": ["magpie/randoms/sphere.py:randoms_sphere_r"]}
{"id": "C88", "title": "Dense averages and masks in double precision", "statement": "With edges of moderate size and any order of summation, every cell of densegrid.Box2Ring.remap whose samples are finite and at most M is finite and within (b + 1 + K) 2^-49 M of the exactly area-weighted mean of its samples (b: refinement, K: largest ratio of a refined ring's outer radius to its width). A cell whose samples all hold k is within (b + 1) 2^-49 |k| of k. mask_in_bound never leaves [0, 1], is exactly 1 for cells inside the box, exactly 0 for cells outside, and otherwise the area fraction up to (b + 1 + K) 2^-49. For every edges at all no cell of mask_in_bound is infinite or NaN: where the remapped ones are, it is 0. User expectation: a constant map is remapped to exactly the same constant. Violated: a map of 0.1 gives 0.10000000000000002 in the ring from 1 to 2.", "quantifier": "all numbers of cells, refinements up to 2^20, all edges and values in the stated ranges, all orders of summation", "why_tests_cant": "The comparison mask == 1, common in user code, is right only if no combination of edges, refinement and summation order rounds the quotient below 1; tests see a handful of grids and one numpy build.", "anchors": ["magpie/densegrid/box2ring.py:Box2Ring._remap", "magpie/densegrid/box2ring.py:Box2Ring.get_mask_in_bound"]}
{"id": "C89", "title": "Grid resampling in double precision", "statement": "In IEEE double precision grid2grid1D, grid2grid2D and grid2grid3D give, for source and output grids with coordinates up to X and cells at least X/2^20 wide, in every output cell a finite value within 2^-45 (X/w1 + X/w2) M of the exact overlap-weighted mean (w1, w2 the cell widths, M the largest source value; in two and three dimensions X/w1 + X/w2 summed over the axes plus the product of 2 + w2/w1, in three dimensions as long as that product is at most 2^42), whatever the local arrays held before and unless the cell is within the phantom cell just below the source grid. On an unchanged grid every finite value is returned exactly, and an output cell inside one source cell takes that cell's value exactly. User expectation: an output cell inside one source cell depends on that cell only. Violated: when the next source cell along any axis or diagonal is NaN or infinite the output cell is NaN, because the next cell is still added with weight zero.", "quantifier": "all grids and values in the stated ranges, all contents of uninitialised arrays", "why_tests_cant": "The cell an edge falls into is decided by rounded divisions; edges of nested grids coincide exactly with source edges, where one wrong rounding moves a whole cell.", "anchors": ["magpie/remap/grid2grid.py:grid2grid1D", "magpie/remap/grid2grid.py:grid2grid2D", "magpie/remap/grid2grid.py:grid2grid3D", "magpie/src/remap_1d_grid2grid.f90:remap_1d_grid2grid", "magpie/src/remap_2d_grid2grid.f90:remap_2d_grid2grid", "magpie/src/remap_3d_grid2grid.f90:remap_3d_grid2grid", "magpie/src/remap_utils.f90:remap_1d_grid2grid_pixel", "magpie/src/remap_utils.f90:get_remap_pix_len", "magpie/src/remap_utils.f90:which_pix"]}
{"id": "C90", "title": "Rebinning in double precision", "statement": "In IEEE double precision rebin_1d gives, for n strictly increasing old edges and any non-decreasing new edges (each zero or between 2^-240 and 2^300 in size, n up to 2^19) and data of size at most M, in every new bin a finite value within (n+4) 2^-50 M of its value in exact arithmetic, and NaN exactly where that is undefined, for every order in which numpy adds; with weights between 2^-100 and 2^100 within (2n+12) 2^-50 M. Hence constants and bounds of the data are kept up to this error, and on bins of equal length it is that close to the mean of the histogram. For arbitrary finite edges and data, rebinning onto the same edges returns every value exactly (a single bin unless twice its value overflows). NaN edges, edges out of order and mismatched lengths raise AssertionError. User expectation: rebinning onto the same edges leaves each bin on its own, and constant data stay constant. Violated: an infinite or NaN value turns the adjacent bins into NaN, a single bin of 2^1023 becomes infinite, and bins that are all 0.1 can give a value above 0.1.", "quantifier": "all edges, data and weights in the stated ranges, all orders of summation", "why_tests_cant": "Which edges lie in a new bin is decided by comparisons of doubles, the weights are quotients of rounded differences, and numpy adds in an order that depends on the array; tests compare a few values with a tolerance.", "anchors": ["magpie/one_d/one_d.py:rebin_1d", "magpie/one_d/one_d.py:_rebin_1d_single_bin", "magpie/utils/check.py:is_pos_monotonic"]}
{"id": "C91", "title": "Errors of rebinned values in double precision", "statement": "In IEEE double precision rebin_1d with sigma, for n strictly increasing old edges (2 <= n <= 2^19) and non-decreasing new edges, each zero or between 2^-40 and 2^50 in size, and errors zero or between 2^-60 and 2^60, returns for every order in which numpy adds: the same values as without sigma, whatever the data (also infinite or NaN); errors whose relative distance from those in exact arithmetic is at most (n+7) 2^-50, so a zero error is exactly zero; a finite error exactly for the new bins of positive length that meet the range of the old ones. For a new bin with at most one old edge that is this close to the error of the mean over the covered parts. With weights (not zero, weights and errors between 2^-29 and 2^29) the relative distance is at most (2n+14) 2^-50, and equal errors stay equal up to this factor. User expectation: a missing error is NaN. Violated: for a new bin of no length inside an old one the value is the old value and the error is infinite.", "quantifier": "all edges, data, errors and weights in the stated ranges, all orders of summation", "why_tests_cant": "The formula divides by differences of nearby edges and squares sums of weights, so a bound relative to the result needs the error analysis of every branch; tests compare a few values.", "anchors": ["magpie/one_d/one_d.py:rebin_1d", "magpie/one_d/one_d.py:_rebin_1d_single_bin_sigma"]}
{"id": "C92", "title": "Radial profiles in double precision", "statement": "In IEEE double precision, for every order in which numpy adds and up to 2^20 pixels per ring: polar2radial without weights is within (n+1) 2^-52 M of the mean of a ring of n pixels of size at most M, and with weights not below zero (zero or between 2^-300 and 2^300) within (3n+12) 2^-52 M of the weighted mean, NaN exactly when all weights of the ring are zero; a ring depends on its own pixels only; larger pixels never give a smaller unweighted mean; the errors are relatively within (n+7) 2^-52, with weights (3n+9) 2^-52. Cartesian pixel areas are relatively within 6 2^-52, polar pixel areas and cumulative profiles are relatively within (2K+12) 2^-52 and (2K+k+7) 2^-52 of the exact ones when no ring is thinner than a K-th of its outer radius (errors (2K+k+10) 2^-52); for non-negative profiles the cumulative profile and its error never decrease and are never NaN, even where they overflow; a single value stands for a constant profile, any other wrong length is a ValueError. User expectation: a weight of zero masks a bad pixel. Violated: an infinite or NaN pixel makes its ring infinite or NaN whatever its weight.", "quantifier": "all maps, weights, areas, radii in the stated ranges, all orders of summation", "why_tests_cant": "The order of summation of numpy depends on the shape and build, and the accuracy claims range over all doubles; tests compare a few averages.", "anchors": ["magpie/polar/polar2radial.py:polar2radial", "magpie/polar/polar2radial.py:get_polar_area2d", "magpie/polar/polar2radial.py:get_pixarea", "magpie/polar/radial.py:cumulative_radial"]}
{"id": "C93", "title": "Tabulated distributions in double precision", "statement": "In IEEE double precision pdf2cdf with at least two mid-points and equally many densities, none negative or NaN, and a bin width that is positive and finite, is decided by the sum of the densities from left to right times the bin width: if that is finite and positive, the cumulative distribution starts at exactly 0, ends at exactly 1 and never decreases, and randoms_pdf (kind='linear') accepts it; otherwise (also when a density is NaN) randoms_pdf raises AssertionError. For mid-points of size up to 2^500, up to 2^20 bins and a bin width between 2^-200 and 2^200 the edges never decrease and are within 9 2^-53 of the largest edge of equal spacing; for densities zero or between 2^-200 and 2^200 the cumulative distribution is relatively within (2k+2n+6) 2^-52 and the normalised one within (2n+4) 2^-52. Each of the 2^53 draws of numpy gives a finite number in a bin of positive density, not below its lower edge and within 2^-49 of the largest edge of the linear interpolation, never decreasing within a bin; the draws of each bin form an interval, whose share is that of the density up to (8n+13) 2^-52. One mid-point is an IndexError, a wrong number of densities a ValueError, and a single density puts all the mass into the first bin. randoms_cdf (kind='linear') raises IndexError for an empty table, AssertionError unless the table starts at 0 and ends at 1, and ValueError for a negative size or positions of another number; a draw inside a bin with an infinite end gives that infinity, NaN if the ends are opposite infinities or one is NaN, and a draw on an entry of the table gives its position. User expectation: densities of positive finite sum are accepted, numbers stay below the last edge, every bin of positive density is drawn. Violated: the product with the bin width may underflow, mid-points -1.3 and 0.7 with densities 6 and 14 give 1.7000000000000002 above the last edge 1.7, and a density of 2^-60 between two of 1 is never drawn.", "quantifier": "all mid-points, densities and draws in the stated ranges", "why_tests_cant": "The assertion compares doubles exactly, the ends of the range are reached by one draw in 2^53, and how often a bin is drawn is a statement about all of them; tests look at histograms of a few thousand draws.", "anchors": ["magpie/randoms/pdf.py:pdf2cdf", "magpie/randoms/pdf.py:randoms_cdf", "magpie/randoms/pdf.py:randoms_pdf"]}
{"id": "C94", "title": "Stochastic weights and probabilistic draws in double precision", "statement": "In IEEE double precision stochastic_integer_weights rounds a finite weight down for the first a of the 2^53 draws of numpy and up for the others, where a/2^53 is the fraction missing to the next integer up to 1.5 2^-53, so the mean over all draws is the weight up to 1.5 2^-53, however large the weight; integers, all weights of size 2^52 and more, infinities and NaN are returned bit for bit; larger weights and larger draws never give a smaller integer. stochastic_binary_weights is the integer weight capped at one (infinity becomes 1, NaN stays), 0 or 1 for weights that are not negative. Arrays are treated entry by entry. random_prob_draw without size keeps an entry of probability p for exactly the draws of numbers 0 to floor(2^53 p), and never for NaN. User expectation: a positive weight is sometimes rounded up, an entry of probability 0 is never drawn. Violated: a positive weight of at most 2^-54 becomes 0 for every draw, and the draw 0 keeps an entry of probability 0.", "quantifier": "all doubles and all draws", "why_tests_cant": "The claims are about frequencies over all 2^53 draws and about weights where ceil(w) - w rounds; tests sample a few draws.", "anchors": ["magpie/randoms/subsample.py:stochastic_integer_weights", "magpie/randoms/subsample.py:stochastic_binary_weights", "magpie/randoms/subsample.py:random_prob_draw"]}
{"id": "C95", "title": "Latitudes and areas on the sphere in double precision", "statement": "In IEEE double precision sphere2lonlat (latitude from colatitude) maps colatitudes from 0 to np.pi into latitudes from -np.pi/2 to np.pi/2, never increasing, within 2^-53 of np.pi/2 - theta and exactly from np.pi/4 on; the poles and the equator are exact. Going back and forth changes an angle by at most 2^-52, and by nothing from np.pi/4 on. usphere_area accepts exactly the finite limits in its documented ranges and raises AssertionError for all others including NaN; with a C library cosine accurate to 2^-52 the area is within 2^-47 of (phi_max - phi_min)(cos theta_min - cos theta_max); exchanging the limits of one coordinate negates it exactly; with a non-increasing cosine a patch inside another never has the larger area and areas of ordered limits are not negative; the whole sky is exactly 4 np.pi. User expectation: converting to latitude and back returns the angle, and a patch has positive area. Violated: a colatitude of 2^-60 comes back as 0, and the polar cap of radius 2^-30 has area 0.", "quantifier": "all doubles, all cosine functions of the stated accuracy", "why_tests_cant": "Accuracy, order and exact negation over all doubles, for every C library, cannot be sampled.", "anchors": ["magpie/coords/usphere_util.py:usphere_area", "magpie/coords/usphere_util.py:sphere2lonlat", "magpie/coords/usphere_util.py:lonlat2sphere"]}
{"id": "C96", "title": "Round trips of coordinates in double precision", "statement": "In IEEE double precision, with sine and cosine of the C library accurate to 2^-52 and arctan2 and arccos accurate to 2^-51, polar2cart puts a point of radius 2^-200 to 2^200 within 2^-50 (r + |centre|) of its exact place, sphere2cart within 2^-49 (r + |centre|). polar2cart followed by cart2polar returns the radius within 2^-48 r and the longitude within 2^-47 up to whole turns. sphere2cart followed by cart2sphere returns the radius within 2^-47 r and the direction within 2^-44 on the sky in each of the two angles (times the sine of the colatitude), the colatitude itself within 2^-21. cart2sphere followed by sphere2cart returns z within 2^-48 rho, x and y within 2^-21 rho, and within 2^-46 rho times rho over the distance from the axis. User expectation: coordinates survive the round trip to nearly full precision. Violated: on the unit sphere every colatitude with cosine 1 and sine up to 2^-28 comes back as arccos(1): for 2^-30 as 0; the point (2^-30, 0, 1) comes back on the axis; and a point at distance 1 from a centre at (2^60, 2^60) comes back with radius 0.", "quantifier": "all doubles in the ranges stated, all C libraries of the accuracy stated", "why_tests_cant": "Worst-case bounds hold over all doubles and every C library; the loss near the poles appears only for colatitudes below 2^-21 and at directions tests do not choose.", "anchors": ["magpie/coords/conversions.py:polar2cart", "magpie/coords/conversions.py:cart2polar", "magpie/coords/conversions.py:sphere2cart", "magpie/coords/conversions.py:cart2sphere"]}
{"id": "C97", "title": "Rotation of polar grids in double precision", "statement": "In IEEE double precision rotate_polar_grid accepts exactly the shifts strictly between 0 and the double 2 pi (NaN and infinities are an AssertionError); fewer than two edges are an IndexError, a NaN first bin a ValueError, a zero first bin or an overflowing number of bins an OverflowError. With x the rounded quotient of the shift by the first bin, m its integer part and w the rest (computed exactly), every row but the last is w times the row m further on plus 1 - w times the row m + 1 further on, cyclically, within 4 2^-53 relatively (and 2^-1073); shifts by more bins than rows are not rolled. The last row is mixed with the new first row exactly if the difference of the outer edges rounds to the double 2 pi, otherwise multiplied by w. The caller's grid is overwritten exactly if m = 0. For the edges np.linspace(0, 2 pi, n+1) with 2 to 2^50 bins the last row always wraps and m + w is the exact shift in bins within 3 2^-53 relatively. User expectation: rotating by the k-th edge moves the rows by k bins, and a full circle wraps wherever it starts. Violated: up to roundings all rows move by k + 1 bins or all by k - 1, depending on how the division rounds: with 16 bins by 9 for edge 8 and by 10 for edge 11; and a circle of four bins starting at 1.717... does not wrap, a grid of ones gets 0.64 in its last row.", "quantifier": "all float grids of at least two rows with entries up to 2^1021, all edges and shifts in the stated ranges", "why_tests_cant": "Whether a quotient of two doubles rounds below an integer, and whether a difference of edges equals the double 2 pi, changes from one number of bins or starting angle to the next; tests rotate one or two grids.", "anchors": ["magpie/coords/polar.py:rotate_polar_grid"]}
{"id": "C98", "title": "The HEALPix projection in double precision", "statement": "In IEEE double precision, for any C library cos and arccos accurate to about an ulp: healpix_ang2xy followed by healpix_xy2ang returns every point of the sphere with phi in [0, 2 np.pi] and theta in [0, np.pi] (borders between belt and caps included) within 2^-21 in theta and, as a distance on the sky, within 2^-45 in colatitude and 2^-22 in longitude; 2^-40 in longitude if theta is at least 2^-24 away from the poles. In the belt abscissa and longitude are the same double, and colatitude and ordinate are within 2^-48 and 2^-50 of the published formulas; in the caps the results are those of the formulas at a point within 2^-47, including the choice of facet and up to the last representable point before the pole. healy = +-np.pi/2 gives longitude 0 and arccos(+-1) for any healx, even a NaN; healpix_ang2xy never leaves |y| <= np.pi/2. The array branches do the same to every entry as the scalar ones. User expectation: longitudes come out in the documented [0, 2 pi], missing values stay missing, and points near the pole keep their longitude. Violated: a NaN healy in an array is returned as the north pole (0, 0) where a scalar gives NaN, a NaN theta in an array is returned as (0, 0) where a scalar raises UnboundLocalError; the longitude 2 np.pi is put into a fifth column of facets, beyond 2 pi + 1/2; the point (0, 1.5) of the plane gets a longitude below -7; a point 2^-30 from the pole becomes the pole and its longitude 0.", "quantifier": "all doubles in the stated ranges, all arrays, all accurate libraries", "why_tests_cant": "Cancellation and division by the distance to the pole make errors grow without bound towards it, and near facet borders the rounding of x decides which facet is used; tests sample points well inside.", "anchors": ["magpie/coords/healpix.py:healpix_xy2ang", "magpie/coords/healpix.py:healpix_ang2xy"]}
{"id": "C99", "title": "Random points of a HEALPix pixel in double precision", "statement": "In IEEE double precision _randoms_healpix_xy(size, p, nside), for every nside up to 27397078, every pixel and all draws of numpy, returns size finite points with x in [0, 2 np.pi], each within 2^-46 (up to a turn in x) of the point of the true pixel that leaves the fraction ux of the area to its left and divides its vertical chord in the ratio uy : 1 - uy. So every point is in the pixel asked for up to 2^-45, and a point meant 2^-45 inside the edges is in that pixel and in no other. randoms_healpix_pixel returns the projection of these points one by one: theta is in [0, np.pi] with a cosine right to 2^-46; phi is finite, right to 2^-45 in the belt, and in the polar facets right to 2^-43 times 1/w where w is the distance to the pole in the plane (1 at the edge of the belt, 0 at the pole), 2^-39 / w where w is below 2^-20. User expectation: x is in [0, 2 np.pi), y in [-pi/2, pi/2] and phi in [0, 2 pi]. Violated: a draw just left of the centre of pixel 4 of nside 1 has x = 2 np.pi; the topmost draw of pixel 0 of nside 7 has y = np.pi/2 + 2^-52, above the pole; the topmost draw of pixel 3 of nside 1 has longitude 8.", "quantifier": "all nside up to 27397078, all pixels, all arrays of draws, all accurate C libraries", "why_tests_cant": "The extreme draws, one in 2^53 or fewer, decide whether a point leaves the pixel, crosses the pole or gets a wrong turn; random tests do not hit them.", "anchors": ["magpie/randoms/usphere.py:_randoms_healpix_xy", "magpie/randoms/usphere.py:randoms_healpix_pixel", "magpie/coords/healpix.py:healpix_xy2ang"]}
{"id": "C100", "title": "Outlines of HEALPix pixels in double precision", "statement": "In IEEE double precision healpix_boundary(p, nside, steps), for every nside up to 27397078, every pixel and every steps up to 2^50, returns steps finite points, each within 2^-47 in both coordinates of the point of the exact outline, hence at l1 distance pi/(4 nside) from the true centre to 2^-46; healpix_boundary_top and _bot do the same on their side of the centre line, up to 2^-47. x never decreases over the first half of the points and never increases over the second. From 8 points on each corner is met twice, at the same x both times, and at the same point at the top and at the bottom. reverse=True is the same list backwards bit for bit, and a negative number of points raises ValueError. User expectation: the outline is closed, its upper half is not below the centre line and the outlines of neighbouring pixels meet in their corner. Violated: for pixel 26 of nside 2, on the equator, the first point has y = -2^-51 and the last, the same corner, y = 2^-51; the right corner of pixel 26 is 2^-49 east of the left corner of pixel 27.", "quantifier": "all nside up to 27397078, all pixels, all numbers of points from 0 to 2^50 (negative ones too), both directions", "why_tests_cant": "Which pixels come out open by a few units in the last place depends on the rounding of each centre; tests with tolerances cannot see it and cannot cover all pixels.", "anchors": ["magpie/pixel/healpix_boundary.py:healpix_boundary", "magpie/pixel/healpix_boundary.py:healpix_boundary_top", "magpie/pixel/healpix_boundary.py:healpix_boundary_bot"]}
{"id": "C101", "title": "Rectangles, arcs and discs in double precision", "statement": "In IEEE double precision get_square(xmin, xmax, ymin, ymax, steps), for steps a positive multiple of four up to 2^52, returns steps finite points, each within 2^-49 of the larger limit of the point of four equally divided sides; every point is exactly on the perimeter, every corner is visited exactly, successive points share a coordinate exactly and from 8 points on the first and the last point are exactly the lower left corner. Other numbers of steps raise AssertionError (get_disc too). get_arc returns points at equally spaced angles, limits included, within 2^-45 (radius + |centre|); a negative number of steps raises ValueError. get_disc returns points that are, to 2^-50 (rmax + |centre|), at a radius and angle exactly on the perimeter of [rmin, rmax] x [phimin, phimax], rmin = 0 included, and within 2^-45 of the equally divided ones. User expectation: get_arc with its default limits 0 and 2 np.pi is a closed circle. Violated: for every accurate sin, and every number of points from 2, the last point of the unit circle is strictly below the first.", "quantifier": "all finite limits up to 2^1021 (radii 2^-200 to 2^200, angles up to 8), all numbers of points, all accurate C libraries", "why_tests_cant": "Whether rounding takes one of the points off the perimeter, or leaves a gap at a corner, depends on the quotients of each side by each number of points; tests with tolerances see neither that nor the open circle.", "anchors": ["magpie/pixel/basic_shapes.py:get_square", "magpie/pixel/basic_shapes.py:get_arc", "magpie/pixel/basic_shapes.py:get_disc"]}
{"id": "C102", "title": "Boxes in double precision", "statement": "In IEEE double precision get_box returns each of the twelve edges once, for steps a positive multiple of 12 up to 12 2^50 (others raise AssertionError): every point is finite, exactly on its edge, within 2^-49 of the larger limit of equally spaced, and the ends are the corners exactly. With return_nearest=True an edge is kept exactly when none of the 100 rounded samples of the lines of sight to its two ends is strictly inside the box; from inside the box everything is removed; seen from the default centre, the origin, every removed edge is really hidden behind the box. User expectation: an edge that is not hidden is kept, whatever the centre. Violated: at the end of the line of sight (x - c) + c can round to the inside, so for the cube from 0.1 to 1 seen from (-1, -1, -1) the three edges at the corner nearest to the viewer are removed.", "quantifier": "all boxes with limits up to 2^500 and sides from 2^-500, all numbers of points, all view points up to 2^500", "why_tests_cant": "Whether the last sample of a line of sight rounds to the inside depends on the last bits of limit and centre; from the origin, where tests look, it never does.", "anchors": ["magpie/pixel/basic_shapes.py:get_box"]}
{"id": "C103", "title": "Equal-area polar grids in double precision", "statement": "In IEEE double precision polarEA_grid returns base_nphi nr^2 finite points; entry base_nphi i^2 + j is the centre of pixel j of ring i up to 2^-48 rmax in radius and 2^-45 in angle, for any ring and sector counts up to 2^50; for counts up to 2^46 the point is strictly inside its own pixel, so that no two pixels share a point. polarEA_area is within a relative 2^-49 of the area of every pixel, and polarEA_npix pixels of that area make up the disc of radius rmax up to 2^-49. No rings raise ValueError, zero counts divide by zero, a zero base count gives empty arrays, a negative one ValueError except -1 with a single ring.", "quantifier": "all ring counts and base counts within the stated bounds, all radii from 2^-900 to 2^1020 (2^-300 to 2^300 for the area)", "why_tests_cant": "Rounded edges and mid-points drift with the number of rings and sectors, and tests look at a few small grids.", "anchors": ["magpie/grids/polar.py:polarEA_grid", "magpie/grids/polar.py:polarEA_area", "magpie/grids/polar.py:polarEA_npix"]}
{"id": "C104", "title": "Rotations and shifts on the sphere in double precision", "statement": "In IEEE double precision usphere_rotate raises AssertionError exactly when an angle is outside its range (or not finite) or the two positions have the same coordinates; no other exception arises except one of np.linalg.inv. Whenever the sine W of the distance from start to end is at least 2^-20, every point comes out with finite angles in the closed ranges, at the place where the rotation about start x end that takes start to end puts it, up to 2^-32/W in each cartesian component; in particular start goes to end. Arrays are rotated point by point. usphere_shift adds the longitude difference and tilts along the meridian of the end position with the same accuracy, and leaves the colatitude untouched when the two colatitudes are equal. User expectation: accepted positions give numbers. Violated: two different longitudes at colatitude 0 are accepted and turn every point into NaN. User expectation: longitudes less than a turn apart can be shifted into each other. Violated: usphere_shift refuses those whose rounded difference is 2 pi.", "quantifier": "all start and end positions, all points with angles up to 8, every C library, BLAS and LAPACK within the stated accuracies", "why_tests_cant": "The error of the axis grows without bound as the positions come together, through a cross product, a normalisation, an arctan2, an inverse and three matrix products; tests try a few well separated positions.", "anchors": ["magpie/coords/usphere.py:usphere_rotate", "magpie/coords/usphere.py:usphere_shift"]}
{"id": "C105", "title": "Spins on the sphere in double precision", "statement": "In IEEE double precision usphere_spin raises AssertionError whenever the centre or the angle is outside its closed range or not finite. About a centre (other than the poles) whose colatitude has sine s >= 2^-20, every point comes out with finite angles in the closed ranges at the place where the rotation about the centre by alpha puts it; each cartesian component is off by at most 2^-27/s divided by the sine of the distance of the point from the centre. About the pole the colatitude is returned unchanged and alpha is added to the longitude up to 2^-46 and whole turns. User expectation: every angle that passes the assertions spins the sky. Violated: alpha = 2 pi is accepted by the assertion and refused inside.", "quantifier": "all centres, all angles, all points with longitudes in range and colatitudes up to 8, every C library, BLAS and LAPACK within the stated accuracies", "why_tests_cant": "Three rotations are chained through longitudes that are ill-conditioned near the pole; the size of the error depends on the distance from the centre, which tests sample at a few points.", "anchors": ["magpie/coords/usphere.py:usphere_spin"]}
{"id": "C106", "title": "Edges from mid-points in double precision", "statement": "In IEEE double precision xmid2edges raises IndexError for fewer than two mid-points and otherwise returns one edge more than there are mid-points. For finite sorted mid-points up to 2^1020 in size the edges are finite and sorted, no mid-point is below its lower edge, and the last is not above the last edge. Each edge is its mid-point minus the first spacing, and the last edge the last mid-point plus it, up to 6*2^-53 of the largest mid-point; so on an evenly spaced grid every mid-point but the last lies on its own upper edge up to that. User expectation: the edges come back from the mid-points. Violated: 0, 1, 2 come back as -0.5, 0.5, 2.5.", "quantifier": "all lists of at least two finite doubles up to 2^1020 in size; all shorter lists", "why_tests_cant": "Sortedness after two roundings must hold for every spacing and offset; tests use a few round grids.", "anchors": ["magpie/grids/cartesian.py:xmid2edges"]}
