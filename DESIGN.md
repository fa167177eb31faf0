# Design of the formal model of `magpie`

## Layout

* `rocq/theories/Base.v`: exceptions-as-values, exact-real numerics, numpy list primitives.
* `rocq/theories/M*.v`: the model, one file per source module, one definition per function,
  each citing file and lines in `/repo`. No proofs in these files.
* `rocq/theories/Spec*.v`: small specifications written independently of the model.
* `rocq/theories/P*.v`: lemmas and proofs.
* `rocq/theories/T*.v`: the property theorems (closed by `exact`), each with `Print Assumptions`
  and, beside it, an `Example` exhibiting a concrete non-trivial instance of its hypotheses.

## How code is modelled

* Python integers are `Z`; array lengths and indices `nat` or `Z` (negative indices wrap explicitly).
* Floating-point numbers are idealised as exact reals `R`, except in `MHealpixFloat.v` and `MIndexFloat.v`, which run
  `healpix_pix2ij` and the plane and star indices in IEEE-754 binary64 through Flocq, and in `MDouble.v`,
  `MGridsDouble.v`, `MShellDouble.v`, `MSumDouble.v`, `MDenseDouble.v`, `MRemapDouble.v`, `MRemapDouble2.v`, `MOneDDouble.v`, `MRadialDouble.v`, `MRandomsDouble.v`, `MCoordsDouble.v`, `MPolarDouble.v`, `MHealCoordDouble.v`, `MHealRandomsDouble.v`, `MHealBoundaryDouble.v`, `MShapesDouble.v`, `MBoxDouble.v`, `MPolarEADouble.v`, `MRotateDouble.v`, `MSpinDouble.v` and `MEdgesDouble.v`, which do the same, with infinities and NaN, for coordinate conversions, longitude shifts,
  random positions, grid edges and mid-points, the averages of the dense ring remap, grid resampling, rebinning, radial profiles, tabulated distributions, stochastic weights, latitudes and areas (assumed there: `np.random.random_sample` gives multiples of 2^-53 below 1, `np.interp` does the operations of its numpy source, the Fortran kernels are compiled without fused multiply-add and their integers do not overflow, `np.linspace` does the operations of its numpy source, `np.sum` adds
  every entry once in some order that depends on the number of entries only,
  `x**2.` is the rounded product, `arctan2`, `arccos`, `cos` of the C library keep to their ranges and, where `SpecCoordsDouble.v` is used, to the accuracies stated there). A non-finite result (NaN, +-inf) produced by a
  zero denominator is the explicit value `None` of `option R`. Where such a value depends on an exact
  `pi` (opposite directions, centres at the south pole) the rounded `pi` of the code need not give it;
  the property statements say "in exact arithmetic" there.
* Arrays are lists, 2-D arrays lists of rows. `np.where`, fancy indexing, masked assignment,
  `reshape`, `meshgrid`, `linspace`, `unique`, `argsort`, `histogram` are list functions.
* Exceptions are values of `res A := Ok a | Err e`, with the Python exception class.
* In-place mutation / aliasing is modelled by returning the new content of the caller's array, or
  with an explicit store where identity of objects matters.
* Random draws are universally quantified inputs in `[0,1)`; library oracles (argsort on ties,
  healpy's `ang2pix`) are universally quantified functions with their documented contract.
* Uninitialised Fortran buffers are explicit inputs.

## Trusted base

* The Coq 8.16.1 kernel.
* The axioms printed by `Print Assumptions` under every theorem. Expected: the axioms of the standard
  library's real numbers (`ClassicalDedekindReals.sig_forall_dec`, `ClassicalDedekindReals.sig_not_dec`,
  `FunctionalExtensionality.functional_extensionality_dep`) and possibly `Classical_Prop.classic`.
  No axioms are added.
* The fidelity of the transcription of `/repo` (by reading) and of the numpy semantics above.

## Plan per property

- **C01** (HEALPix pixel index <-> (ring, position) is a bijection). Integer/real model of both branches (sqrt and floor over exact reals); ring count specified by a separate table-free definition; proof by bracketing ph - sqrt(floor ph) between consecutive squares, then nonlinear integer arithmetic.
- **C02** (pix2ij is exact in IEEE double arithmetic for every practical nside). Second model of the same function with every operation rounded by Flocq's binary64 rounding; monotonicity of rounding and exactness of 53-bit dyadic numbers give both sides of each floor.
- **C03** (pix2ij breaks down in double arithmetic above nside 27397078). Parity argument: binary64 numbers of size 2^53 and more are even integers; the exact threshold follows with C02. The collision is evaluated by exactness and tie lemmas.
- **C04** (Array calls of the HEALPix index functions agree with element-wise scalar calls). np.where / fancy indexing / masked assignment modelled as list operations, array branch transcribed statement by statement; general lemma about masked assignment.
- **C05** (Pixel centres are the published HEALPix ring-scheme centres). Specification is the Gorski et al. / healpy centre formula written independently; real-arithmetic model composed through four functions.
- **C06** (Distinct pixels have disjoint diamonds and every plane centre is in range). Centres are shown to live on a checkerboard half-integer lattice on which pix2xy is injective.
- **C07** (The star indices are integers and invert exactly). Parity argument over the three regions.
- **C08** (Neighbour query loses the pairing of its two outputs). Nine-branch function modelled on integers with np.unique as sort-and-dedupe; characterisation for the interior branch and a concrete refutation.
- **C09** (Pixel outlines lie exactly on the pixel's diamond). linspace modelled as the numpy formula; four sides, concatenations and reversals transcribed.
- **C10** (Random points of a HEALPix pixel lie in that pixel's diamond, uniformly). Random numbers become universally quantified inputs in [0,1).
- **C11** (Random points on the sphere inside a pixel project back into that pixel). Combination of C10 and C12 with the geometric fact that a pixel's diamond stays inside its base facet.
- **C12** (Plane <-> sphere HEALPix maps are mutually inverse). Real model with acos/cos and floor; independent description of the plane region.
- **C13** (The HEALPix projection is equal-area). Derivatives (Coquelicot is_derive) of the model function.
- **C14** (Cartesian <-> polar conversion is exact and canonical). atan2 defined as in numpy, trigonometric identities.
- **C15** (Cartesian <-> spherical conversion is exact and canonical). As C14 with acos.
- **C16** (Orthographic lift lands on the sphere or yields the fill value). Direct.
- **C17** (usphere_rotate is a rigid rotation carrying start to end). 3-vectors and 3x3 matrices over R; np.linalg.inv modelled by the adjugate formula; refinement to an abstract rotation.
- **C18** (usphere_rotate yields NaN for accepted degenerate pairs). Model of normalisation with explicit non-finite outcome; iff theorem.
- **C19** (usphere_phi_shift adds the shift modulo 2 pi). Scalar and masked array branches.
- **C20** (usphere_phi_shift / usphere_shift / usphere_spin overwrite the caller's array). Heap model: arrays are references into a store; theorem describes the store after the call.
- **C21** (usphere_shift carries the start centre to the end centre rigidly). Composition of C17 and C19.
- **C22** (usphere_spin is the rotation by alpha about the centre). Composition; Rodrigues formula as the independent specification; refutation for alpha=2pi.
- **C23** (Sky area is additive, totals 4 pi, and is not protected against reversed limits). Direct real analysis; refutation for reversed limits.
- **C24** (Longitude/latitude conversion is an involution). Direct.
- **C25** (rotate_polar never returns a rotated angle). Exception-valued model.
- **C26** (rotate_polar_grid shifts exact multiples of the bin width by one bin too many). In-place row updates modelled sequentially.
- **C27** (Cartesian grid edges and midpoints). linspace lemma library.
- **C28** (xmid2edges does not invert xedges2mid). Exact characterisation plus refutation.
- **C29** (Tensor grids index as [i,j(,k)]). meshgrid(indexing='ij') modelled on nested lists.
- **C30** (Equal-area polar grid has exactly base*nr^2 pixels of equal area). Induction over rings.
- **C31** (Polar pixel areas tile the annulus). Telescoping sums.
- **C32** (rebin_1d reproduces constants and stays within the data range). Weighted mean with non-negative weights, branch by branch.
- **C33** (rebin_1d onto the same bins is the identity). np.where index sets computed for a sorted array.
- **C34** (rebin_1d is the overlap average on uniform bins unless one bin swallows the whole range). Independent specification: sum of overlap*data / sum of overlap.
- **C35** (rebin_1d double counts the last bin when a new bin covers the whole range). Characterisation and refutation.
- **C36** (rebin_1d is not conservative on non-uniform bins). Witness, and an iff for new bins around exactly one interior edge.
- **C37** (rebin_1d_single_bin_weights disagrees with rebin_1d). Exception-valued model and characterisation.
- **C38** (Error propagation of rebin_1d is not the identity on identical bins). Model of the sigma branch; characterisation of bin 1 and refutation.
- **C39** (grid2grid remapping weights are exact overlap fractions). Fortran loop modelled with explicit output arrays; overlap spec = max 0 (min-max).
- **C40** (1-D grid remap is the exact cell average and conserves the integral). Sum exchange and telescoping overlap lemma.
- **C41** (2-D grid remap is the exact cell average and conserves the integral). Flattened index model of the Fortran loops, reduction to the 1-D overlap lemma.
- **C42** (3-D grid remap is the exact cell average and conserves the integral). As C41.
- **C43** (Output cells just below the source domain read uninitialised weights). Buffers as explicit state.
- **C44** (Default arguments of the grid2grid wrappers). Exception-valued wrappers.
- **C45** (Azimuthal averaging preserves constants and bounds). Weighted means over columns.
- **C46** (Cumulative radial profile). Induction over the running sum.
- **C47** (randoms_1d always raises). Exception-valued model.
- **C48** (randoms_2d and randoms_3d always raise). Draws universally quantified.
- **C49** (Polar and spherical randoms are in range and inverse-CDF exact). Inverse CDF identity.
- **C50** (pdf2cdf builds a proper CDF). Running sums; scipy cubic interpolation not modelled (oracle).
- **C51** (shuffle is a permutation, random_draw draws without replacement). argsort as an arbitrary sorting permutation.
- **C52** (random_prob_draw keeps exactly the elements whose draw is at most their probability). Mask model.
- **C53** (Stochastic integer weights are unbiased). Expectation as a Riemann integral over [0,1].
- **C54** (Basic shape outlines lie on their shape). linspace lemmas.
- **C55** (get_box draws exactly the twelve edges, and hidden-edge removal is sound but incomplete). Sampled line of sight modelled; soundness for all, completeness refuted.
- **C56** (is_pos_monotonic characterises non-decreasing arrays). Induction.
- **C57** (progress_bar lines are well-formed and end exactly once). Output trace model.
- **C58** (Dense Box2Ring remap is an area-weighted mean of map samples). Object state record; reshape as total-size guarded chunking.
- **C59** (Dense Box2Ring.polar2radial and the caller's weights). State-passing model: caller's array and cached attributes are explicit results.
- **C65** (Re-using a dense Box2Ring object keeps the old mask). Cached attributes as explicit object state threaded through calls.
- **C60** (Heal2Ortho remap multiplies the map by the refinement factor). Sum/mean model over refined samples; ang2pix an arbitrary function.
- **C61** (PointOfView transform/reverse). Composition of C17/C21 maps.
- **C66** (Heal2Ortho.transform agrees with the picture). Rotation lemmas of C21 composed with the projection.
- **C62** (Dense Cube2Shell samples the transposed cube). meshgrid 'xy' layout model; healpy pix2ang and ud_grade are arbitrary functions.
- **C63** (Monte-Carlo remap of a box is a mean over samples, when it runs at all). Histogram model with arbitrary samples; model of numpy object-array construction; hits as an inductive specification.
- **C67** (Logarithmic radial bins of the Monte-Carlo rings). logspace over log10 and Rpower; geometric progression as the specification.
- **C68** (Monte-Carlo mask marks cells that touch the box). Corollary of the remap theorem with a map of ones; explicit draws for the refutation.
- **C64** (Advertised HEALPix ring/polar remappers cannot run). Attribute lookup against the package's export list; set-up proved to succeed for sensible arguments.
- **C70** (Monte-Carlo radial profile). Mask characterised by the samples (C68), column sums over covered cells, idempotence of the in-place product with a 0/1 mask, explicit draws for the refutation.
- **C69** (Monte-Carlo shells of a cube are means over samples, when they can be computed). Three-dimensional histogram model with arbitrary samples; hits as an inductive specification; sampling from C10 and C49; explicit case of two by two voxels.
- **C71** (Neighbour index sets around a pixel). Inverse HEALPix projection as specification; corners coincide exactly under explicit lattice identifications; linear arithmetic per branch and face.
- **C72** (HEALPix ring and box grids: accepted arguments and sampled directions). Rotations about the axes as specification; the code's shift and spin shown equal to their composition.
- **C73** (Errors of rebinned values). Pieces (share, length, bin) as specification of the propagated error; case analysis on the first and last edge inside.
- **C74** (Orthographic plotting helpers). Draw calls as values; projection from C66; name look-up against the module's globals.
- **C75** (Box2Ring over arbitrary sequences of calls). State machine with the attributes as state; the set-ups in force as a declarative predicate on histories; induction on the history.
- **C76** (Monte Carlo Box2Ring over arbitrary sequences of calls). State machine with the attributes as state; set-ups in force as a declarative predicate on histories; induction on the history; results of C63 and C70 for the prepared object.
- **C77** (Dense Cube2Shell over arbitrary sequences of calls). State machine with the attributes as state; the set-ups in force as a declarative predicate on histories; induction on the history.
- **C78** (Monte Carlo Cube2Shell over arbitrary sequences of calls). State machine with the attributes as state; grids and weights in force as declarative predicates on histories; induction on the history.
- **C79** (Heal2Ortho over arbitrary sequences of calls). State machine with the attributes as state; map and box in force as declarative predicates on histories; induction on the history.
- **C80** (Polar and spherical coordinates in double precision). Flocq binary64 model with infinities and NaN; correctness theorems of each operation; error analysis over the reals; the square root of a rounded square is exact.
- **C81** (Shifted longitudes in double precision). Flocq binary64 model; Sterbenz for the subtraction of 2 pi; induction on the list of shifts.
- **C82** (Random positions in double precision). Flocq binary64 model; monotonicity of rounding and a bound on the product by the difference of the limits.
- **C83** (PointOfView over arbitrary sequences of calls). State machine with a heap of the caller's lists; set-up in force as a declarative predicate on histories; induction on the history.
- **C84** (HEALPix ring and polar remappers over arbitrary sequences of calls). State machine with the attributes as state; invariant: no areas stored, edges of at least one cell; induction on the history.
- **C85** (Grid edges and mid-points in double precision). Flocq binary64 model of the operations of np.linspace; relative error of each rounding; monotonicity of rounding.
- **C86** (Plane and star indices and pixel centres in double precision). Rounded-real model; half-integers of at most 53 bits are exact; Machin's series bounds the distance of np.pi from pi; disjointness of the pixels from C06.
- **C87** (Random radii of a shell in double precision). Flocq binary64 model; pow an arbitrary function within 2^-52 of the true power; bounds by monotonicity of cubes and of the exponential.
- **C88** (Dense averages and masks in double precision). Flocq binary64 model; sums as arbitrary bracketings over a permutation; error and monotonicity of such sums by induction on the bracketing.
- **C89** (Grid resampling in double precision). Flocq binary64 model of the Fortran kernels; the overlaps are Lipschitz in the edges, so rounding an edge to the wrong side moves only a negligible weight; error of the rounded sum by induction; products of per-axis weights in two and three dimensions.
- **C90** (Rebinning in double precision). Flocq binary64 model; edges moderate in size differ by at least 2^-292, so a weight has a relative error of 4 roundings; error of the rounded weighted mean for every bracketing of the sum; exact operations with zero and one for identical bins.
- **C91** (Errors of rebinned values in double precision). Flocq binary64 model; each intermediate value is the exact one times a product of at most k factors (1 + u)^(+-1), with a range; all sums have non-negative terms, so k only grows; comparison branch by branch with the model over the reals (C73).
- **C92** (Radial profiles in double precision). Flocq binary64 model; error analysis of sums, products and square roots.
- **C93** (Tabulated distributions in double precision). Flocq binary64 model with the draws as inputs; a quotient of equal numbers is exactly 1 and rounding is monotone; error analysis of np.interp; thresholds of draws by ceilings.
- **C94** (Stochastic weights and probabilistic draws in double precision). Flocq binary64 model, np.ceil and np.floor as Bnearbyint; the draws below a threshold are counted by a ceiling; monotonicity through the four positions of a weight relative to its neighbours.
- **C95** (Latitudes and areas on the sphere in double precision). Flocq binary64 model; subtraction from pi/2 is exact by Sterbenz from pi/4 on; errors of the area by rounding bounds of each operation; order by monotonicity of rounding.
- **C96** (Round trips of coordinates in double precision). Flocq binary64 model; rounding errors of products and roots; nearby points have nearby angles (sine at least half the angle), nearby cosines have nearby colatitudes (product formula); a rounded real library shows that the accuracies assumed can be met.
- **C97** (Rotation of polar grids in double precision). Flocq binary64 model; the fractional part is exact by Sterbenz; error analysis of the mixture; edges of linspace and their quotients by relative rounding errors.
- **C98** (The HEALPix projection in double precision). Flocq binary64 model; 2-|sigz|, siga and phi % (pi/2) are exact (Sterbenz, integer remainder); backward error analysis of the longitude; nearby cosines have nearby colatitudes; case split over belt/cap and facet mismatches for the round trip; array branches by index lists.
- **C99** (Random points of a HEALPix pixel in double precision). Flocq binary64 model; errors of the square roots and of the two linear maps; the remainder modulo the double 2 pi; the cosine of the colatitude is a Lipschitz function of y; longitude by the facet that contains the pixel, with separate cases at the border of the belt, near the pole and at it.
- **C100** (Outlines of HEALPix pixels in double precision). Flocq binary64 model; np.linspace between the rounded corners, compared with the exact line through a convex combination; the three rounded sums of each side; corner values by the exact ends of np.linspace.
- **C101** (Rectangles, arcs and discs in double precision). Flocq binary64 model; np.linspace downwards is the mirror image of np.linspace upwards because rounding to nearest is odd; errors of product and sum of polar2cart; the gap between pi and np.pi by a Machin series.
- **C102** (Boxes in double precision). Flocq binary64 model; the distance to the right corner is exactly zero and to the others not, so np.argmin finds it; samples of lines of sight as rounded reals; products with a factor at most 1 never round past the corner.
- **C103** (Equal-area polar grids in double precision). Error of linspace edges from C85, two more roundings for a mid-point, half a pixel is larger; chains of relative errors for the area, the C square being any function within 2^-52.
- **C104** (Rotations and shifts on the sphere in double precision). Errors in units of 2^-53/W through every step; the exact frame of C17 is the reference; NaN propagation from 0/0 for the pole.
- **C105** (Spins on the sphere in double precision). C104 for the two tilts, C81 for the longitude shift; the exact angles of an approximate point; rotations preserve lengths; conjugation of the turn about the pole.
- **C106** (Edges from mid-points in double precision). Monotonicity of rounding; relative error of a sum of doubles.

## Not modelled

* `plots/*`: matplotlib itself, choice of axis, style arguments, text formatting and rotation, what was drawn
  before an exception, and the calculation of `plot_labels(onsphere=False)` around the missing function
  (arbitrary outcome); the rest is `MPlots.v`.
* healpy's reaction to nside <= 0; attributes of an object whose set-up raised an exception
  (modelled for the `Box2Ring` classes, the `Cube2Shell` classes, `Heal2Ortho`, `PointOfView` and the HEALPix ring and polar classes in `MLife.v`, `MLifeMonte.v`, `MLifeCube.v`,
  `MLifeShell.v`, `MLifeOrtho.v`, `MLifeView.v` and `MLifeHeal.v`).
* `setup.py`, docs, tests.
* scipy's cubic `interp1d`, healpy's internals: oracles.
* `src/utils.f90` (linspace/midpoint): not exported by the package.

## How to read `seeded/LOG.jsonl`

`failed` holds only what was seen to fail when the edited model was rebuilt: the first
proof that broke, which may be a supporting lemma rather than a headline theorem. A broken
proof script shows that the script depends on the edited code; it is not by itself a proof
that the statement became false. Entries whose claim starts with "none:" are edits judged,
by reading, to leave behaviour unchanged. Entries marked "no verdict" are those where the
prover ran into its time limit under the edit, so that nothing was seen to fail; the theorem
named there is the one expected to fail by reading. An earlier version of the log listed
these expected theorems as failed; it also listed one unreachable-case edit of `cap_fl`
as caught, which a repeated run showed to be a harmless survivor.
