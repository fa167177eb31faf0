{
 "claims": [
  {
   "property": "C01",
   "status": "proved",
   "theorems": [
    "C01_pix_to_ring",
    "C01_ring_to_pix",
    "C01_pixel_at_unique",
    "C01_outside"
   ],
   "note": "Exact-real arithmetic; unbounded nside. Also characterises the four out-of-range cases."
  },
  {
   "property": "C02",
   "status": "proved",
   "theorems": [
    "C02_outside",
    "C02_exact",
    "C02_agrees",
    "C02_ring"
   ],
   "note": "Scalar branch, every operation rounded by Flocq binary64 rounding; overflow beyond 2^1024 not modelled."
  },
  {
   "property": "C03",
   "status": "proved",
   "theorems": [
    "C03_breaks",
    "C03_threshold",
    "C03_refuted",
    "C03_collision"
   ],
   "note": "Expectation refuted: sharp threshold, plus an explicit collision at nside 2^25."
  },
  {
   "property": "C04",
   "status": "proved",
   "theorems": [
    "C04_pix2ij_array",
    "C04_pix2ij_array_length",
    "C04_ij2pix_array",
    "C04_j2jd_array",
    "C04_pix2xy_array",
    "C04_xy2ang_array",
    "C04_ang2xy_array"
   ],
   "note": "Array branches vs scalar branches, any length; includes xy2ang and ang2xy arrays."
  },
  {
   "property": "C05",
   "status": "proved",
   "theorems": [
    "C05_pixel_centres"
   ],
   "note": "Centres compared with the formulas of Gorski et al. 2005."
  },
  {
   "property": "C06",
   "status": "proved",
   "theorems": [
    "C06_centres_apart",
    "C06_diamonds_disjoint",
    "C06_centres_in_range",
    "C06_diamonds_cover"
   ],
   "note": "Separation, disjointness, range and covering."
  },
  {
   "property": "C07",
   "status": "proved",
   "theorems": [
    "C07_star_exact",
    "C07_star_inverse"
   ],
   "note": "Integer arithmetic; all nside >= 1."
  },
  {
   "property": "C08",
   "status": "proved",
   "theorems": [
    "C08_interior_pairing_lost",
    "C08_refuted",
    "C08_lengths_differ_refuted"
   ],
   "note": "The documented expectation is refuted: characterisation for all interior pixels, and two witnesses (\u2026_refuted)."
  },
  {
   "property": "C09",
   "status": "proved",
   "theorems": [
    "C09_outline",
    "C09_halves",
    "C09_negative_steps"
   ],
   "note": "Floats idealised as reals; all step counts."
  },
  {
   "property": "C10",
   "status": "proved",
   "theorems": [
    "C10_randoms_in_diamond",
    "C10_diamond_area"
   ],
   "note": "Uniformity stated as inverse-CDF identities (Riemann integral of the chord length)."
  },
  {
   "property": "C11",
   "status": "proved",
   "theorems": [
    "C11_randoms_project_back",
    "C11_zero_draw_refuted"
   ],
   "note": "Holds for second draws in (0,1); the zero second draw is a refuted corner case with a witness."
  },
  {
   "property": "C12",
   "status": "proved",
   "theorems": [
    "C12_sphere_plane_sphere",
    "C12_plane_sphere_plane",
    "C12_theta_range",
    "C12_poles",
    "C12_cut_edge"
   ],
   "note": "The chart takes the left of two glued edges; the right edge is characterised by C12_cut_edge."
  },
  {
   "property": "C13",
   "status": "proved",
   "theorems": [
    "C13_equal_area",
    "C13_total_area",
    "C13_pixel_area"
   ],
   "note": "Partial derivatives of the two coordinate functions; z does not depend on x, so their product is the Jacobian."
  },
  {
   "property": "C14",
   "status": "proved",
   "theorems": [
    "C14_canonical",
    "C14_inverse",
    "C14_array"
   ],
   "note": "Scalar and array branches, any centre."
  },
  {
   "property": "C15",
   "status": "proved",
   "theorems": [
    "C15_canonical",
    "C15_inverse",
    "C15_array"
   ],
   "note": "Scalar and array branches, any centre; includes the origin."
  },
  {
   "property": "C16",
   "status": "proved",
   "theorems": [
    "C16_lift",
    "C16_array"
   ],
   "note": "Scalar and array branches."
  },
  {
   "property": "C17",
   "status": "proved",
   "theorems": [
    "C17_rotation",
    "C17_isometry",
    "C17_start_to_end",
    "C17_inverse",
    "C17_array",
    "C17_undefined"
   ],
   "note": "The map is Rodrigues rotation about the normalised cross product through the angle between the directions; isometry, start to end and inverse follow."
  },
  {
   "property": "C18",
   "status": "proved",
   "theorems": [
    "C18_degenerate",
    "C18_refused",
    "C18_refuted"
   ],
   "note": "Expectation refuted: all accepted parallel pairs give NaN; witness C18_refuted; floats idealised as reals (see the statement for what remains in floating point); the refused inputs are characterised by an iff."
  },
  {
   "property": "C19",
   "status": "proved",
   "theorems": [
    "C19_scalar",
    "C19_undo",
    "C19_reject",
    "C19_array"
   ],
   "note": "Scalars and arrays of any length (NaN stays NaN)."
  },
  {
   "property": "C20",
   "status": "proved",
   "theorems": [
    "C20_phi_shift_in_place",
    "C20_shift_in_place",
    "C20_spin",
    "C20_refuted"
   ],
   "note": "Expectation refuted: effect on the store characterised for all three functions, witness C20_refuted."
  },
  {
   "property": "C21",
   "status": "proved",
   "theorems": [
    "C21_rigid",
    "C21_isometry",
    "C21_start_to_end",
    "C21_exceptions",
    "C21_refused",
    "C21_undefined"
   ],
   "note": "Exact formula for the map; the two exceptional families are characterised."
  },
  {
   "property": "C22",
   "status": "proved",
   "theorems": [
    "C22_spin",
    "C22_fixes_centre",
    "C22_isometry",
    "C22_full_turn_refuted",
    "C22_south_pole_refuted",
    "C22_refused"
   ],
   "note": "Spin by alpha for centres other than the south pole; alpha = 2 pi and the south pole are refuted corner cases."
  },
  {
   "property": "C23",
   "status": "proved",
   "theorems": [
    "C23_area",
    "C23_refused",
    "C23_additive",
    "C23_whole_sphere",
    "C23_refuted"
   ],
   "note": "Area equals the integral of sin(theta); reversed limits refuted with a witness."
  },
  {
   "property": "C24",
   "status": "proved",
   "theorems": [
    "C24_involution"
   ],
   "note": "Floats idealised as reals."
  },
  {
   "property": "C25",
   "status": "proved",
   "theorems": [
    "C25_array",
    "C25_scalar_raises",
    "C25_result_ignores_phi",
    "C25_refuted",
    "C25_dense_method",
    "C25_monte_method"
   ],
   "note": "Expectation refuted. TypeError is what a Python float raises; numpy scalars raise other classes, not modelled."
  },
  {
   "property": "C26",
   "status": "proved",
   "theorems": [
    "C26_grid",
    "C26_overshift",
    "C26_refuted",
    "C26_refused"
   ],
   "note": "Expectation refuted: full description of every row plus witness; shifts larger than the grid described by C26_overshift."
  },
  {
   "property": "C27",
   "status": "proved",
   "theorems": [
    "C27_get_xedges",
    "C27_get_xedges_default",
    "C27_get_xedges_negative",
    "C27_xedges2mid",
    "C27_grid1d"
   ],
   "note": "Floats idealised as reals."
  },
  {
   "property": "C28",
   "status": "proved",
   "theorems": [
    "C28_xmid2edges_displaced",
    "C28_round_trip_refuted",
    "C28_xmid2edges_short"
   ],
   "note": "Expectation refuted for every uniform grid with at least two bins and non-zero spacing."
  },
  {
   "property": "C29",
   "status": "proved",
   "theorems": [
    "C29_grid2d",
    "C29_grid3d",
    "C29_scalars"
   ],
   "note": "Scalar and per-axis arguments."
  },
  {
   "property": "C30",
   "status": "proved",
   "theorems": [
    "C30_polarEA_points",
    "C30_polarEA_equal_area",
    "C30_polarEA_errors",
    "C30_polarEA_base"
   ],
   "note": "Areas stated as integrals in polar coordinates; error cases included."
  },
  {
   "property": "C31",
   "status": "proved",
   "theorems": [
    "C31_area2d",
    "C31_area2d_total",
    "C31_area2d_unequal_refuted",
    "C31_area2d_short",
    "C31_pixarea",
    "C31_polargrid"
   ],
   "note": "The total holds for equal angular bins; unequal bins are refuted with a witness."
  },
  {
   "property": "C32",
   "status": "proved",
   "theorems": [
    "C32_rebin_bounds",
    "C32_constant",
    "C32_finite",
    "C32_linear",
    "C32_weighted",
    "C32_refused"
   ],
   "note": "Includes weights, linearity, finiteness and the refused inputs."
  },
  {
   "property": "C33",
   "status": "proved",
   "theorems": [
    "C33_rebin_identity"
   ],
   "note": "Floats idealised as reals; any strictly increasing edges."
  },
  {
   "property": "C34",
   "status": "proved",
   "theorems": [
    "C34_rebin_overlap_mean"
   ],
   "note": "Overlap average computed by an independent specification (histogram_mean)."
  },
  {
   "property": "C35",
   "status": "proved",
   "theorems": [
    "C35_rebin_covering",
    "C35_mean_iff",
    "C35_covering_mean_refuted"
   ],
   "note": "Expectation refuted: exact value for all covering bins, iff, witness."
  },
  {
   "property": "C36",
   "status": "proved",
   "theorems": [
    "C36_one_edge_iff",
    "C36_rebin_overlap_refuted"
   ],
   "note": "Expectation refuted: iff for one interior edge, witness for several."
  },
  {
   "property": "C37",
   "status": "proved",
   "theorems": [
    "C37_no_edges",
    "C37_weights_agree",
    "C37_weights_shifted",
    "C37_weights_index_error",
    "C37_weights_reproduce_refuted",
    "C37_weights_covering",
    "C37_weights_first",
    "C37_weights_point",
    "C37_weights_none"
   ],
   "note": "Expectation refuted for exactly one edge; agreement proved otherwise (except the covering bin of C35)."
  },
  {
   "property": "C38",
   "status": "proved",
   "theorems": [
    "C38_sigma_same_bins",
    "C38_sigma_identity_refuted"
   ],
   "note": "Expectation refuted: exact errors for every number of bins."
  },
  {
   "property": "C39",
   "status": "proved",
   "theorems": [
    "C39_weights",
    "C39_weights_sum"
   ],
   "note": "For any previous buffer contents; the excluded cells are the subject of C43."
  },
  {
   "property": "C40",
   "status": "proved",
   "theorems": [
    "C40_cell",
    "C40_exact",
    "C40_conserves",
    "C40_conserves_same_extent",
    "C40_bounds",
    "C40_constant",
    "C40_identity",
    "C40_linear"
   ],
   "note": "Exactness for every cell outside the situation of C43; conservation whenever the output covers the input."
  },
  {
   "property": "C41",
   "status": "proved",
   "theorems": [
    "C41_exact",
    "C41_conserves",
    "C41_bounds",
    "C41_constant",
    "C41_identity",
    "C41_linear"
   ],
   "note": "Any memory contents; scalar, list and default arguments."
  },
  {
   "property": "C42",
   "status": "proved",
   "theorems": [
    "C42_exact",
    "C42_conserves",
    "C42_bounds",
    "C42_constant",
    "C42_identity",
    "C42_linear"
   ],
   "note": "Any memory contents; ngridout a scalar (a list raises, C44)."
  },
  {
   "property": "C43",
   "status": "proved",
   "theorems": [
    "C43_uninitialised",
    "C43_any_value",
    "C43_two_dimensions",
    "C43_refuted",
    "C43_two_dimensions_refuted"
   ],
   "note": "Expectation refuted: value characterised for all memory contents in 1-D, and independently of memory for later rows in 2-D; two witnesses."
  },
  {
   "property": "C44",
   "status": "proved",
   "theorems": [
    "C44_1d_default",
    "C44_2d_default",
    "C44_3d_default",
    "C44_3d_list",
    "C44_3d_list_never",
    "C44_refuted"
   ],
   "note": "Expectation refuted in 1-D and for lists in 3-D; 2-D and scalar 3-D defaults proved."
  },
  {
   "property": "C45",
   "status": "proved",
   "theorems": [
    "C45_plain_mean",
    "C45_weighted_mean",
    "C45_constant",
    "C45_sigma",
    "C45_sigma_scale",
    "C45_sigma_scale_weighted"
   ],
   "note": "Floats idealised as reals; finite maps and weights."
  },
  {
   "property": "C46",
   "status": "proved",
   "theorems": [
    "C46_cumulative",
    "C46_monotone",
    "C46_constant",
    "C46_sigma",
    "C46_mismatch",
    "C46_broadcast"
   ],
   "note": "Floats idealised as reals."
  },
  {
   "property": "C47",
   "status": "proved",
   "theorems": [
    "C47_always_raises",
    "C47_refuted"
   ],
   "note": "Expectation refuted: every call raises."
  },
  {
   "property": "C48",
   "status": "proved",
   "theorems": [
    "C48_2d_always_raises",
    "C48_3d_always_raises",
    "C48_refuted"
   ],
   "note": "Expectation refuted: every call raises."
  },
  {
   "property": "C49",
   "status": "proved",
   "theorems": [
    "C49_sphere_any",
    "C49_negative_radius_refuted",
    "C49_polar",
    "C49_polar_cdf",
    "C49_polar_finite",
    "C49_sphere_r",
    "C49_usphere",
    "C49_usphere_finite",
    "C49_sphere",
    "C49_negative_size"
   ],
   "note": "For all draws and ordered limits; any limits for radii and finiteness; negative size refused."
  },
  {
   "property": "C50",
   "status": "proved",
   "theorems": [
    "C50_mismatch",
    "C50_pdf2cdf",
    "C50_pdf2cdf_errors",
    "C50_rejects",
    "C50_randoms_cdf",
    "C50_randoms_pdf",
    "C50_zero_pdf"
   ],
   "note": "Linear interpolation kind; the default cubic kind is scipy code and is not modelled (only the rejection theorem covers every kind)."
  },
  {
   "property": "C51",
   "status": "proved",
   "theorems": [
    "C51_shuffle",
    "C51_random_draw",
    "C51_random_draw_submultiset",
    "C51_too_large",
    "C51_negative",
    "C51_negative_refuted"
   ],
   "note": "For every sorting routine (ties in any order); the negative-size expectation is refuted."
  },
  {
   "property": "C52",
   "status": "proved",
   "theorems": [
    "C52_scalar_sized",
    "C52_kept",
    "C52_extremes",
    "C52_sized",
    "C52_refused",
    "C52_zero_refuted",
    "C52_mismatch"
   ],
   "note": "For every sorting routine; the probability-zero expectation is refuted by a draw of exactly 0."
  },
  {
   "property": "C53",
   "status": "proved",
   "theorems": [
    "C53_values",
    "C53_integer",
    "C53_unbiased",
    "C53_array",
    "C53_binary",
    "C53_binary_array"
   ],
   "note": "Expectation as a Riemann integral over one uniform draw."
  },
  {
   "property": "C54",
   "status": "proved",
   "theorems": [
    "C54_square",
    "C54_square_perimeter",
    "C54_refused",
    "C54_arc",
    "C54_arc_closed",
    "C54_arc_negative",
    "C54_disc"
   ],
   "note": "For all limits and step counts."
  },
  {
   "property": "C55",
   "status": "proved",
   "theorems": [
    "C55_edges",
    "C55_refused",
    "C55_nearest",
    "C55_removed_hidden",
    "C55_ends_suffice",
    "C55_from_inside",
    "C55_far",
    "C55_refuted"
   ],
   "note": "Exact characterisation for every view point; the expectation that hidden edges are removed is refuted by the sampling."
  },
  {
   "property": "C56",
   "status": "proved",
   "theorems": [
    "C56_monotonic",
    "C56_nan",
    "C56_short",
    "C56_strict_refuted"
   ],
   "note": "Including NaN entries and the strictness refutation."
  },
  {
   "property": "C57",
   "status": "proved",
   "theorems": [
    "C57_bar",
    "C57_full_at_end",
    "C57_constant_width",
    "C57_one_newline",
    "C57_refreshes",
    "C57_num_refresh_refuted",
    "C57_zero"
   ],
   "note": "Width and fullness for one-character markers; float arithmetic idealised. The documented number of refreshes is refuted."
  },
  {
   "property": "C58",
   "status": "proved",
   "theorems": [
    "C58_area_mean",
    "C58_angles",
    "C58_samples_unique",
    "C58_range",
    "C58_mask",
    "C58_constant",
    "C58_weighted",
    "C58_unequal_refinement",
    "C58_single_bin",
    "C58_args"
   ],
   "note": "Floats idealised as reals; all refinement factors, error cases included."
  },
  {
   "property": "C59",
   "status": "proved",
   "theorems": [
    "C59_masked_calls",
    "C59_masked_without_weights",
    "C59_unmasked",
    "C59_repeat_refuted",
    "C59_errors"
   ],
   "note": "Expectation refuted: exact profile and array contents for every call, witness 4/5 then 16/17."
  },
  {
   "property": "C65",
   "status": "proved",
   "theorems": [
    "C65_stale_mask",
    "C65_reuse_refuted"
   ],
   "note": "Expectation refuted: exact profile after a second set-up, with a witness."
  },
  {
   "property": "C60",
   "status": "proved",
   "theorems": [
    "C60_value",
    "C60_constant",
    "C60_refuted",
    "C60_weighted",
    "C60_unequal_refinement",
    "C60_single_bin",
    "C60_defaults"
   ],
   "note": "Expectation refuted: exact value of every cell, weighted form proved right; healpy ang2pix is an arbitrary function."
  },
  {
   "property": "C61",
   "status": "proved",
   "theorems": [
    "C61_projection",
    "C61_frame_unique",
    "C61_target",
    "C61_round_trip",
    "C61_reverse_first",
    "C61_spin",
    "C61_spin_refuted"
   ],
   "note": "One array element at a time; the spin round trip is refuted (every reverse raises)."
  },
  {
   "property": "C66",
   "status": "proved",
   "theorems": [
    "C66_array",
    "C66_array_refuted",
    "C66_transform",
    "C66_agrees",
    "C66_unique",
    "C66_centre",
    "C66_radius_refuted"
   ],
   "note": "Floats idealised as reals; alignment for radius 1 proved, other radii, the exact south-pole centre and repeated use of an array refuted."
  },
  {
   "property": "C62",
   "status": "proved",
   "theorems": [
    "C62_args",
    "C62_value",
    "C62_sampled_unique",
    "C62_x_first",
    "C62_transposed",
    "C62_not_square",
    "C62_single_bin",
    "C62_constant",
    "C62_refuted",
    "C62_cube_args"
   ],
   "note": "Expectation refuted for the object's own mesh layout; value proved for the [x,y,z] layout; healpy functions are arbitrary (their output length is a hypothesis)."
  },
  {
   "property": "C63",
   "status": "proved",
   "theorems": [
    "C63_zero_width",
    "C63_samples",
    "C63_hits",
    "C63_value",
    "C63_runs",
    "C63_empty",
    "C63_equal_counts",
    "C63_mixed_counts",
    "C63_nan",
    "C63_bounds",
    "C63_constant",
    "C63_reversed",
    "C63_few_samples",
    "C63_wrong_shape",
    "C63_unset",
    "C63_refuted",
    "C63_args"
   ],
   "note": "For every outcome of the random draws; the expectation that the calls succeed is refuted (object-array construction)."
  },
  {
   "property": "C67",
   "status": "proved",
   "theorems": [
    "C67_edges",
    "C67_addzero",
    "C67_one_bin",
    "C67_refuted",
    "C67_args"
   ],
   "note": "Floats idealised as reals (log10/power exact); the one-bin default is refuted."
  },
  {
   "property": "C68",
   "status": "proved",
   "theorems": [
    "C68_mask",
    "C68_refuted"
   ],
   "note": "Exact characterisation; the containment expectation is refuted by explicit draws."
  },
  {
   "property": "C64",
   "status": "proved",
   "theorems": [
    "C64_map",
    "C64_weight_map",
    "C64_ring",
    "C64_polar",
    "C64_ring_error",
    "C64_polar_error",
    "C64_ring_weights",
    "C64_polar_weights",
    "C64_mc_remap",
    "C64_profile",
    "C64_rotate",
    "C64_refuted"
   ],
   "note": "Expectation refuted for all inputs; set-ups shown to succeed so that the errors are reached."
  },
  {
   "property": "C70",
   "status": "proved",
   "theorems": [
    "C70_profile",
    "C70_later_calls",
    "C70_pipeline",
    "C70_bounds",
    "C70_constant",
    "C70_wrong_shape",
    "C70_refuted"
   ],
   "note": "Floats idealised as reals, the caller's errors and weights finite; the expectation on later calls is refuted with a witness."
  },
  {
   "property": "C69",
   "status": "proved",
   "theorems": [
    "C69_zero_width",
    "C69_lin_edges",
    "C69_log_edges",
    "C69_single_bin",
    "C69_one_ball",
    "C69_accepts",
    "C69_samples",
    "C69_hits",
    "C69_value_covered",
    "C69_value",
    "C69_runs",
    "C69_empty",
    "C69_equal_counts",
    "C69_mixed_counts",
    "C69_short",
    "C69_bounds",
    "C69_constant",
    "C69_mesh",
    "C69_x_first",
    "C69_no_samples",
    "C69_negative",
    "C69_reversed",
    "C69_unset",
    "C69_refuted",
    "C69_layout_refuted"
   ],
   "note": "For every outcome of the random draws; the expectations that the calls succeed and that the layout agrees with the dense class are refuted."
  },
  {
   "property": "C71",
   "status": "proved",
   "theorems": [
    "C71_projection",
    "C71_star_names",
    "C71_increasing",
    "C71_right",
    "C71_left_edge",
    "C71_seam",
    "C71_exactly_when",
    "C71_refuted",
    "C71_nside1_refuted",
    "C71_nside1"
   ],
   "note": "Integer arithmetic and exact real geometry; exact characterisation of the pixels with right sets, the expectation for every pixel is refuted."
  },
  {
   "property": "C72",
   "status": "proved",
   "theorems": [
    "C72_ring_args",
    "C72_box_args",
    "C72_ring_samples",
    "C72_box_samples",
    "C72_ring_runs",
    "C72_ring_refused",
    "C72_box_runs",
    "C72_refuted",
    "C72_single_refuted"
   ],
   "note": "Floats idealised as reals, healpy.ang2pix an arbitrary function; the expectation that every documented argument works is refuted."
  },
  {
   "property": "C73",
   "status": "proved",
   "theorems": [
    "C73_runs",
    "C73_defined",
    "C73_few_edges",
    "C73_aligned",
    "C73_inner",
    "C73_to_the_end",
    "C73_all_edges",
    "C73_one_bin",
    "C73_left_ignored",
    "C73_weighted",
    "C73_weighted_equal",
    "C73_mean_error_refuted",
    "C73_unit_weights_refuted"
   ],
   "note": "Floats idealised as reals; exact characterisation of every case, the two expectations are refuted."
  },
  {
   "property": "C74",
   "status": "proved",
   "theorems": [
    "C74_grid",
    "C74_default",
    "C74_spacing",
    "C74_spacing_refuted",
    "C74_refused",
    "C74_labels",
    "C74_labels_default_refuted",
    "C74_labels_default_error",
    "C74_names_refuted",
    "C74_frame"
   ],
   "note": "Floats idealised as reals, matplotlib calls recorded as values; the expectations about spacing and about the helpers with missing names are refuted."
  },
  {
   "property": "C75",
   "status": "proved",
   "theorems": [
    "C75_clean",
    "C75_remap",
    "C75_in_force_unique",
    "C75_refused",
    "C75_box_args",
    "C75_provenance",
    "C75_radial",
    "C75_half_done",
    "C75_half_done_refuted",
    "C75_refused_radial_refuted",
    "C75_edges",
    "C75_rings_refused",
    "C75_missing"
   ],
   "note": "Floats idealised as reals; refinement factors are natural numbers; outcomes of polar2radial with arrays of clashing shapes are arbitrary. The expectation that failing calls leave no trace is refuted."
  },
  {
   "property": "C76",
   "status": "proved",
   "theorems": [
    "C76_edges",
    "C76_rings_refused",
    "C76_missing",
    "C76_radial_missing",
    "C76_clean",
    "C76_refused",
    "C76_weights",
    "C76_remap",
    "C76_no_weights",
    "C76_ready",
    "C76_new_rings",
    "C76_new_box",
    "C76_stale_refuted",
    "C76_half_done",
    "C76_half_done_weights",
    "C76_provenance",
    "C76_radial"
   ],
   "note": "Floats idealised as reals; outcomes of polar2radial with arrays of clashing shapes, and the exception of get_weights without a box, are arbitrary. The expectations that remap follows the last set-up and that a raising set-up leaves the object usable are refuted."
  },
  {
   "property": "C77",
   "status": "proved",
   "theorems": [
    "C77_remap",
    "C77_clean",
    "C77_refused",
    "C77_unset",
    "C77_same_sides",
    "C77_no_layers",
    "C77_no_edges",
    "C77_moved",
    "C77_single_shell",
    "C77_stale_refuted",
    "C77_args"
   ],
   "note": "Floats idealised as reals; healpy functions arbitrary. The expectations that images follow the cube and that a raising set-up leaves no trace are refuted."
  },
  {
   "property": "C78",
   "status": "proved",
   "theorems": [
    "C78_missing",
    "C78_half_done",
    "C78_clean",
    "C78_refused",
    "C78_weights",
    "C78_remap",
    "C78_stored",
    "C78_no_weights",
    "C78_ready",
    "C78_new_cube",
    "C78_new_shells",
    "C78_single_shell",
    "C78_args",
    "C78_stale_refuted"
   ],
   "note": "Floats idealised as reals; the exception class of healpy for a missing nside and of numpy for missing edges is a parameter. The expectations that remap follows the set-ups and that a raising set-up leaves no trace are refuted."
  },
  {
   "property": "C79",
   "status": "proved",
   "theorems": [
    "C79_clean",
    "C79_refused",
    "C79_args",
    "C79_remap",
    "C79_ready",
    "C79_transform",
    "C79_unset",
    "C79_refused_centre",
    "C79_no_map",
    "C79_raw",
    "C79_stale_refuted"
   ],
   "note": "Floats idealised as reals; rebin factors positive; healpy functions and the exception of ang2pix for a missing nside are parameters; nothing is claimed about a centre at the exact south pole. The expectations that remap follows setup_map and that a raising setup_box leaves no trace are refuted."
  },
  {
   "property": "C80",
   "status": "proved",
   "theorems": [
    "C80_longitude",
    "C80_full_turn_refuted",
    "C80_colatitude",
    "C80_centre",
    "C80_tiny_refuted",
    "C80_huge_refuted",
    "C80_ortho",
    "C80_radius",
    "C80_polar_radius",
    "C80_true_longitude"
   ],
   "note": "IEEE binary64 with infinities and NaN; x**2. is the rounded product; arctan2 and arccos of the C library are arbitrary functions within their ranges. The expectations about 2 pi and about extreme sizes are refuted."
  },
  {
   "property": "C81",
   "status": "proved",
   "theorems": [
    "C81_shift",
    "C81_not_finite",
    "C81_array",
    "C81_many",
    "C81_true_shift",
    "C81_true_many"
   ],
   "note": "IEEE binary64; 2 pi is the double 2 np.pi."
  },
  {
   "property": "C82",
   "status": "proved",
   "theorems": [
    "C82_longitude",
    "C82_upper_limit_refuted",
    "C82_radius",
    "C82_tiny_radius_refuted",
    "C82_huge_radius_refuted",
    "C82_colatitude"
   ],
   "note": "IEEE binary64; x**2. is the rounded product; cos and arccos of the C library are arbitrary functions within their ranges. The expectations about the upper limit and about extreme sizes are refuted."
  },
  {
   "property": "C83",
   "status": "proved",
   "theorems": [
    "C83_view",
    "C83_camera_shortened",
    "C83_undisturbed",
    "C83_clean",
    "C83_reading",
    "C83_not_set_up",
    "C83_short",
    "C83_first_short",
    "C83_half_done",
    "C83_camera_list_refuted",
    "C83_refused_setup_refuted"
   ],
   "note": "Floats idealised as reals; coordinates given to transform and reverse are single numbers; lists of numbers. The expectations that the view belongs to the set-up and that a raising set-up leaves the object as it was are refuted."
  },
  {
   "property": "C84",
   "status": "proved",
   "theorems": [
    "C84_dense_missing",
    "C84_mc_missing",
    "C84_dense_remap",
    "C84_dense_ring",
    "C84_dense_polar",
    "C84_mc_ring",
    "C84_mc_polar",
    "C84_no_trace",
    "C84_setup",
    "C84_clean",
    "C84_profile"
   ],
   "note": "Floats idealised as reals; refinements positive; healpy functions and their exceptions for a missing nside are parameters. The expectation that some order of calls works is refuted for all histories."
  },
  {
   "property": "C85",
   "status": "proved",
   "theorems": [
    "C85_negative",
    "C85_empty",
    "C85_edges",
    "C85_distinct",
    "C85_mids",
    "C85_polargrid",
    "C85_refuted"
   ],
   "note": "IEEE binary64 with infinities and NaN; np.linspace is the operations of numpy 1.x. The expectation that cells are distinct is refuted for unresolved cells."
  },
  {
   "property": "C86",
   "status": "proved",
   "theorems": [
    "C86_indices",
    "C86_star_inverse",
    "C86_centres"
   ],
   "note": "Binary64 rounding without overflow; scalar branches on Python integers."
  },
  {
   "property": "C87",
   "status": "proved",
   "theorems": [
    "C87_shell",
    "C87_inner",
    "C87_refuted"
   ],
   "note": "IEEE binary64 with infinities and NaN; the pow of the C library is any function within 2^-52 relative of the true power. The expectation that no radius is below r_min is refuted for every r_min >= 1000."
  },
  {
   "property": "C88",
   "status": "proved",
   "theorems": [
    "C88_mean",
    "C88_constant",
    "C88_mask",
    "C88_refuted",
    "C88_mask_finite"
   ],
   "note": "IEEE binary64 with infinities and NaN; the summation order of numpy is an arbitrary bracketing. Which pixel a sample falls on is arbitrary here. The expectation that constants are kept exactly is refuted."
  },
  {
   "property": "C89",
   "status": "proved",
   "theorems": [
    "C89_remap",
    "C89_identity",
    "C89_inside",
    "C89_nan",
    "C89_refuted",
    "C89_remap2",
    "C89_remap3",
    "C89_identity2",
    "C89_identity3",
    "C89_inside2",
    "C89_inside3",
    "C89_nan2",
    "C89_nan3",
    "C89_errors"
   ],
   "note": "IEEE binary64 with infinities and NaN, one rounding per operation (no fused multiply-add); real(i) is single precision. The expectation that an output cell inside a source cell ignores its neighbours is refuted for NaN neighbours."
  },
  {
   "property": "C90",
   "status": "proved",
   "theorems": [
    "C90_accuracy",
    "C90_bounds",
    "C90_constant",
    "C90_mean",
    "C90_weighted",
    "C90_identity",
    "C90_neighbour",
    "C90_refused",
    "C90_identity_refuted",
    "C90_constant_refuted"
   ],
   "note": "IEEE binary64 with infinities and NaN; the summation order of numpy is an arbitrary bracketing. The expectations of isolated bins and of exact constants are refuted."
  },
  {
   "property": "C91",
   "status": "proved",
   "theorems": [
    "C91_runs",
    "C91_accuracy",
    "C91_mean",
    "C91_weighted",
    "C91_weighted_equal",
    "C91_defined",
    "C91_nan_refuted"
   ],
   "note": "IEEE binary64 with infinities and NaN; the summation order of numpy is an arbitrary bracketing. A single old bin (n = 1) is left out: there the exact formula can divide by a difference that vanishes without being of no length. The expectation that missing errors are NaN is refuted."
  },
  {
   "property": "C92",
   "status": "proved",
   "theorems": [
    "C92_mean",
    "C92_weighted",
    "C92_local",
    "C92_monotone",
    "C92_spoilt",
    "C92_mask_refuted",
    "C92_errors",
    "C92_errors_weighted",
    "C92_areas",
    "C92_pixarea",
    "C92_cumulative",
    "C92_cumulative_errors",
    "C92_order",
    "C92_lengths",
    "C92_single"
   ],
   "note": "IEEE binary64 with infinities and NaN; the summation order of numpy is an arbitrary bracketing, np.cumsum adds from the left. Arrays of one shape. The expectation that a zero weight masks a bad pixel is refuted."
  },
  {
   "property": "C93",
   "status": "proved",
   "theorems": [
    "C93_cdf_refused",
    "C93_infinite",
    "C93_accepted",
    "C93_accepted_refuted",
    "C93_lengths",
    "C93_single",
    "C93_nan",
    "C93_edges",
    "C93_accuracy",
    "C93_draw",
    "C93_draws",
    "C93_monotone",
    "C93_frequency",
    "C93_range_refuted",
    "C93_lost_refuted"
   ],
   "note": "IEEE binary64 with infinities and NaN; the draws of numpy are the multiples of 2^-53 below 1 as inputs. kind='linear' (np.interp), not the default cubic spline. The expectations of acceptance, range and completeness are refuted."
  },
  {
   "property": "C94",
   "status": "proved",
   "theorems": [
    "C94_frequency",
    "C94_mean",
    "C94_unchanged",
    "C94_large",
    "C94_monotone",
    "C94_tiny",
    "C94_positive_refuted",
    "C94_binary",
    "C94_binary_nonfinite",
    "C94_array",
    "C94_kept",
    "C94_zero_probability_refuted"
   ],
   "note": "IEEE binary64 with infinities and NaN; the draws of numpy are the multiples of 2^-53 below 1 as inputs. The shuffle that follows a probabilistic draw is in C52. Two expectations are refuted."
  },
  {
   "property": "C95",
   "status": "proved",
   "theorems": [
    "C95_latitude",
    "C95_poles",
    "C95_back",
    "C95_back_refuted",
    "C95_area_accepted",
    "C95_area_accuracy",
    "C95_area_sign",
    "C95_area_order",
    "C95_whole_sky",
    "C95_cap_refuted"
   ],
   "note": "IEEE binary64 with infinities and NaN; the accuracy of the C library cosine is a hypothesis, met by an example library. Two expectations are refuted."
  },
  {
   "property": "C96",
   "status": "proved",
   "theorems": [
    "C96_polar_points",
    "C96_polar",
    "C96_sphere_points",
    "C96_sphere_centre",
    "C96_sphere",
    "C96_pole_lost",
    "C96_pole_refuted",
    "C96_centre_refuted",
    "C96_cart",
    "C96_axis_refuted"
   ],
   "note": "IEEE binary64 with infinities and NaN; accuracies of the C library sine, cosine, arctan2 and arccos are hypotheses, met by an example library. Three expectations are refuted."
  },
  {
   "property": "C97",
   "status": "proved",
   "theorems": [
    "C97_refused",
    "C97_rotate",
    "C97_circle",
    "C97_edges",
    "C97_edges_refuted",
    "C97_wrap_refuted"
   ],
   "note": "IEEE binary64 with infinities and NaN; float grids, first bin of positive width. Two expectations are refuted."
  },
  {
   "property": "C98",
   "status": "proved",
   "theorems": [
    "C98_belt_sky",
    "C98_cap_sky",
    "C98_pole_sky",
    "C98_belt_plane",
    "C98_cap_plane",
    "C98_trip",
    "C98_arrays_sky",
    "C98_arrays_plane",
    "C98_missing_refuted",
    "C98_pole_lost",
    "C98_pole_refuted",
    "C98_last_column_refuted",
    "C98_longitude_refuted"
   ],
   "note": "IEEE binary64 with infinities and NaN; cos and arccos are any functions within about an ulp. Four expectations are refuted."
  },
  {
   "property": "C99",
   "status": "proved",
   "theorems": [
    "C99_centres",
    "C99_points",
    "C99_diamond",
    "C99_interior",
    "C99_sky",
    "C99_colatitude",
    "C99_longitude",
    "C99_two_pi_refuted",
    "C99_longitude_refuted",
    "C99_over_pole_refuted"
   ],
   "note": "IEEE binary64 with infinities and NaN; the centre is the one computed by healpix_pix2xy in MIndexFloat.v, the draws are the multiples of 2^-53 of numpy, arccos is any function within about an ulp. Three expectations are refuted."
  },
  {
   "property": "C100",
   "status": "proved",
   "theorems": [
    "C100_close",
    "C100_outline",
    "C100_halves",
    "C100_order",
    "C100_corners",
    "C100_negative",
    "C100_closed_refuted",
    "C100_meet_refuted"
   ],
   "note": "IEEE binary64 with infinities and NaN; the centre is the one computed by healpix_pix2xy in MIndexFloat.v. Two expectations (closed outline, neighbouring outlines meet) are refuted."
  },
  {
   "property": "C101",
   "status": "proved",
   "theorems": [
    "C101_square",
    "C101_perimeter",
    "C101_closed",
    "C101_refused",
    "C101_arc",
    "C101_arc_negative",
    "C101_circle_open",
    "C101_circle_closed_refuted",
    "C101_disc"
   ],
   "note": "IEEE binary64 with infinities and NaN; sin and cos are any functions within about an ulp. One expectation (closed circle) is refuted."
  },
  {
   "property": "C102",
   "status": "proved",
   "theorems": [
    "C102_edges",
    "C102_refused",
    "C102_nearest",
    "C102_origin",
    "C102_inside",
    "C102_visible_refuted"
   ],
   "note": "IEEE binary64 with infinities and NaN. One expectation (visible edges are kept) is refuted for centres other than the origin, although it holds in exact arithmetic (C55)."
  },
  {
   "property": "C103",
   "status": "proved",
   "theorems": [
    "C103_points",
    "C103_inside",
    "C103_area",
    "C103_errors",
    "C103_base"
   ],
   "note": "IEEE binary64 with infinities and NaN; the C function behind **2. is any function accurate to 2^-52."
  },
  {
   "property": "C104",
   "status": "proved",
   "theorems": [
    "C104_errors",
    "C104_rotation",
    "C104_start_to_end",
    "C104_arrays",
    "C104_shift",
    "C104_same_pole",
    "C104_numbers_refuted",
    "C104_near_turn_refuted"
   ],
   "note": "IEEE binary64 with infinities and NaN; sin, cos, arctan2, arccos, np.sum, np.dot and np.linalg.inv are any functions within stated accuracies (an instance is given). Two expectations are refuted."
  },
  {
   "property": "C105",
   "status": "proved",
   "theorems": [
    "C105_refused",
    "C105_full_turn",
    "C105_pole",
    "C105_spin",
    "C105_full_turn_refuted"
   ],
   "note": "IEEE binary64 with infinities and NaN; the library functions are any within stated accuracies (an instance is given). The bound says nothing for points at the centre itself beyond the ranges. One expectation is refuted."
  },
  {
   "property": "C106",
   "status": "proved",
   "theorems": [
    "C106_sorted",
    "C106_values",
    "C106_on_edge",
    "C106_short",
    "C106_refuted"
   ],
   "note": "IEEE binary64; one expectation is refuted (the rounded counterpart of C28)."
  }
 ]
}