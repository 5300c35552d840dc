{
 "claims": [
  {
   "property": "C01",
   "status": "proved",
   "theorems": [
    "C01_binop_aligned",
    "C01_row_major",
    "C01_default_dims"
   ],
   "note": "Hypotheses: operands well formed (one label per position, distinct (class,name) keys), shared keys of equal length."
  },
  {
   "property": "C02",
   "status": "proved",
   "theorems": [
    "C02_binop_dims"
   ],
   "note": ""
  },
  {
   "property": "C03",
   "status": "proved",
   "theorems": [
    "C03_binop_exchange"
   ],
   "note": ""
  },
  {
   "property": "C04",
   "status": "proved",
   "theorems": [
    "C04_transpose",
    "C04_transpose_any",
    "C04_transpose_inverse",
    "C04_reorder"
   ],
   "note": ""
  },
  {
   "property": "C05",
   "status": "proved",
   "theorems": [
    "C05_dims_track_shape",
    "C05_keepdims_refuted",
    "C05_constructor_refuted",
    "C05_broadcast_refuted",
    "C05_t_refuted",
    "C05_add_dim_refuted"
   ],
   "note": "C05_*_refuted give the cases excluded by the statement (keepdims, constructor, broadcast of length one, t with name clash, add_dim with empty dimension)."
  },
  {
   "property": "C06",
   "status": "proved",
   "theorems": [
    "C06_matrix_transpose",
    "C06_twice"
   ],
   "note": ""
  },
  {
   "property": "C07",
   "status": "proved",
   "theorems": [
    "C07_reduce",
    "C07_reduce_all",
    "C07_squeeze",
    "C07_squeeze_axes"
   ],
   "note": ""
  },
  {
   "property": "C08",
   "status": "proved",
   "theorems": [
    "C08_getitem",
    "C08_mask"
   ],
   "note": ""
  },
  {
   "property": "C09",
   "status": "proved",
   "theorems": [
    "C09_take"
   ],
   "note": ""
  },
  {
   "property": "C10",
   "status": "proved",
   "theorems": [
    "C10_remove_tail",
    "C10_remove_tail_matrix",
    "C10_remove_rep",
    "C10_remove_rep_none",
    "C10_not_adjacent_refuted"
   ],
   "note": "C10_not_adjacent_refuted: non-adjacent repetition dimensions raise."
  },
  {
   "property": "C11",
   "status": "proved",
   "theorems": [
    "C11_entries",
    "C11_arithmetic",
    "C11_real_entries"
   ],
   "note": "C11_real_entries covers the deviation for real arrays."
  },
  {
   "property": "C12",
   "status": "proved",
   "theorems": [
    "C12_expand_diagonals"
   ],
   "note": ""
  },
  {
   "property": "C13",
   "status": "proved",
   "theorems": [
    "C13_add_dim",
    "C13_add_dim_present",
    "C13_replace_dim"
   ],
   "note": ""
  },
  {
   "property": "C14",
   "status": "proved",
   "theorems": [
    "C14_equivalence",
    "C14_equal_iff",
    "C14_hash",
    "C14_hash_refuted"
   ],
   "note": "C14_hash_refuted: the hash contract is violated."
  },
  {
   "property": "C15",
   "status": "proved",
   "theorems": [
    "C15_anonymous_fresh",
    "C15_anonymous_history",
    "C15_anonymous_succeeds",
    "C15_other_class_refuted"
   ],
   "note": "C15_other_class_refuted: names of other classes may clash."
  },
  {
   "property": "C16",
   "status": "proved",
   "theorems": [
    "C16_history",
    "C16_update_history",
    "C16_pop_refuted"
   ],
   "note": ""
  },
  {
   "property": "C17",
   "status": "proved",
   "theorems": [
    "C17_block_rename_dim",
    "C17_block_rename_var",
    "C17_rename",
    "C17_rename_onto",
    "C17_rename_same",
    "C17_rename_missing"
   ],
   "note": ""
  },
  {
   "property": "C18",
   "status": "proved",
   "theorems": [
    "C18_element_names",
    "C18_element_shape",
    "C18_invariant",
    "C18_get_set",
    "C18_set_element",
    "C18_set_ivar",
    "C18_del",
    "C18_own_dimension_refuted",
    "C18_stale_element_refuted",
    "C18_element_like_refuted",
    "C18_element_positional_refuted",
    "C18_ivar_length_refuted"
   ],
   "note": ""
  },
  {
   "property": "C19",
   "status": "proved",
   "theorems": [
    "C19_sort",
    "C19_labels_ascending",
    "C19_single_point_refuted",
    "C19_unused_dimension_refuted"
   ],
   "note": ""
  },
  {
   "property": "C20",
   "status": "proved",
   "theorems": [
    "C20_filter",
    "C20_mask_labels_refuted"
   ],
   "note": ""
  },
  {
   "property": "C21",
   "status": "proved",
   "theorems": [
    "C21_hyper",
    "C21_labels",
    "C21_wrong_count",
    "C21_descending_refuted",
    "C21_duplicate_refuted"
   ],
   "note": "C21_hyper (place in sorted order), C21_labels (labels right if values first appear ascending), C21_wrong_count (incomplete sets refused). C21_descending_refuted: with values first appearing in descending order labels and data disagree (stable_uniq labels, sorted data). C21_duplicate_refuted: one combination missing and one twice is accepted."
  },
  {
   "property": "C22",
   "status": "proved",
   "theorems": [
    "C22_blocks",
    "C22_partition",
    "C22_repeated",
    "C22_shared_refuted",
    "C22_order_refuted",
    "C22_scalar_refuted"
   ],
   "note": "C22_blocks, C22_partition, C22_repeated. C22_shared_refuted, C22_order_refuted, C22_scalar_refuted: outside the conditions variables are handed out several times."
  },
  {
   "property": "C23",
   "status": "proved",
   "theorems": [
    "C23_split",
    "C23_roundtrip",
    "C23_unit_refuted",
    "C23_single_refuted",
    "C23_digit_refuted",
    "C23_large_refuted"
   ],
   "note": "The round trip is proved for the builder that the readers use (readbase.py _make_matrix_from_block); combine_elements_to_matrix in the same file is not called. Deviations proved as refuted witnesses: the unit of the matrix is lost, a 1x1 matrix and a matrix whose name contains a digit stay split, and from eleven ports on two elements share one name so that an element is lost."
  },
  {
   "property": "C24",
   "status": "proved",
   "theorems": [
    "C24_segment",
    "C24_outside",
    "C24_grid",
    "C24_between",
    "C24_straight",
    "C24_refuses",
    "C24_none",
    "C24_none_order_refuted"
   ],
   "note": "Rational arithmetic; scipy's interp1d (mode linear of DataBlock.interpolate) is not modelled. C24_none_order_refuted: unordered new points are mislabelled."
  },
  {
   "property": "C25",
   "status": "proved",
   "theorems": [
    "C25_read",
    "C25_read_noise",
    "C25_options",
    "C25_roundtrip",
    "C25_transposed",
    "C25_single",
    "C25_threeport_refuted"
   ],
   "note": "Text level: tokenizer, option line regular expression, record arrangement, conversion and shaping; writer with column-first order. C25_roundtrip for n <= 2, C25_transposed and C25_single are the universal deviations. float(), the number printer and the complex conversions are parameters; Comments() property extraction is not modelled."
  },
  {
   "property": "C26",
   "status": "proved",
   "theorems": [
    "C26_ports",
    "C26_all_numbers",
    "C26_records",
    "C26_single",
    "C26_wrapped_refuted"
   ],
   "note": "C26_ports characterises the result by an iff over the independent notion of framed records; C26_records is the completeness part; C26_single and C26_wrapped_refuted record where the English expectation fails."
  },
  {
   "property": "C27",
   "status": "proved",
   "theorems": [
    "C27_two_port",
    "C27_others",
    "C27_split",
    "C27_short_refuted",
    "C27_above_refuted"
   ],
   "note": "C27_two_port is an iff; C27_split carries it through the search for the number of ports; C27_short_refuted and C27_above_refuted record rejected files."
  },
  {
   "property": "C28",
   "status": "proved",
   "theorems": [
    "C28_waves",
    "C28_thru",
    "C28_associative",
    "C28_transfer_product",
    "C28_network"
   ],
   "note": "Over any field with 2 <> 0; the square root is a parameter with sq z * sq z = z at the impedances used."
  },
  {
   "property": "C29",
   "status": "proved",
   "theorems": [
    "C29_left",
    "C29_right",
    "C29_both",
    "C29_left_solves",
    "C29_right_solves",
    "C29_network"
   ],
   "note": "C29_network is the method on networks given in any description."
  },
  {
   "property": "C30",
   "status": "proved",
   "theorems": [
    "C30_same_network",
    "C30_defined",
    "C30_unique",
    "C30_chain",
    "C30_chains_agree",
    "C30_round_trip"
   ],
   "note": "C30_defined: the conversion fails only if the network has no matrix of the wanted kind. Two-ports only (the code hard-codes 2)."
  },
  {
   "property": "C31",
   "status": "proved",
   "theorems": [
    "C31_honoured",
    "C31_default",
    "C31_restored",
    "C31_ignored",
    "C31_explicit_impedance_refuted",
    "C31_getitem_refuted"
   ],
   "note": "C31_ignored, C31_explicit_impedance_refuted and C31_getitem_refuted are the cases where the impedance is not honoured."
  },
  {
   "property": "C32",
   "status": "proved",
   "theorems": [
    "C32_round_trip",
    "C32_readable",
    "C32_ABCD",
    "C32_Rn_refuted"
   ],
   "note": "Over pairs of reals; axioms of the standard reals are listed under Print Assumptions. C32_ABCD and C32_Rn_refuted: Rn doubled from ABCD."
  },
  {
   "property": "C33",
   "status": "proved",
   "theorems": [
    "C33_sources",
    "C33_chains_agree",
    "C33_round_trip"
   ],
   "note": "Conjugation is any ring involution; correlation matrices Hermitian."
  },
  {
   "property": "C34",
   "status": "proved",
   "theorems": [
    "C34_multiply",
    "C34_inv",
    "C34_inv_multiply",
    "C34_det",
    "C34_solve",
    "C34_solve_columns",
    "C34_rectangular_refuted",
    "C34_axes_refuted"
   ],
   "note": "numpy.linalg's routines for one matrix are parameters with their specification as hypothesis. C34_rectangular_refuted, C34_axes_refuted: labels of rectangular products, matrix axes not last."
  },
  {
   "property": "C35",
   "status": "proved",
   "theorems": [
    "C35_angle",
    "C35_angle_deg",
    "C35_unwrap",
    "C35_turns",
    "C35_restored",
    "C35_degrees",
    "C35_sqrt",
    "C35_delay",
    "C35_large_step_refuted"
   ],
   "note": "Over the standard reals (axioms listed by Print Assumptions), non zero samples. C35_large_step_refuted: larger steps cannot be recovered."
  },
  {
   "property": "C36",
   "status": "proved",
   "theorems": [
    "C36_smooth_window",
    "C36_smooth_bounds",
    "C36_smooth_straight",
    "C36_smooth_even_refuted",
    "C36_poly_window",
    "C36_poly_reproduces",
    "C36_poly_last_ignored",
    "C36_poly_contains_refuted"
   ],
   "note": "polyfit is any least squares fit (section hypothesis). C36_smooth_even_refuted, C36_poly_contains_refuted: even apertures are not symmetric, the window of poly_smooth need not contain its point."
  },
  {
   "property": "C37",
   "status": "proved",
   "theorems": [
    "C37_characters",
    "C37_exponent",
    "C37_prefixed",
    "C37_only_prefixes",
    "C37_base_kept",
    "C37_unambiguous",
    "C37_spaces",
    "C37_read",
    "C37_read_plain",
    "C37_exponent_refuted",
    "C37_brackets_refuted",
    "C37_format",
    "C37_format_range",
    "C37_format_zero",
    "C37_round_trip",
    "C37_zetta_refuted"
   ],
   "note": "C37_exponent_refuted, C37_brackets_refuted, C37_zetta_refuted: numbers with exponent, bracketed units and zetta/yotta are misread."
  },
  {
   "property": "C38",
   "status": "proved",
   "theorems": [
    "C38_no_separator",
    "C38_restored",
    "C38_injective",
    "C38_only_then",
    "C38_collision_refuted"
   ],
   "note": "C38_only_then: names with a backslash are not restored; C38_collision_refuted."
  },
  {
   "property": "C39",
   "status": "proved",
   "theorems": [
    "C39_success",
    "C39_kept",
    "C39_refused",
    "C39_failure_grows",
    "C39_history",
    "C39_labels",
    "C39_atomic_refuted",
    "C39_label_refuted"
   ],
   "note": "h5py is modelled as named arrays with maxshape; C39_atomic_refuted and C39_label_refuted are witnesses that the file is not restored after a refused append and that the new index label is not stored."
  },
  {
   "property": "C40",
   "status": "proved",
   "theorems": [
    "C40_hypercube",
    "C40_order",
    "C40_refused",
    "C40_any_order",
    "C40_merge",
    "C40_single",
    "C40_not_full",
    "C40_shapes",
    "C40_association",
    "C40_names_refuted"
   ],
   "note": "Order of values and names are parameters with a strict total order; conversion of elements to the type of the first array is a parameter. C40_names_refuted: blocks with other parameter names are merged as if they had the names of the first."
  },
  {
   "property": "C41",
   "status": "proved",
   "theorems": [
    "C41_characters",
    "C41_line_numbers",
    "C41_groups",
    "C41_complete",
    "C41_attribute",
    "C41_columns",
    "C41_ragged",
    "C41_no_header",
    "C41_blocks",
    "C41_lines",
    "C41_truncated_refuted"
   ],
   "note": "Float conversion is a parameter; make_matrices is not part of this property. C41_truncated_refuted is the silently dropped last block."
  },
  {
   "property": "C42",
   "status": "proved",
   "theorems": [
    "C42_many",
    "C42_many_at_end",
    "C42_optional",
    "C42_one_of",
    "C42_end",
    "C42_suffix",
    "C42_one_function_refuted"
   ],
   "note": "C42_many_at_end and C42_one_function_refuted: deviations at the end of a stream and for the function argument."
  },
  {
   "property": "C43",
   "status": "proved",
   "theorems": [
    "C43_characters",
    "C43_decimal",
    "C43_prefix",
    "C43_groups",
    "C43_order",
    "C43_columns",
    "C43_roundtrip",
    "C43_letter_refuted",
    "C43_empty_refuted",
    "C43_ragged_refuted"
   ],
   "note": "C43_groups is an iff; C43_roundtrip goes from columns to text lines and back, with to_numeric and the printers as parameters. Conversion of columns to arrays and the extraction of properties from comments are not modelled; Re()/Im() names are joined by C45, element names by C22/C23."
  },
  {
   "property": "C44",
   "status": "proved",
   "theorems": [
    "C44_characters",
    "C44_line_numbers",
    "C44_parse",
    "C44_sizes",
    "C44_roundtrip",
    "C44_read",
    "C44_order_refuted",
    "C44_fewer_refuted",
    "C44_blank_refuted",
    "C44_nan_refuted",
    "C44_empty_refuted"
   ],
   "note": "C44_parse and C44_sizes are about the parser on tokens, C44_roundtrip about writer, tokenizer and parser together. Witnesses show that variables over the sweeps in another order are silently misread, and that variables over fewer sweeps, names with blanks, nan and blocks without numeric variables give files which cannot be read."
  },
  {
   "property": "C45",
   "status": "proved",
   "theorems": [
    "C45_allvarnames",
    "C45_name",
    "C45_join",
    "C45_taken_refuted",
    "C45_twice_refuted",
    "C45_element_refuted"
   ],
   "note": "The element operations (addition, times 1j, product, exp of pi/180*1j) are parameters. Refuted witnesses: if the name is taken the parts stay; of two names for one part only the last is used; joining parts of S12 while a matrix S is present changes the matrix."
  },
  {
   "property": "C46",
   "status": "proved",
   "theorems": [
    "C46_lookup",
    "C46_contains",
    "C46_assign",
    "C46_outer",
    "C46_copy",
    "C46_empty_parent",
    "C46_contains_refuted",
    "C46_copy_refuted"
   ],
   "note": "Heaps are acyclic (objects are younger than what they refer to). C46_contains_refuted, C46_copy_refuted: membership below empty dictionaries or lists, copies lose their scope."
  },
  {
   "property": "C47",
   "status": "proved",
   "theorems": [
    "C47_lookup",
    "C47_keys",
    "C47_agree",
    "C47_empty_parent",
    "C47_keys_refuted"
   ],
   "note": "C47_keys_refuted: keys() misses inherited keys."
  },
  {
   "property": "C48",
   "status": "proved",
   "theorems": [
    "C48_stable_uniq",
    "C48_runs",
    "C48_total",
    "C48_strict",
    "C48_lex_order",
    "C48_lex_order_canonical",
    "C48_numbers",
    "C48_mixed_refuted",
    "C48_mixed",
    "C48_flatten",
    "C48_flatten_flat"
   ],
   "note": "C48_mixed(_refuted): names of both sorts cannot be ordered. Digit-free texts that float() accepts are not modelled."
  },
  {
   "property": "C49",
   "status": "proved",
   "theorems": [
    "C49_match",
    "C49_keys",
    "C49_pattern",
    "C49_pattern_unique",
    "C49_mdif_matrix",
    "C49_mdif_vector",
    "C49_duplicate_refuted",
    "C49_gaps_refuted"
   ],
   "note": "C49_duplicate_refuted: an MDIF index given twice can hide a missing one. C49_gaps_refuted: rows and columns may have gaps, the axes are numbered from 0. A trailing newline in a name is not modelled."
  },
  {
   "property": "C50",
   "status": "proved",
   "theorems": [
    "C50_leads_to",
    "C50_same",
    "C50_relative",
    "C50_splitall",
    "C50_splitall_refuted"
   ],
   "note": "POSIX paths; cwd is any absolute path. C50_splitall_refuted: not for paths with repeated slashes."
  },
  {
   "property": "C51",
   "status": "proved",
   "theorems": [
    "C51_negative_axis"
   ],
   "note": ""
  },
  {
   "property": "C52",
   "status": "proved",
   "theorems": [
    "C52_labels_of_left",
    "C52_labels_ignored_refuted"
   ],
   "note": ""
  },
  {
   "property": "C53",
   "status": "proved",
   "theorems": [
    "C53_cumulate",
    "C53_unit_dropped"
   ],
   "note": ""
  },
  {
   "property": "C54",
   "status": "proved",
   "theorems": [
    "C54_xname_parity"
   ],
   "note": ""
  },
  {
   "property": "C55",
   "status": "proved",
   "theorems": [
    "C55_passive",
    "C55_kinds"
   ],
   "note": ""
  },
  {
   "property": "C56",
   "status": "proved",
   "theorems": [
    "C56_characters",
    "C56_complete",
    "C56_once",
    "C56_plain_matrix_refuted",
    "C56_labels_refuted",
    "C56_length_refuted",
    "C56_element_refuted"
   ],
   "note": ""
  },
  {
   "property": "C57",
   "status": "proved",
   "theorems": [
    "C57_standard",
    "C57_normalize",
    "C57_clash",
    "C57_rivals_refuted",
    "C57_dimension_refuted"
   ],
   "note": ""
  },
  {
   "property": "C58",
   "status": "proved",
   "theorems": [
    "C58_svd",
    "C58_svd_fails",
    "C58_eig",
    "C58_check",
    "C58_check_passive",
    "C58_eig_refuted",
    "C58_switch",
    "C58_reciprocal",
    "C58_sign_refuted"
   ],
   "note": ""
  },
  {
   "property": "C59",
   "status": "proved",
   "theorems": [
    "C59_plain",
    "C59_unit",
    "C59_sound",
    "C59_matches",
    "C59_stripped",
    "C59_properties",
    "C59_reads",
    "C59_no_value",
    "C59_full",
    "C59_reread",
    "C59_extend",
    "C59_classes",
    "C59_bang_refuted"
   ],
   "note": ""
  },
  {
   "property": "C60",
   "status": "proved",
   "theorems": [
    "C60_indexed",
    "C60_block",
    "C60_file",
    "C60_no_attributes",
    "C60_complex_attribute",
    "C60_values_refuted",
    "C60_range_refuted",
    "C60_lost_refuted"
   ],
   "note": ""
  },
  {
   "property": "C61",
   "status": "proved",
   "theorems": [
    "C61_roundtrip",
    "C61_expandable",
    "C61_names",
    "C61_slash",
    "C61_class",
    "C61_unused_refuted",
    "C61_format_refuted",
    "C61_axis_refuted",
    "C61_element_refuted"
   ],
   "note": ""
  },
  {
   "property": "C62",
   "status": "proved",
   "theorems": [
    "C62_stack",
    "C62_missing",
    "C62_shapes",
    "C62_by_name",
    "C62_lost_refuted",
    "C62_labels_refuted"
   ],
   "note": ""
  },
  {
   "property": "C63",
   "status": "proved",
   "theorems": [
    "C63_written",
    "C63_matched",
    "C63_gather",
    "C63_scalar_refuted",
    "C63_both_refuted",
    "C63_zero_refuted"
   ],
   "note": ""
  },
  {
   "property": "C64",
   "status": "proved",
   "theorems": [
    "C64_subclass",
    "C64_tables",
    "C64_halves",
    "C64_whole",
    "C64_none",
    "C64_order",
    "C64_back_refuted",
    "C64_matrix_refuted"
   ],
   "note": ""
  },
  {
   "property": "C65",
   "status": "proved",
   "theorems": [
    "C65_keep",
    "C65_squeeze",
    "C65_remove_rep",
    "C65_keep_dim_refuted",
    "C65_some_reps_refuted"
   ],
   "note": ""
  },
  {
   "property": "C66",
   "status": "proved",
   "theorems": [
    "C66_other",
    "C66_first",
    "C66_missing",
    "C66_not_first",
    "C66_array",
    "C66_array_refused",
    "C66_block",
    "C66_order_refuted",
    "C66_axis_refuted"
   ],
   "note": ""
  },
  {
   "property": "C67",
   "status": "proved",
   "theorems": [
    "C67_constructor",
    "C67_expand",
    "C67_no_labels",
    "C67_lookup",
    "C67_square",
    "C67_singular",
    "C67_unwrap",
    "C67_int",
    "C67_si",
    "C67_citi_pair",
    "C67_citi_unknown",
    "C67_mdif_header",
    "C67_mdif_words",
    "C67_mdif_attribute",
    "C67_mdif_range",
    "C67_mdif_no_header",
    "C67_stack",
    "C67_sp",
    "C67_config"
   ],
   "note": ""
  },
  {
   "property": "C68",
   "status": "proved",
   "theorems": [
    "C68_r_circle",
    "C68_x_circle",
    "C68_g_circle",
    "C68_b_circle",
    "C68_x_line",
    "C68_passive",
    "C68_r_arc",
    "C68_x_arc",
    "C68_g_arc",
    "C68_b_arc",
    "C68_r_whole",
    "C68_x_whole",
    "C68_g_descending",
    "C68_b_line_refuted",
    "C68_order",
    "C68_far",
    "C68_far_side"
   ],
   "note": ""
  },
  {
   "property": "C69",
   "status": "proved",
   "theorems": [
    "C69_interval_read",
    "C69_interval_minus",
    "C69_interval_shown",
    "C69_interval_roundtrip",
    "C69_interval_negative",
    "C69_interval_exponent",
    "C69_percent",
    "C69_si",
    "C69_metre",
    "C69_si_roundtrip",
    "C69_si_metres",
    "C69_time",
    "C69_int"
   ],
   "note": ""
  },
  {
   "property": "C70",
   "status": "proved",
   "theorems": [
    "C70_merge",
    "C70_no_partials",
    "C70_shapes",
    "C70_missing_refuted",
    "C70_shared_refuted"
   ],
   "note": ""
  },
  {
   "property": "C71",
   "status": "proved",
   "theorems": [
    "C71_marks",
    "C71_choice",
    "C71_exclusive",
    "C71_file",
    "C71_citi",
    "C71_touchstone",
    "C71_comment_refuted",
    "C71_mdif",
    "C71_mdif_one_dimension",
    "C71_hdf5",
    "C71_spdata"
   ],
   "note": "The first line with a mark decides (C71_choice, marks as sets of texts); one-dimensional MDIF files are not recognised and a comment of two lines can hide a Touchstone file."
  },
  {
   "property": "C72",
   "status": "proved",
   "theorems": [
    "C72_walk",
    "C72_walkdirs",
    "C72_walkfiles",
    "C72_invalid",
    "C72_distinct",
    "C72_listing"
   ],
   "note": "Positions in the tree, ordered lexicographically, fix which paths are yielded, in which order and where warnings are given (traversal in Spec_Walk.v)."
  },
  {
   "property": "C73",
   "status": "proved",
   "theorems": [
    "C73_splitext",
    "C73_namebase",
    "C73_place",
    "C73_use",
    "C73_kept",
    "C73_origin",
    "C73_present",
    "C73_later",
    "C73_from_cache",
    "C73_own_data_refuted",
    "C73_blocks"
   ],
   "note": "Invariants over all sequences of uses; C73_blocks combines them with the HDF5 round trip of C61. Files with the same name in different directories are confused (C73_own_data_refuted)."
  },
  {
   "property": "C74",
   "status": "proved",
   "theorems": [
    "C74_file",
    "C74_files",
    "C74_refused",
    "C74_single",
    "C74_marks",
    "C74_mdif",
    "C74_mdif_name",
    "C74_mdif_quiet"
   ],
   "note": "Equivalences (iff) for success of reading one file and several files; with merge=False nothing can be read (C74_refused), an unknown MDIF block gives None (C74_mdif_name)."
  },
  {
   "property": "C75",
   "status": "proved",
   "theorems": [
    "C75_roundtrip",
    "C75_slash",
    "C75_older",
    "C75_newer",
    "C75_name_refuted",
    "C75_format_refuted"
   ],
   "note": "C75_roundtrip, C75_older and C75_newer (composed with C61) for the round trips, C75_slash for names that cannot be read back; C75_name_refuted and C75_format_refuted show what is lost."
  },
  {
   "property": "C76",
   "status": "proved",
   "theorems": [
    "C76_name",
    "C76_fix",
    "C76_guess",
    "C76_stage",
    "C76_table",
    "C76_add",
    "C76_order_refuted",
    "C76_xname_refuted",
    "C76_lost_refuted"
   ],
   "note": "Universal over blocks, names and tables; the comments of a block are not modelled. Deviations shown by witnesses: dimensions without unit are moved to the end, the x name is left with its unit, a variable of the bare name is lost."
  },
  {
   "property": "C77",
   "status": "proved",
   "theorems": [
    "C77_get",
    "C77_ten",
    "C77_eleven",
    "C77_refused",
    "C77_none",
    "C77_own",
    "C77_rows",
    "C77_set",
    "C77_set_get"
   ],
   "note": "Universal over arrays, names and values; that copy=False gives a view is an assumption on numpy. C77_eleven shows the element without attribute."
  },
  {
   "property": "C78",
   "status": "proved",
   "theorems": [
    "C78_same",
    "C78_parent",
    "C78_lookup",
    "C78_mapping",
    "C78_config",
    "C78_config_lookup",
    "C78_detached",
    "C78_standard"
   ],
   "note": "Universal over documents and places. Aliases and the YAML text itself are not modelled. C78_detached is a deviation from what one expects of lexical scoping: the dictionaries inside keep the loaded mapping as parent, not the configuration."
  },
  {
   "property": "C79",
   "status": "proved",
   "theorems": [
    "C79_shorten",
    "C79_fixnames",
    "C79_kept",
    "C79_lost_refuted",
    "C79_raises_refuted"
   ],
   "note": "Universal over blocks and names. The condition on names ending in .m is needed: see the two refuted witnesses."
  },
  {
   "property": "C80",
   "status": "proved",
   "theorems": [
    "C80_order",
    "C80_screen",
    "C80_ends",
    "C80_endless",
    "C80_apart",
    "C80_apart_first",
    "C80_rows",
    "C80_left",
    "C80_overlap_refuted"
   ],
   "note": "Universal over screens and figures. C80_apart is about the positions asked for; C80_screen says when they are the positions of the windows. C80_overlap_refuted shows that the first window of a later row has to be left out."
  }
 ]
}