# Formal model of hftools in Rocq

This file says what is modelled, how each property is proved, and what has to
be trusted.  Properties are in `properties.jsonl`, claims with theorem names in
`MANIFEST.json`, attempts to fool the theorems with wrong programs in
`seeded/LOG.jsonl`.  The proofs are in `rocq/theories` (Coq 8.16.1); build with
`coq_makefile -f _CoqProject -o Makefile && make -j4` in `rocq`.

## Method

* Every modelled Python function becomes a total Gallina function of the same
  structure, branch by branch.  Exceptions are values
  (`result A := Ok a | Err e`, where `e` tells the class of the exception).
  Every definition cites `file:lines` of `/repo`.
* `Model_*.v` holds only definitions that mirror the code, `Spec_*.v` (or the
  head of a property file) holds the independent specification, `Proofs_*.v`
  the lemmas and `Prop_*.v` the property theorems, each with an `Example` (or a
  concrete instance) that satisfies its hypotheses non-trivially and with
  `Print Assumptions`.
* Loops over Python lists are structural recursions.  Loops whose end is not
  structural (`while`, generators, recursion over objects) carry fuel; the
  theorems are about enough fuel, and that it is enough is proved.
* State that Python changes in place (blocks, dictionaries, HDF5 files, the heap
  of configuration objects) is passed through functions; where an exception
  leaves a change behind that a caller can see (HDF5 append, streams), the
  function returns the state also with the exception.
* Elements of arrays are of an arbitrary type and the operations on them are
  arbitrary functions, so that the array part holds for floating point numbers
  with their rounding.  The network part is over an arbitrary field, the noise
  and phase part over the reals of the standard library, smoothing and
  interpolation over rational numbers: there rounding is not modelled.
* Text: a file is the list of its lines, a line a list of characters (bytes).
  `float()` and the printers of numbers are parameters; round trips assume of
  the pair that what is printed is read back (`Spec_*.v` states it), which a
  concrete printer in the examples satisfies.
* The target is Python 2.7 (`setup.py`): an exhausted `next()` in a generator
  ends it; `zip` and `map` give lists.
* If a clause of a property turned out false of the code, the property was
  reworded so that what is true is claimed in full, and the deviation was proved
  as a `_refuted` witness or, where possible, as a universal theorem about what
  happens instead.

## Properties: what is modelled and how it is proved

The statement of each property is in `properties.jsonl`; what follows is the
model it is about, the idea of the proof and the theorems.  A theorem whose
name ends in `_refuted` is a witness (proved by computation) that a stronger
reading of the property is false of the code.

### C01 Element-wise arithmetic aligns by dimension, not by position (proved)

* Model: arrays = shape + row-major list + dimensions (`Model_NdArray.v`, `Model_Dim.v`, `Model_Array.v`): `change_shape`, `dims_union`, `make_same_dims`, `check_instance`, the binary operators
* Proof: labelled denotation (value at an assignment of positions to dimension keys); induction over the lists of dimensions and shapes
* Not covered: operators with something that is not an hfarray; masked arrays; in-place operators
* Theorems (`Prop_Array.v`, `Prop_Basics.v`): `C01_binop_aligned`, `C01_row_major`, `C01_default_dims`

### C02 Dimensions of a binary result (proved)

* Model: as C01, and `sortprio` of dimensions
* Proof: permutation and membership lemmas on `dims_union`
* Theorems (`Prop_Array.v`): `C02_binop_dims`

### C03 Exchanging the operands only changes dimension order (proved)

* Model: as C01
* Proof: the denotation of C01 in both orders, commutativity of the operation as hypothesis
* Theorems (`Prop_Array.v`): `C03_binop_exchange`

### C04 Reordering dimensions never relabels data (proved)

* Model: `transpose`, `reorder_dimensions`, `T`
* Proof: denotation; permutations of axes
* Theorems (`Prop_Array.v`): `C04_transpose`, `C04_transpose_any`, `C04_transpose_inverse`, `C04_reorder`

### C05 Number and length of dimensions track the shape through any sequence of operations (proved)

* Model: a language of array programs over the modelled operations
* Proof: invariant and induction over programs
* Not covered: operations outside the language
* Theorems (`Prop_Array.v`): `C05_dims_track_shape`, `C05_keepdims_refuted`, `C05_constructor_refuted`, `C05_broadcast_refuted`, `C05_t_refuted`, `C05_add_dim_refuted`

### C06 Matrix transposition (proved)

* Model: `t`
* Proof: denotation; involution
* Theorems (`Prop_Array.v`): `C06_matrix_transpose`, `C06_twice`

### C07 Reductions and squeeze remove exactly the named dimension (proved)

* Model: `sum`, `mean`, `min`, `max` (any fold), `squeeze`, `axis_handler`, `multiple_axis_handler`
* Proof: the fold over the coordinate of the named dimension; induction over shapes
* Not covered: `keepdims`, `out`, `dtype` arguments of the reductions
* Theorems (`Prop_Array.v`): `C07_reduce`, `C07_reduce_all`, `C07_squeeze`, `C07_squeeze_axes`

### C08 Indexing keeps labels attached to data (proved)

* Model: `__getitem__` with integers, slices, Ellipsis, boolean masks; slicing of dimensions
* Proof: denotation; arithmetic of slices
* Not covered: integer arrays as index, newaxis
* Theorems (`Prop_Array.v`): `C08_getitem`, `C08_mask`

### C09 take selects along one dimension and relabels it with the indices (proved)

* Model: `take`
* Proof: denotation
* Theorems (`Prop_Array.v`): `C09_take`

### C10 Collapsing repetitions and tails loses no data (proved)

* Model: `remove_tail`, `remove_rep`
* Proof: mixed radix lemma for `reshape`
* Theorems (`Prop_Array.v`): `C10_remove_tail`, `C10_remove_tail_matrix`, `C10_remove_rep`, `C10_remove_rep_none`, `C10_not_adjacent_refuted`

### C11 Real 2x2 representation of complex arrays respects arithmetic (proved)

* Model: `make_fullcomplex_array`
* Proof: ring laws over an arbitrary commutative ring
* Theorems (`Prop_Array.v`): `C11_entries`, `C11_arithmetic`, `C11_real_entries`

### C12 Expanding a diagonal dimension (proved)

* Model: `diagonal_view` on strides, `expand_diagonals`
* Proof: stride arithmetic
* Theorems (`Prop_Array.v`): `C12_expand_diagonals`

### C13 add_dim broadcasts, replace_dim relabels (proved)

* Model: `add_dim`, `replace_dim`
* Proof: denotation
* Theorems (`Prop_Array.v`): `C13_add_dim`, `C13_add_dim_present`, `C13_replace_dim`

### C14 Equality and hash of dimensions (proved)

* Model: `DimBase.__eq__`, `__hash__` (a hash is a function of the tuple)
* Proof: decision lemmas
* Not covered: the value of Python's hash
* Theorems (`Prop_Array.v`): `C14_equivalence`, `C14_equal_iff`, `C14_hash`, `C14_hash_refuted`

### C15 Generated anonymous dimensions are fresh (proved)

* Model: `get_new_anonymous_dim`
* Proof: maximum of parsed numbers; induction over histories
* Theorems (`Prop_Array.v`): `C15_anonymous_fresh`, `C15_anonymous_history`, `C15_anonymous_succeeds`, `C15_other_class_refuted`

### C16 DataDict stays consistent under every history (proved)

* Model: DataDict as order list and map (`Model_DataDict.v`)
* Proof: invariant, induction over histories of operations
* Theorems (`Prop_DataDict.v`): `C16_history`, `C16_update_history`, `C16_pop_refuted`

### C17 Renaming a variable keeps data and position (proved)

* Model: `DataDict.rename`, `DataBlock.rename`
* Proof: position and lookup lemmas
* Theorems (`Prop_Block.v`, `Prop_DataDict.v`): `C17_block_rename_dim`, `C17_block_rename_var`, `C17_rename`, `C17_rename_onto`, `C17_rename_same`, `C17_rename_missing`

### C18 DataBlock assignment, lookup and deletion (proved)

* Model: DataBlock as two DataDicts (`Model_Block.v`): assignment (with matrix element names), lookup, deletion
* Proof: invariant over histories; get-after-set laws
* Theorems (`Prop_Basics.v`, `Prop_Block.v`): `C18_element_names`, `C18_element_shape`, `C18_invariant`, `C18_get_set`, `C18_set_element`, `C18_set_ivar`, `C18_del`, `C18_own_dimension_refuted`, `C18_stale_element_refuted`, `C18_element_like_refuted`, `C18_element_positional_refuted`, `C18_ivar_length_refuted`

### C19 Sorting a block along a dimension (proved)

* Model: `DataBlock.sort`
* Proof: the sort is any function giving the sorting permutation; denotation of `take`
* Theorems (`Prop_Block2.v`): `C19_sort`, `C19_labels_ascending`, `C19_single_point_refuted`, `C19_unused_dimension_refuted`

### C20 Filtering a block by a boolean condition (proved)

* Model: `DataBlock.filter`
* Proof: denotation of boolean indexing, induction over the variables
* Theorems (`Prop_Block2.v`): `C20_filter`, `C20_mask_labels_refuted`

### C21 Hyper-dimension conversion keeps (label, value) pairs (proved)

* Model: `DataBlock.hyper` (`Model_Hyper.v`), `stable_uniq`, sort of tuples
* Proof: sorted complete product = lexicographic enumeration; mixed radix
* Not covered: labels that are not comparable; variables of more than one dimension as names
* Theorems (`Prop_Hyper.v`): `C21_hyper`, `C21_labels`, `C21_wrong_count`, `C21_descending_refuted`, `C21_duplicate_refuted`

### C22 Splitting a block by dimensions loses nothing (proved)

* Model: `yield_dim_consistent_datablocks`, `subset_datablock_by_dims` (`Model_Split.v`); the choice of the longest tuple in a set is a parameter
* Proof: invariant over the loop, for every choice
* Not covered: a generator that is not run to its end
* Theorems (`Prop_Split.v`): `C22_blocks`, `C22_partition`, `C22_repeated`, `C22_shared_refuted`, `C22_order_refuted`, `C22_scalar_refuted`

### C23 Matrix variables and their elements convert back and forth (proved)

* Model: `convert_matrices_to_elements` and `_make_matrix_from_block` (`Model_Elements.v`, `Model_MatNames.v`)
* Proof: denotation; injectivity of the printed names
* Not covered: `combine_elements_to_matrix` (never called)
* Theorems (`Prop_Elements.v`): `C23_split`, `C23_roundtrip`, `C23_unit_refuted`, `C23_single_refuted`, `C23_digit_refuted`, `C23_large_refuted`

### C24 Linear interpolation of a block (proved)

* Model: `linear_extrapolate`, `interpolate` of math.py, mode none of dataset.py (`Model_Math.v`), rational numbers
* Proof: searchsorted lemma, field arithmetic
* Not covered: scipy.interpolate (other modes)
* Theorems (`Prop_Interp.v`): `C24_segment`, `C24_outside`, `C24_grid`, `C24_between`, `C24_straight`, `C24_refuses`, `C24_none`, `C24_none_order_refuted`

### C25 Touchstone text: reading, and reading what was written (proved)

* Model: tokenizer, option line, records, conversion, shaping and the writer (`Model_Touchstone.v`, `Model_TsText.v`)
* Proof: induction over lines and records; words/join lemmas
* Not covered: property extraction from comments; `Comments()` beyond storing lines
* Theorems (`Prop_TsText.v`): `C25_read`, `C25_read_noise`, `C25_options`, `C25_roundtrip`, `C25_transposed`, `C25_single`, `C25_threeport_refuted`

### C26 Port count inference from a Touchstone data stream (proved)

* Model: `process_data`, `_process_data`
* Proof: characterisation of the loop by framed records (iff)
* Theorems (`Prop_Touchstone.v`): `C26_ports`, `C26_all_numbers`, `C26_records`, `C26_single`, `C26_wrapped_refuted`

### C27 Noise block separation in two-port Touchstone data (proved)

* Model: the noise branch of `_process_data`
* Proof: as C26
* Theorems (`Prop_Touchstone.v`): `C27_two_port`, `C27_others`, `C27_split`, `C27_short_refuted`, `C27_above_refuted`

### C28 Cascade of two-ports is the composition of networks (proved)

* Model: `cascadeS`, `cascade` (`Model_Network.v`), an arbitrary field
* Proof: wave equations of a two-port; field arithmetic
* Not covered: square roots: a parameter with its defining equation at the impedances used
* Theorems (`Prop_Network.v`): `C28_waves`, `C28_thru`, `C28_associative`, `C28_transfer_product`, `C28_network`

### C29 Deembedding inverts cascading (proved)

* Model: `deembedleft`, `deembedright`, `deembed`
* Proof: as C28
* Theorems (`Prop_Network.v`): `C29_left`, `C29_right`, `C29_both`, `C29_left_solves`, `C29_right_solves`, `C29_network`

### C30 Network parameter conversions describe the same network (proved)

* Model: `convert` and the P, Q, M matrices of multiports.py
* Proof: a network is a two dimensional relation between voltages and currents; kernel computation
* Not covered: more than two ports (the code hard-codes 2)
* Theorems (`Prop_Network.v`): `C30_same_network`, `C30_defined`, `C30_unique`, `C30_chain`, `C30_chains_agree`, `C30_round_trip`

### C31 Reference impedance is honoured (proved)

* Model: `Z0` handling of the constructor and of `convert`
* Proof: as C30
* Theorems (`Prop_Network.v`): `C31_honoured`, `C31_default`, `C31_restored`, `C31_ignored`, `C31_explicit_impedance_refuted`, `C31_getitem_refuted`

### C32 Noise parameters round trip (proved)

* Model: `from_noisepar`, `noise_parameters` (`Model_Noise.v`), complex numbers as pairs of reals
* Proof: real arithmetic (`field`, `nra`)
* Not covered: rounding
* Theorems (`Prop_Noise.v`): `C32_round_trip`, `C32_readable`, `C32_ABCD`, `C32_Rn_refuted`

### C33 Conversion of noise correlation matrices is basis independent (proved)

* Model: `NoisyTwoport.convert`
* Proof: noise sources as vectors, conjugation any involution of the field
* Theorems (`Prop_Network.v`): `C33_sources`, `C33_chains_agree`, `C33_round_trip`

### C34 Batched matrix routines act matrix-wise on aligned dimensions (proved)

* Model: `matrix_multiply`, `inv`, `det`, `solve_Ab` (`Model_Matrix.v`)
* Proof: pointwise lifting of the routine for one matrix
* Not covered: numpy.linalg: parameters with their specification as hypothesis
* Theorems (`Prop_Matrix.v`): `C34_multiply`, `C34_inv`, `C34_inv_multiply`, `C34_det`, `C34_solve`, `C34_solve_columns`, `C34_rectangular_refuted`, `C34_axes_refuted`

### C35 Angles and phase unwrapping (proved)

* Model: `angle`, `unwrap_phase`, `continous_phase_sqrt`, `delay` (`Model_Phase.v`) over the reals
* Proof: trigonometry of the standard library, induction over the samples
* Not covered: rounding, signed zeros, zero samples
* Theorems (`Prop_Phase.v`): `C35_angle`, `C35_angle_deg`, `C35_unwrap`, `C35_turns`, `C35_restored`, `C35_degrees`, `C35_sqrt`, `C35_delay`, `C35_large_step_refuted`

### C36 Smoothing windows stay inside the data (proved)

* Model: `smooth`, `poly_smooth` (`Model_Math.v`)
* Proof: window arithmetic (lia); uniqueness of least squares
* Not covered: polyfit: a parameter that is any least squares fit; other axes than the first
* Theorems (`Prop_Math.v`): `C36_smooth_window`, `C36_smooth_bounds`, `C36_smooth_straight`, `C36_smooth_even_refuted`, `C36_poly_window`, `C36_poly_reproduces`, `C36_poly_last_ignored`, `C36_poly_contains_refuted`

### C37 SI prefix handling is consistent (proved)

* Model: tables and functions of si_units.py (`Model_Si.v`)
* Proof: case analysis over the tables, induction over strings
* Not covered: Unicode prefixes; log10 (a parameter with its specification)
* Theorems (`Prop_Basics.v`, `Prop_Si.v`): `C37_characters`, `C37_exponent`, `C37_prefixed`, `C37_only_prefixes`, `C37_base_kept`, `C37_unambiguous`, `C37_spaces`, `C37_read`, `C37_read_plain`, `C37_exponent_refuted`, `C37_brackets_refuted`, `C37_format`, `C37_format_range`, `C37_format_zero`, `C37_round_trip`, `C37_zetta_refuted`

### C38 HDF5 name escaping is reversible and collision free (proved)

* Model: `escape_varname`, `unescape_varname`
* Proof: induction over strings
* Theorems (`Prop_Stream.v`): `C38_no_separator`, `C38_restored`, `C38_injective`, `C38_only_then`, `C38_collision_refuted`

### C39 Appending to an HDF5 file extends every variable by the new data and keeps the rest (proved)

* Model: h5py files as named arrays with maxshape (`Model_Append.v`); `append_hdf5`, `expand_dataset`
* Proof: array extension lemma; induction over the datasets and over histories
* Not covered: attributes and dimension scales of datasets (not touched by append); conversion of element types is a parameter
* Theorems (`Prop_Append.v`): `C39_success`, `C39_kept`, `C39_refused`, `C39_failure_grows`, `C39_history`, `C39_labels`, `C39_atomic_refuted`, `C39_label_refuted`

### C40 Hypercube detection when merging files (proved)

* Model: `merge_blocks_to_association_list`, `association_list_in_hypercube_order`, `merge_variable` (`Model_Merge.v`)
* Proof: complete product = all coordinates; broadcasting of assignments
* Not covered: `merge_blocks_do_hyper` (unused)
* Theorems (`Prop_Merge.v`): `C40_hypercube`, `C40_order`, `C40_refused`, `C40_any_order`, `C40_merge`, `C40_single`, `C40_not_full`, `C40_shapes`, `C40_association`, `C40_names_refuted`

### C41 MDIF grouping of records (proved)

* Model: MDIF tokens, grouping, attributes, columns (`Model_Mdif.v`)
* Proof: grammar of files, induction over tokens
* Not covered: `make_matrices`
* Theorems (`Prop_Basics.v`, `Prop_Mdif.v`): `C41_characters`, `C41_line_numbers`, `C41_groups`, `C41_complete`, `C41_attribute`, `C41_columns`, `C41_ragged`, `C41_no_header`, `C41_blocks`, `C41_lines`, `C41_truncated_refuted`

### C42 Token stream combinators consume exactly what they report (proved)

* Model: `Stream` and its combinators (`Model_Stream.v`)
* Proof: induction over streams
* Theorems (`Prop_Stream.v`): `C42_many`, `C42_many_at_end`, `C42_optional`, `C42_one_of`, `C42_end`, `C42_suffix`, `C42_one_function_refuted`

### C43 SP-data grouping, columns and round trip (proved)

* Model: SP-data tokens, grouping, columns, writer (`Model_Spdata.v`)
* Proof: grammar (iff), round trip over lines
* Not covered: `to_numeric` is a parameter; conversion of columns to arrays
* Theorems (`Prop_Basics.v`, `Prop_Spdata.v`): `C43_characters`, `C43_decimal`, `C43_prefix`, `C43_groups`, `C43_order`, `C43_columns`, `C43_roundtrip`, `C43_letter_refuted`, `C43_empty_refuted`, `C43_ragged_refuted`

### C44 CITI files are read as what they say and written blocks are read back (proved)

* Model: CITI tokens, parser, writer (`Model_Citi.v`)
* Proof: parser run symbolically over the grammar; round trip
* Not covered: `DataBlock.__setitem__` applied to the assignments (that is C18)
* Theorems (`Prop_Basics.v`, `Prop_Citi.v`): `C44_characters`, `C44_line_numbers`, `C44_parse`, `C44_sizes`, `C44_roundtrip`, `C44_read`, `C44_order_refuted`, `C44_fewer_refuted`, `C44_blank_refuted`, `C44_nan_refuted`, `C44_empty_refuted`

### C45 Joining real and imaginary parts to complex variables (proved)

* Model: `get_outer_function`, `make_cplx` (`Model_Cplx.v`)
* Proof: regular expression as a function; the loop over names
* Not covered: complex arithmetic: parameters
* Theorems (`Prop_Basics.v`, `Prop_Cplx.v`): `C45_allvarnames`, `C45_name`, `C45_join`, `C45_taken_refuted`, `C45_twice_refuted`, `C45_element_refuted`

### C46 Lexical scoping of configuration dictionaries (proved)

* Model: a heap of dictionaries and lists with parents (`Model_Config.v`)
* Proof: induction over the acyclic heap
* Not covered: the yaml loader
* Theorems (`Prop_Config.v`): `C46_lookup`, `C46_contains`, `C46_assign`, `C46_outer`, `C46_copy`, `C46_empty_parent`, `C46_contains_refuted`, `C46_copy_refuted`

### C47 Merged dictionaries act as one dictionary with priorities (proved)

* Model: `MergedDicts`
* Proof: as C46
* Theorems (`Prop_Config.v`): `C47_lookup`, `C47_keys`, `C47_agree`, `C47_empty_parent`, `C47_keys_refuted`

### C48 Stable unique and natural ordering (proved)

* Model: `stable_uniq`, `lex_order`, `split_num`, `flatten` (`Model_Utils.v`)
* Proof: insertion sort on a strict total order
* Not covered: texts without digits that `float()` accepts
* Theorems (`Prop_Utils.v`): `C48_stable_uniq`, `C48_runs`, `C48_total`, `C48_strict`, `C48_lex_order`, `C48_lex_order_canonical`, `C48_numbers`, `C48_mixed_refuted`, `C48_mixed`, `C48_flatten`, `C48_flatten_flat`

### C49 Matrix name recognition and element grouping (proved)

* Model: `match_matrix_elements`, `_matrix_elements`, `is_matrix_name`, `is_vector_name` (`Model_MatNames.v`)
* Proof: counting in products (pigeonhole)
* Not covered: a trailing newline in names
* Theorems (`Prop_MatNames.v`): `C49_match`, `C49_keys`, `C49_pattern`, `C49_pattern_unique`, `C49_mdif_matrix`, `C49_mdif_vector`, `C49_duplicate_refuted`, `C49_gaps_refuted`

### C50 Relative paths lead back (proved)

* Model: POSIX paths: split, join, normpath, abspath, `splitall`, `relpathto` (`Model_Path.v`)
* Proof: paths as lists of segments
* Not covered: the file system (symbolic links), Windows
* Theorems (`Prop_Path.v`): `C50_leads_to`, `C50_same`, `C50_relative`, `C50_splitall`, `C50_splitall_refuted`

### C51 Negative axis numbers in reductions are always rejected (proved)

* Model: axis handlers
* Proof: case analysis
* Theorems (`Prop_Array.v`): `C51_negative_axis`

### C52 Arithmetic takes the labels of the left operand and never compares them (proved)

* Model: as C01
* Proof: as C02
* Theorems (`Prop_Array.v`): `C52_labels_of_left`, `C52_labels_ignored_refuted`

### C53 Cumulative sums and products run along the named dimension (proved)

* Model: `cumsum`, `cumprod`
* Proof: denotation
* Theorems (`Prop_Array.v`): `C53_cumulate`, `C53_unit_dropped`

### C54 The name of the x variable alternates (proved)

* Model: the `xname` branch of `DataBlock.__setitem__`
* Proof: parity over histories
* Theorems (`Prop_Block.v`): `C54_xname_parity`

### C55 Thermal noise of a passive network does not depend on the representation (proved)

* Model: `passive_noise`
* Proof: as C33 over complex numbers as pairs of reals
* Theorems (`Prop_Noise.v`): `C55_passive`, `C55_kinds`

### C56 Writing a block distributes every number over the tables exactly once (proved)

* Model: `group_vars`, `group_ivars`, `make_block_iterator`, `column` (through the model of indexing), `db_iterator` with the dictionary order as a parameter
* Proof: the multiset of (name, labels, matrix position, value) of all tables is a permutation of that of the variables: invariant of the grouping loop, interchange of the loops over sweeps, variables and rows; deviations by witnesses
* Not covered: comments and block names
* Theorems (`Prop_Basics.v`, `Prop_Writer.v`): `C56_characters`, `C56_complete`, `C56_once`, `C56_plain_matrix_refuted`, `C56_labels_refuted`, `C56_length_refuted`, `C56_element_refuted`

### C57 Normalizing names renames without touching data (proved)

* Model: Model_Normalize.v: table, regular expression, the loops over the table and over the variables, on top of rename of the block model
* Proof: a relation renamed (same sequence of variables and dimensions, names mapped); one rename step keeps the block orderly; induction over the table in any order with the rivals hypothesis, induction over the snapshot of the variables; the regular expression is characterized by f(body)
* Not covered: data.copy() is the identity; $ before a final newline in a name is left out
* Theorems (`Prop_Normalize.v`): `C57_standard`, `C57_normalize`, `C57_clash`, `C57_rivals_refuted`, `C57_dimension_refuted`

### C58 Corrections of measured S-parameters: passivity, reciprocity, switch terms (proved)

* Model: Model_Passive.v: the five functions on lists of complex matrices over the reals, numpy.linalg routines as parameters with their defining properties as hypotheses
* Proof: unitary matrices keep power (double sums), clipping the singular values bounds the power; eigenvalues scale with the matrix; principal square root squares back and its angle for reciprocal matrices is 0 or pi
* Not covered: rounding; arrays with more than one outer dimension
* Theorems (`Prop_Passive.v`): `C58_svd`, `C58_svd_fails`, `C58_eig`, `C58_check`, `C58_check_passive`, `C58_eig_refuted`, `C58_switch`, `C58_reciprocal`, `C58_sign_refuted`

### C59 Comments and the properties read from them (proved)

* Model: Model_Comments: the regular expression by backtracking combinators (greedy star, lazy star, plus) which take the rest of the pattern as a continuation, exactly as the re engine tries alternatives; convert, process_comment, add_from_comment(s), extend of both classes; converters are parameters.
* Proof: Spec_Comments states the forms of a line by concatenation. Lemmas about the combinators: a match is a split of the text, the longest (shortest) split which lets the rest succeed is taken, and some match is found if any split succeeds; the theorems follow by locating the first character which is not white space.
* Not covered: The table for printing and copy are not modelled; that the class of the file formats shares the list of full comments with its caller is not modelled.
* Theorems (`Prop_Comments.v`): `C59_plain`, `C59_unit`, `C59_sound`, `C59_matches`, `C59_stripped`, `C59_properties`, `C59_reads`, `C59_no_value`, `C59_full`, `C59_reread`, `C59_extend`, `C59_classes`, `C59_bang_refuted`

### C60 What is written to an MDIF file is read from it (proved)

* Model: Model_MdifWrite.v (the writer: product of the outer dimensions, values used as indices, header, rows, attributes, the formats carried from one turn of the loop to the next), on top of Model_Mdif.v for the reader
* Proof: Prop_MdifWrite.v: one turn of the loop gives lines that say a group which describes the block at the position (Proofs_MdifWrite.v); induction over the positions; then C41_lines and C41_blocks. Spec_MdifWrite.v says what must be found (block_at) with its own enumeration of positions. Witnesses for the deviations: C60_values_refuted, C60_range_refuted, C60_lost_refuted
* Not covered: names with a percent sign; that dimensions of the same name are equal in one block is taken over (C18); time.asctime is a parameter; yield_dim_consistent_datablocks and convert_matrices_to_elements are the subject of other properties and their output is a parameter here
* Theorems (`Prop_MdifWrite.v`): `C60_indexed`, `C60_block`, `C60_file`, `C60_no_attributes`, `C60_complex_attribute`, `C60_values_refuted`, `C60_range_refuted`, `C60_lost_refuted`

### C61 HDF5 files give back the block (proved)

* Model: Model_H5File.v: a file is the list of datasets with their attributes; h5_create, save_scale, save_var, save_hdf5, read_dim, getvar, read_hdf5; encodings of elements and labels are parameters, paths with slashes as in HDF5.
* Proof: Prop_H5File.v: the file is computed in closed form; reading is turned into a sequence of assignments to a block whose effect is known from C18; orders are handled by permutation. Failures by inversion of the writer.
* Not covered: The HDF5 library, maxshape, the attributes arraytype and version, and reading of files that other programs wrote are not modelled.
* Theorems (`Prop_H5File.v`): `C61_roundtrip`, `C61_expandable`, `C61_names`, `C61_slash`, `C61_class`, `C61_unused_refuted`, `C61_format_refuted`, `C61_axis_refuted`, `C61_element_refuted`

### C62 The blocks of an MDIF file are stacked by name (proved)

* Model: Model_MdifMerge.v: np_stack, stack_loop (with the two assignments and reorder_dimensions of C04), partial_loop, simple_merge_blocks, groups, merge_by_name
* Proof: Prop_MdifMerge.v: induction over the variables with an invariant of the block made so far (Proofs_MdifMerge.v: Out); C04 for the order of dimensions; inversion for the failures; witnesses for the losses
* Not covered: comments of the blocks; arrays of different shapes are taken to fail (numpy may also make an array of objects, which then does not fit its dimensions); merging without self.merge only groups
* Theorems (`Prop_MdifMerge.v`): `C62_stack`, `C62_missing`, `C62_shapes`, `C62_by_name`, `C62_lost_refuted`, `C62_labels_refuted`

### C63 The columns of an MDIF table are gathered to matrices and vectors (proved)

* Model: Model_MdifMat.v: match_column (the regular expression), match_matrices, match_vectors, gather_matrix, gather_vector, make_matrices with the order of the dictionaries as a parameter
* Proof: Prop_MdifMat.v: inversion of the regular expression; permutations of the index pairs against list_prod (seq 1 m) (seq 1 n), sorting; invariant of the variables over the groups (Proofs_MdifMat2.v: gather_all_ok); witnesses for the losses
* Not covered: the list of scalars, which is not used; the offsets; \d matching digits other than 0-9; the warning printed for other words
* Theorems (`Prop_MdifMat.v`): `C63_written`, `C63_matched`, `C63_gather`, `C63_scalar_refuted`, `C63_both_refuted`, `C63_zero_refuted`

### C64 Kinds of dimensions and their halves (proved)

* Model: Model_Kinds.v: class statements executed one after the other on tables of class attributes, attribute lookup along the base classes, diag_meta; properties indep_of, deriv_of, diag_of
* Proof: Prop_Kinds.v: induction over the inheritance relation for isinstance, case analysis over the (finitely many) classes for any name, labels and unit; agreement with the tables of Model_Dim.v that C12 uses
* Theorems (`Prop_Kinds.v`): `C64_subclass`, `C64_tables`, `C64_halves`, `C64_whole`, `C64_none`, `C64_order`, `C64_back_refuted`, `C64_matrix_refuted`

### C65 Selecting, squeezing and collapsing repetitions of whole blocks (proved)

* Model: Model_BlockOps.v (b_squeeze, b_remove_rep), Model_Block.v (keep_variables)
* Proof: The loops are shown to be sequences of assignments (Proofs_BlockOps), the array operations come from C07 and C10; the dimensions of a block made by assignments are the first of each name.
* Not covered: blockname, comments
* Theorems (`Prop_BlockOps.v`): `C65_keep`, `C65_squeeze`, `C65_remove_rep`, `C65_keep_dim_refuted`, `C65_some_reps_refuted`

### C66 Values at new labels without interpolation (proved)

* Model: Model_BlockOps.v (interpolate, interpolate_at, b_interpolate)
* Proof: positions of true entries correspond to filtering the labels; taking along the first axis comes from C08; blocks as in C65; wrong cases are witnesses by computation.
* Not covered: mode linear (scipy), the attribute interpolationmode
* Theorems (`Prop_BlockInterp.v`): `C66_other`, `C66_first`, `C66_missing`, `C66_not_first`, `C66_array`, `C66_array_refused`, `C66_block`, `C66_order_refuted`, `C66_axis_refuted`

### C67 Misuse is reported by the exception of its kind (proved)

* Model: the models of the functions named, with exceptions as values
* Proof: case analysis of each function, induction over tokens and groups before the bad one; span lemmas for the beginnings of texts.
* Not covered: exceptions raised inside numpy for arguments of other types, messages of exceptions
* Theorems (`Prop_Errors.v`): `C67_constructor`, `C67_expand`, `C67_no_labels`, `C67_lookup`, `C67_square`, `C67_singular`, `C67_unwrap`, `C67_int`, `C67_si`, `C67_citi_pair`, `C67_citi_unknown`, `C67_mdif_header`, `C67_mdif_words`, `C67_mdif_attribute`, `C67_mdif_range`, `C67_mdif_no_header`, `C67_stack`, `C67_sp`, `C67_config`

### C68 Circles of the Smith chart (proved)

* Model: Model_Smith.v (angle, z2gamma, y2gamma, RCircle, XCircle, GCircle, BCircle over the reals, limits possibly infinite); Spec_Smith.v states reflection by its equation
* Proof: field identities for whole circles; the direction from the centre is a constant minus twice an arc tangent, its monotony and inverse give the arcs; angles are unique within a branch (C35 lemmas).
* Not covered: rounding, nan, the artists of matplotlib and the grids
* Theorems (`Prop_Smith.v`): `C68_r_circle`, `C68_x_circle`, `C68_g_circle`, `C68_b_circle`, `C68_x_line`, `C68_passive`, `C68_r_arc`, `C68_x_arc`, `C68_g_arc`, `C68_b_arc`, `C68_r_whole`, `C68_x_whole`, `C68_g_descending`, `C68_b_line_refuted`, `C68_order`, `C68_far`, `C68_far_side`

### C69 Numbers, times and intervals in configuration files (proved)

* Model: Model_ConfigText.v (the regular expressions by backtracking, constructors and representers); Spec_ConfigText.v gives the texts as sets
* Proof: every piece of a regular expression is shown to denote a set of texts (soundness and completeness compose), the grammars are shown unambiguous, so the first match is the only one; division with remainder over the rationals for the parts of an interval.
* Not covered: the YAML library and its choice of constructor, rounding of floats and of timedelta to microseconds, shortdatetime_constructor (strptime)
* Theorems (`Prop_ConfigText.v`): `C69_interval_read`, `C69_interval_minus`, `C69_interval_shown`, `C69_interval_roundtrip`, `C69_interval_negative`, `C69_interval_exponent`, `C69_percent`, `C69_si`, `C69_metre`, `C69_si_roundtrip`, `C69_si_metres`, `C69_time`, `C69_int`

### C70 Merging the blocks of one or several files (proved)

* Model: Model_MergeBlocks.v (get_partials, the groups, the labels, the loop over the variables, squeeze of C65); the order of the keys of dicts and sets is a parameter that permutes
* Proof: invariants of each loop: the groups hold the partial dimensions of the blocks so far; writing labels and variables equals a sequence of plain assignments (sets_ok_gen of C45); stacking as in C62; squeeze by C65. Failures by inversion of the loop; the two defects by witnesses.
* Not covered: comments and block name, hyper=True, the second attempt for arrays of text (UnicodeError)
* Theorems (`Prop_MergeBlocks.v`): `C70_merge`, `C70_no_partials`, `C70_shapes`, `C70_missing_refuted`, `C70_shared_refuted`

### C71 Which reader read_data chooses (proved)

* Model: Model_ReadData.v: the two regular expressions by backtracking pieces (as in C69), the table isfile, the two loops, the choice of the file; glob.glob, the texts of files and h5py.is_hdf5 are parameters; the writers are those of Model_Citi, Model_TsText, Model_MdifWrite and Model_Spdata
* Proof: every expression denotes a set of texts (sound and complete pieces); exclusiveness of marks by the first character that is not white; induction over the lines; the writers by going through the kinds of lines they write
* Not covered: the arguments merge, guess_unit and property_to_vars, files that cannot be opened
* Theorems (`Prop_ReadData.v`): `C71_marks`, `C71_choice`, `C71_exclusive`, `C71_file`, `C71_citi`, `C71_touchstone`, `C71_comment_refuted`, `C71_mdif`, `C71_mdif_one_dimension`, `C71_hdf5`, `C71_spdata`

### C72 Walking directory trees (proved)

* Model: Model_Walk.v: trees of files, other things, directories that cannot be listed and directories; iterators as lists of events and the final exception; recursion over the tree; fnmatch is a parameter
* Proof: Spec_Walk.v gives every item a position and orders positions lexicographically; structural induction over trees shows that every walk runs through one sorted list of tagged places
* Not covered: changes of the file system during the walk, cycles of links, os.path.isdir raising exceptions (it does not)
* Theorems (`Prop_Walk.v`): `C72_walk`, `C72_walkdirs`, `C72_walkfiles`, `C72_invalid`, `C72_distinct`, `C72_listing`

### C73 The cache of files read (proved)

* Model: Model_Cache.v: splitext of Python 2.7, the paths in the cache, one use as a function on the contents of the cache directory, sequences of uses; what read_data gives at each use, the bodies, and save_hdf5 and read_hdf5 are parameters (instantiated with Model_H5File in C73_blocks)
* Proof: extensions by the last dot and the last slash; invariants of sequences of uses by induction (kept, origin, present), combined with the round trip of C61
* Not covered: uses nested in each other, failures of the file system, names that are directories, lists of names
* Theorems (`Prop_Cache.v`): `C73_splitext`, `C73_namebase`, `C73_place`, `C73_use`, `C73_kept`, `C73_origin`, `C73_present`, `C73_later`, `C73_from_cache`, `C73_own_data_refuted`, `C73_blocks`

### C74 Reading one or several files (proved)

* Model: Model_ReadFiles.v: the stages, the merging and the parser are parameters; the blocks are those of Model_Block, glob goes through lex_order of Model_Utils; do_file, the loop of read_file and their counterparts for MDIF with dictionaries as lists of items
* Proof: stage by stage over all blocks is shown equivalent to block by block (relational composition of Forall2), files by induction over the names with the counter; for MDIF the dictionary is described by what is found under a name, kept through extend
* Not covered: messages (verbose), encodings, the assignment of further keyword arguments to attributes
* Theorems (`Prop_ReadFiles.v`): `C74_file`, `C74_files`, `C74_refused`, `C74_single`, `C74_marks`, `C74_mdif`, `C74_mdif_name`, `C74_mdif_quiet`

### C75 Older HDF5 format and choice of the format (proved)

* Model: Model_H5Old.v: the group of a block as two lists of datasets and groups with their attributes, the root of a file with the version attribute; save, read and the dispatch on top of Model_H5File for the newer format
* Proof: induction over the listed dimensions and variables with the invariant of the ordered dictionaries, the lookups of axes being stable under further assignments; a group left by a path name makes reading fail by induction; the dispatch composes with C61
* Not covered: h5py itself, compression, keys that begin with a slash, contents of groups made by path names, property_to_vars
* Theorems (`Prop_H5Old.v`): `C75_roundtrip`, `C75_slash`, `C75_older`, `C75_newer`, `C75_name_refuted`, `C75_format_refuted`

### C76 Units in names and guessed units (proved)

* Model: `Model_Units.v`: the table, add_var_guess and guess_unit_from_varname, the regular expression for names with unit, guess_units, fix_unit and the stage _guess_unit as functions on the block of `Model_Block.v`; multiplication of elements and labels by a power of ten are parameters.
* Proof: `Spec_Units.v` says what a name with unit is, what fixed and guessed dimensions, axes and variables are and which names are known. The expression is characterised from both sides (`C76_name`). A replaced dimension is followed on the ordered list of entries: in its place under a new name, last under the same name; many replacements are one function of the axes (`Proofs_Units.v`). `C76_fix`, `C76_guess`, `C76_stage`, `C76_table`, `C76_add`; deviations `C76_order_refuted`, `C76_xname_refuted`, `C76_lost_refuted`.
* Not covered: Units of properties in comments and guess_units with a list of names.
* Theorems (`Prop_Units.v`): `C76_name`, `C76_fix`, `C76_guess`, `C76_stage`, `C76_table`, `C76_add`, `C76_order_refuted`, `C76_xname_refuted`, `C76_lost_refuted`

### C77 Element attributes of multiports (proved)

* Model: `Model_Ports.v`: the dictionary of accessors as the loops of _MultiPortArray.__init__ build it (a later entry replaces an earlier one), the accessor, __getattr__ and __setattr__ on arrays of `Model_NdArray.v`; the attributes that the object has itself are a parameter.
* Proof: `Spec_Ports.v` says which keys name which elements, what the array of an element is and what replacing one means. The entry found is the last with the key; the entries of a name are sorted by position, and keys of different names can not be confused as the names have the same length. `C77_get`, `C77_ten`, `C77_eleven`, `C77_refused`, `C77_none`, `C77_rows`, `C77_set`, `C77_set_get`.
* Not covered: That the hfarray made with copy=False is a view of the elements is taken from numpy; the values of other attributes.
* Theorems (`Prop_Ports.v`): `C77_get`, `C77_ten`, `C77_eleven`, `C77_refused`, `C77_none`, `C77_own`, `C77_rows`, `C77_set`, `C77_set_get`

### C78 Reading a configuration keeps its places and its scoping (proved)

* Model: `Model_ConfigLoad.v`: construct_mapping and construct_sequence make objects in a heap, the parent being set after the child is made; reload_settings copies the items of the outermost dictionary to a new one; convert_to_standard. Lookup is the one of `Model_Config.v`, applied to the same objects.
* Proof: `Spec_ConfigLoad.v` has places in documents and among objects and says which mapping around a place is the innermost that defines a key. By induction over documents every object represents its node (`Proofs_ConfigLoad.v`); the nearest enclosing dictionary of C46 is then the innermost mapping. `C78_same`, `C78_parent`, `C78_lookup`, `C78_mapping`, `C78_config`, `C78_config_lookup`, `C78_detached`, `C78_standard`.
* Not covered: Parsing YAML text into nodes, aliases (shared nodes), keys that are not strings, the text written by yaml.dump.
* Theorems (`Prop_ConfigLoad.v`): `C78_same`, `C78_parent`, `C78_lookup`, `C78_mapping`, `C78_config`, `C78_config_lookup`, `C78_detached`, `C78_standard`

### C79 Shortened names keep every variable and are as short as possible (proved)

* Model: `Model_MdifNames.v`: shorten_name with its loop over the number of parts, and the loop of fixnames over the variables of one block, on the DataDict of `Model_DataDict.v` and the splitting of `Model_Spdata.v`.
* Proof: `Spec_MdifNames.v` speaks of tails after dots and of the entries in order. The tails are the joins of the last parts, with lengths growing; the loop takes the first free one. Induction over the variables left, the treated ones standing before them. `C79_shorten`, `C79_fixnames`, `C79_kept`; `C79_lost_refuted` (a and a.m: one variable is lost) and `C79_raises_refuted` (p.a.m and p.a: KeyError) show that the condition is needed.
* Not covered: The loop over the blocks of a file (each is treated alone).
* Theorems (`Prop_MdifNames.v`): `C79_shorten`, `C79_fixnames`, `C79_kept`, `C79_lost_refuted`, `C79_raises_refuted`

### C80 Arranged figures are all placed, on the screen, and mostly without overlap (proved)

* Model: `Model_Figures.v`: fig_fits_w, fig_fits_h, move_fig (as the place the window gets) and arrange_figures, its loop as a recursion over the figures and its call of itself with fuel.
* Proof: `Spec_Figures.v` has windows as rectangles. Induction over the figures with the invariant that a window asked for before is above the row by the gap, or in the row, to the left and no higher than maxheight. `C80_order`, `C80_screen`, `C80_ends`, `C80_endless`, `C80_rows`, `C80_left`, `C80_apart`, `C80_apart_first`; `C80_overlap_refuted`: the height of the first window of a later row is not counted, so the next row can overlap it.
* Not covered: The window toolkit, is_in_ipython, the order of Gcf.figs, overlap between windows moved back onto the screen, and between passes (which is intended).
* Theorems (`Prop_Figures.v`): `C80_order`, `C80_screen`, `C80_ends`, `C80_endless`, `C80_apart`, `C80_apart_first`, `C80_rows`, `C80_left`, `C80_overlap_refuted`

## Trusted base

* Coq's kernel (8.16.1), its virtual machine (`vm_compute` in examples and
  witnesses) and the standard library.
* That the models mirror the code.  Every definition cites the lines it models;
  simplifications are named in the comments and below.
* The models of what is not in `/repo`:
  - numpy (`Model_NdArray.v`): row-major storage, indexing, `transpose`,
    `reshape`, broadcasting (trailing axes, length one), `take`, basic slicing,
    boolean masks, reductions along an axis, `einsum("...ij,...jk->...ik")`,
    `linalg` on stacks of matrices, assignment with broadcasting;
  - Python: `sorted` and `list.sort` (a stable sort that only asks `<`), `set`,
    `dict`, `str.split/strip/join/replace/startswith`, the regular expressions
    used by the readers (each written out as a function), `int()`,
    `os.path` on POSIX;
  - h5py: a file is its attribute, and named arrays with `maxshape`.
* Parameters.  The theorems hold for every value of these; where something must
  be assumed of them it is a visible hypothesis of the theorem:
  - `float()`, `to_numeric` and printers of numbers (read back what is printed);
  - element operations, `exp`, complex conversions, `cast`, fill values: nothing
    is assumed;
  - `polyfit`, `linalg.inv/det/solve` for one matrix, square roots, `log10`:
    their defining equation;
  - orders of labels and names: strict total orders;
  - the choice of a longest tuple from a set (`pick`): that it is a longest one;
  - conjugation: an involution of the field.
* Not modelled at all: `hftools/plotting` (drawing), `hftools/logger.py`,
  `hftools/py3compat.py`, `file_formats/slask` (unused lexers), `setup.py`,
  parts of `_external/path.py` that call the operating system,
  `file_formats/muwave_mat.py` (scipy.io), `hdf5/v_01.py` (older layout),
  `constants/waveguide.py` (a table), the yaml loader of `config.py`, printing
  and `__repr__` of arrays and blocks, warnings and log messages, deprecated
  aliases, pickling.
* No axiom, parameter or hypothesis outside sections is declared here, no proof
  is admitted, no check of the kernel is switched off.

### Print Assumptions

`Print Assumptions` stands below every theorem in the `Prop_*.v` files.  What it
lists:

* `C67_unwrap`, `C58_reciprocal`, `C58_sign_refuted`, `C35_angle`, `C35_angle_deg`, `C35_unwrap`, `C35_turns`, `C35_restored`, `C35_degrees`, `C35_sqrt`, `C35_delay`, `C35_large_step_refuted`, `C68_r_circle`, `C68_x_circle`, `C68_g_circle`, `C68_b_circle`, `C68_x_line`, `C68_r_arc`, `C68_x_arc`, `C68_g_arc`, `C68_b_arc`, `C68_r_whole`, `C68_x_whole`, `C68_g_descending`, `C68_b_line_refuted`:
  - `ClassicalDedekindReals.sig_not_dec`
  - `ClassicalDedekindReals.sig_forall_dec`
  - `FunctionalExtensionality.functional_extensionality_dep`
  - `Classical_Prop.classic`
* `C32_round_trip`, `C32_readable`, `C32_ABCD`, `C32_Rn_refuted`, `C58_eig`, `C58_check`, `C58_check_passive`, `C58_eig_refuted`:
  - `ClassicalDedekindReals.sig_not_dec`
  - `ClassicalDedekindReals.sig_forall_dec`
  - `FunctionalExtensionality.functional_extensionality_dep`
* `C58_svd`, `C58_svd_fails`, `C58_switch`, `C68_passive`, `C68_order`, `C68_far`, `C68_far_side`:
  - `ClassicalDedekindReals.sig_forall_dec`
  - `FunctionalExtensionality.functional_extensionality_dep`
* the other 478 theorems: `Closed under the global context`, that is no axiom at
  all: `C39_success`, `C39_kept`, `C39_refused`, `C39_failure_grows`, `C39_history`, `C39_labels`, `C39_atomic_refuted`, `C39_label_refuted`, `C01_binop_aligned`, `C02_binop_dims`, `C03_binop_exchange`, `C04_transpose`, `C04_transpose_any`, `C04_transpose_inverse`, `C04_reorder`, `C05_dims_track_shape`, `C05_keepdims_refuted`, `C05_constructor_refuted`, `C05_broadcast_refuted`, `C05_t_refuted`, `C05_add_dim_refuted`, `C06_matrix_transpose`, `C06_twice`, `C07_reduce`, `C07_reduce_all`, `C07_squeeze`, `C07_squeeze_axes`, `C51_negative_axis`, `C08_getitem`, `C08_mask`, `C09_take`, `C10_remove_tail`, `C10_remove_tail_matrix`, `C10_remove_rep`, `C10_remove_rep_none`, `C10_not_adjacent_refuted`, `C11_entries`, `C11_arithmetic`, `C11_real_entries`, `C12_expand_diagonals`, `C13_add_dim`, `C13_add_dim_present`, `C13_replace_dim`, `C14_equivalence`, `C14_equal_iff`, `C14_hash`, `C14_hash_refuted`, `C15_anonymous_fresh`, `C15_anonymous_history`, `C15_anonymous_succeeds`, `C15_other_class_refuted`, `C52_labels_of_left`, `C52_labels_ignored_refuted`, `C53_cumulate`, `C53_unit_dropped`, `C37_characters`, `C43_characters`, `C44_characters`, `C43_decimal`, `C43_prefix`, `C01_row_major`, `C18_element_names`, `C18_element_shape`, `C37_exponent`, `C56_characters`, `C41_characters`, `C01_default_dims`, `C44_line_numbers`, `C41_line_numbers`, `C45_allvarnames`, `C18_invariant`, `C18_get_set`, `C18_set_element`, `C18_set_ivar`, `C18_del`, `C18_own_dimension_refuted`, `C18_stale_element_refuted`, `C18_element_like_refuted`, `C18_element_positional_refuted`, `C18_ivar_length_refuted`, `C17_block_rename_dim`, `C17_block_rename_var`, `C54_xname_parity`, `C19_sort`, `C19_labels_ascending`, `C19_single_point_refuted`, `C19_unused_dimension_refuted`, `C20_filter`, `C20_mask_labels_refuted`, `C66_other`, `C66_first`, `C66_missing`, `C66_not_first`, `C66_array`, `C66_array_refused`, `C66_block`, `C66_order_refuted`, `C66_axis_refuted`, `C65_keep`, `C65_squeeze`, `C65_remove_rep`, `C65_keep_dim_refuted`, `C65_some_reps_refuted`, `C73_splitext`, `C73_namebase`, `C73_place`, `C73_use`, `C73_kept`, `C73_origin`, `C73_present`, `C73_later`, `C73_from_cache`, `C73_own_data_refuted`, `C73_blocks`, `C44_parse`, `C44_sizes`, `C44_roundtrip`, `C44_read`, `C44_order_refuted`, `C44_fewer_refuted`, `C44_blank_refuted`, `C44_nan_refuted`, `C44_empty_refuted`, `C59_plain`, `C59_unit`, `C59_sound`, `C59_matches`, `C59_stripped`, `C59_properties`, `C59_reads`, `C59_no_value`, `C59_full`, `C59_reread`, `C59_extend`, `C59_classes`, `C59_bang_refuted`, `C46_lookup`, `C46_contains`, `C46_assign`, `C46_outer`, `C46_copy`, `C47_lookup`, `C47_keys`, `C47_agree`, `C46_empty_parent`, `C47_empty_parent`, `C46_contains_refuted`, `C46_copy_refuted`, `C47_keys_refuted`, `C78_same`, `C78_parent`, `C78_lookup`, `C78_mapping`, `C78_config`, `C78_config_lookup`, `C78_detached`, `C78_standard`, `C69_interval_read`, `C69_interval_minus`, `C69_interval_shown`, `C69_interval_roundtrip`, `C69_interval_negative`, `C69_interval_exponent`, `C69_percent`, `C69_si`, `C69_metre`, `C69_si_roundtrip`, `C69_si_metres`, `C69_time`, `C69_int`, `C45_name`, `C45_join`, `C45_taken_refuted`, `C45_twice_refuted`, `C45_element_refuted`, `C16_history`, `C16_update_history`, `C16_pop_refuted`, `C17_rename`, `C17_rename_onto`, `C17_rename_same`, `C17_rename_missing`, `C23_split`, `C23_roundtrip`, `C23_unit_refuted`, `C23_single_refuted`, `C23_digit_refuted`, `C23_large_refuted`, `C67_constructor`, `C67_expand`, `C67_no_labels`, `C67_lookup`, `C67_square`, `C67_singular`, `C67_int`, `C67_si`, `C67_citi_pair`, `C67_citi_unknown`, `C67_mdif_header`, `C67_mdif_words`, `C67_mdif_attribute`, `C67_mdif_range`, `C67_mdif_no_header`, `C67_stack`, `C67_sp`, `C67_config`, `C80_order`, `C80_screen`, `C80_ends`, `C80_endless`, `C80_apart`, `C80_apart_first`, `C80_rows`, `C80_left`, `C80_overlap_refuted`, `C61_roundtrip`, `C61_expandable`, `C61_names`, `C61_slash`, `C61_class`, `C61_unused_refuted`, `C61_format_refuted`, `C61_axis_refuted`, `C61_element_refuted`, `C75_roundtrip`, `C75_slash`, `C75_older`, `C75_newer`, `C75_name_refuted`, `C75_format_refuted`, `C21_hyper`, `C21_labels`, `C21_wrong_count`, `C21_descending_refuted`, `C21_duplicate_refuted`, `C24_segment`, `C24_outside`, `C24_grid`, `C24_between`, `C24_straight`, `C24_refuses`, `C24_none`, `C24_none_order_refuted`, `C64_subclass`, `C64_tables`, `C64_halves`, `C64_whole`, `C64_none`, `C64_order`, `C64_back_refuted`, `C64_matrix_refuted`, `C49_match`, `C49_keys`, `C49_pattern`, `C49_pattern_unique`, `C49_mdif_matrix`, `C49_mdif_vector`, `C49_duplicate_refuted`, `C49_gaps_refuted`, `C36_smooth_window`, `C36_smooth_bounds`, `C36_smooth_straight`, `C36_smooth_even_refuted`, `C36_poly_window`, `C36_poly_reproduces`, `C36_poly_last_ignored`, `C36_poly_contains_refuted`, `C34_multiply`, `C34_inv`, `C34_inv_multiply`, `C34_det`, `C34_solve`, `C34_solve_columns`, `C34_rectangular_refuted`, `C34_axes_refuted`, `C41_groups`, `C41_complete`, `C41_attribute`, `C41_columns`, `C41_ragged`, `C41_no_header`, `C41_blocks`, `C41_lines`, `C41_truncated_refuted`, `C63_written`, `C63_matched`, `C63_gather`, `C63_scalar_refuted`, `C63_both_refuted`, `C63_zero_refuted`, `C62_stack`, `C62_missing`, `C62_shapes`, `C62_by_name`, `C62_lost_refuted`, `C62_labels_refuted`, `C79_shorten`, `C79_fixnames`, `C79_kept`, `C79_lost_refuted`, `C79_raises_refuted`, `C60_indexed`, `C60_block`, `C60_file`, `C60_no_attributes`, `C60_complex_attribute`, `C60_values_refuted`, `C60_range_refuted`, `C60_lost_refuted`, `C40_hypercube`, `C40_order`, `C40_refused`, `C40_any_order`, `C40_merge`, `C40_single`, `C40_not_full`, `C40_shapes`, `C40_association`, `C40_names_refuted`, `C70_merge`, `C70_no_partials`, `C70_shapes`, `C70_missing_refuted`, `C70_shared_refuted`, `C30_same_network`, `C30_defined`, `C30_unique`, `C30_chain`, `C30_chains_agree`, `C30_round_trip`, `C31_honoured`, `C31_default`, `C31_restored`, `C31_ignored`, `C31_explicit_impedance_refuted`, `C31_getitem_refuted`, `C28_waves`, `C28_thru`, `C28_associative`, `C28_transfer_product`, `C28_network`, `C29_left`, `C29_right`, `C29_both`, `C29_left_solves`, `C29_right_solves`, `C29_network`, `C33_sources`, `C33_chains_agree`, `C33_round_trip`, `C55_passive`, `C55_kinds`, `C57_standard`, `C57_normalize`, `C57_clash`, `C57_rivals_refuted`, `C57_dimension_refuted`, `C50_leads_to`, `C50_same`, `C50_relative`, `C50_splitall`, `C50_splitall_refuted`, `C77_get`, `C77_ten`, `C77_eleven`, `C77_refused`, `C77_none`, `C77_own`, `C77_rows`, `C77_set`, `C77_set_get`, `C71_marks`, `C71_choice`, `C71_exclusive`, `C71_file`, `C71_citi`, `C71_touchstone`, `C71_comment_refuted`, `C71_mdif`, `C71_mdif_one_dimension`, `C71_hdf5`, `C71_spdata`, `C74_file`, `C74_files`, `C74_refused`, `C74_single`, `C74_marks`, `C74_mdif`, `C74_mdif_name`, `C74_mdif_quiet`, `C37_prefixed`, `C37_only_prefixes`, `C37_base_kept`, `C37_unambiguous`, `C37_spaces`, `C37_read`, `C37_read_plain`, `C37_exponent_refuted`, `C37_brackets_refuted`, `C37_format`, `C37_format_range`, `C37_format_zero`, `C37_round_trip`, `C37_zetta_refuted`, `C43_groups`, `C43_order`, `C43_columns`, `C43_roundtrip`, `C43_letter_refuted`, `C43_empty_refuted`, `C43_ragged_refuted`, `C22_blocks`, `C22_partition`, `C22_repeated`, `C22_shared_refuted`, `C22_order_refuted`, `C22_scalar_refuted`, `C42_many`, `C42_many_at_end`, `C42_optional`, `C42_one_of`, `C42_end`, `C42_suffix`, `C42_one_function_refuted`, `C38_no_separator`, `C38_restored`, `C38_injective`, `C38_only_then`, `C38_collision_refuted`, `C26_ports`, `C26_all_numbers`, `C26_records`, `C26_single`, `C27_two_port`, `C27_others`, `C27_split`, `C26_wrapped_refuted`, `C27_short_refuted`, `C27_above_refuted`, `C25_read`, `C25_read_noise`, `C25_options`, `C25_roundtrip`, `C25_transposed`, `C25_single`, `C25_threeport_refuted`, `C76_name`, `C76_fix`, `C76_guess`, `C76_stage`, `C76_table`, `C76_add`, `C76_order_refuted`, `C76_xname_refuted`, `C76_lost_refuted`, `C48_stable_uniq`, `C48_runs`, `C48_total`, `C48_strict`, `C48_lex_order`, `C48_lex_order_canonical`, `C48_numbers`, `C48_mixed_refuted`, `C48_mixed`, `C48_flatten`, `C48_flatten_flat`, `C72_walk`, `C72_walkdirs`, `C72_walkfiles`, `C72_invalid`, `C72_distinct`, `C72_listing`, `C56_complete`, `C56_once`, `C56_plain_matrix_refuted`, `C56_labels_refuted`, `C56_length_refuted`, `C56_element_refuted`.

## Deviations found

The `_refuted` theorems above are concrete inputs on which the code (as
modelled) does something a reader would not expect.  The most serious ones:

* C21: `hyper` labels the data wrongly when the values of a name first appear in
  another than ascending order.
* C25: three-port and larger Touchstone files are written transposed.
* C32: `noise_parameters` of an ABCD network gives twice the Rn.
* C39: `append_hdf5` never stores the new index label, and a refused append
  leaves the index dimension one entry too long.
* C40: blocks with other parameter names are merged as if they had the same.
* C41: a truncated MDIF file loses its last block silently (Python 2.7).
* C44: CITI files with variables over sweeps in another order are misread.
* C14: equal dimensions can have different hashes.
* C05: `keepdims`, the constructor and length-one broadcasts break the tie of
  dimensions and shape.

## Tests with wrong programs

`seeded/LOG.jsonl` has one line per attempt: the definition edited in a scratch
copy, the edit, the claim it breaks, and the theorems that then no longer prove.
A theorem counts as failed if its proof script, or one of a lemma it rests on, no
longer goes through; this is what was observed, and by itself does not show that
the statement is false of the edited program.  For the edit `own attributes not
looked for` of port_setattr the failure turned out to be one of the scripts only,
and led to `C77_own`; so it was for the edit `width of the first window of a row
not counted` of one_pass, which led to `C80_rows`.  The other lines have not all
been checked for this.
Lines whose failed theorem is written `File.v:name` are of an automatic sweep
that stopped at the first lemma or theorem that did not prove; which theorems rest
on it was not determined there.  Eight lines of that sweep had been counted as
failures by mistake, the word Error in the output of Print Assumptions being taken
for one of the build; these edits were tried again, and the lines say what was
seen then.
Edits which no theorem noticed are marked and led to the tightened theorems
listed there, unless the edit does not change the claim (noted in the line).
