{"id": "C01", "title": "Element-wise arithmetic aligns by dimension, not by position", "statement": "For two hfarrays a and b whose shared dimensions have equal length and that are either both or neither in the real 2x2 representation of complex numbers, a op b (op one of + - * / ** & | ^ ==) succeeds and the value of the result at any assignment of coordinates to the dimensions of the result equals op applied to the value of a and the value of b at the same assignment (each operand reading only its own dimensions), irrespective of the order in which the operands store their dimensions.", "quantifier": "every pair of well-formed arrays of any rank, shape and dimension order, every element type and every element-wise operation, every coordinate assignment", "why_tests_cant": "the number of ranks, dimension orders and overlaps is infinite; a test fixes one layout, while a wrong transpose order only shows on layouts with non-symmetric shapes and orders that were not chosen", "anchors": ["hftools/dataset/arrayobj.py: change_shape, dims_union, make_same_dims, check_instance, _hfarray.__add__, __sub__, __mul__, __truediv__, __pow__"]}
{"id": "C02", "title": "Dimensions of a binary result", "statement": "The dimensions of a op b are exactly the dimensions of a plus those of b that match none of a's, each appearing once, ordered by ascending sort priority (sweep, repetition, matrix row, matrix column, complex) with ties in order of first appearance; the unit of the result is that of the left operand.", "quantifier": "every pair of well-formed arrays", "why_tests_cant": "stability and completeness of the union is a statement about all lists of dimensions", "anchors": ["hftools/dataset/arrayobj.py: dims_union, DimsList.__contains__, check_instance", "hftools/dataset/dim.py: DimBase.sortprio"]}
{"id": "C03", "title": "Exchanging the operands only changes dimension order", "statement": "If op is commutative on elements then a op b and b op a hold the same value at every assignment of coordinates to dimensions, and have the same set of dimensions.", "quantifier": "every pair of well-formed arrays without dimensions of comparable but different class under the same name, every commutative op", "why_tests_cant": "needs all layouts; the two results may be stored transposed with respect to each other so an element-wise test on one layout says nothing about others", "anchors": ["hftools/dataset/arrayobj.py: dims_union, change_shape, _hfarray.__radd__, __rmul__"]}
{"id": "C04", "title": "Reordering dimensions never relabels data", "statement": "transpose(*order) and reorder_dimensions(*dims) keep the value at every assignment of coordinates to dimensions; reorder_dimensions puts the requested dimensions first, keeps the others in their relative order; transposing with an order and then with its inverse gives back the original array.", "quantifier": "every array, every permutation, every list of distinct dimensions of the array", "why_tests_cant": "factorially many permutations for every rank and arbitrary ranks", "anchors": ["hftools/dataset/arrayobj.py: _hfarray.transpose, reorder_dimensions, T"]}
{"id": "C05", "title": "Number and length of dimensions track the shape through any sequence of operations", "statement": "Starting from arrays whose dimension list has one entry per axis with as many labels as the axis is long, any finite sequence of transpose, reorder_dimensions, t, squeeze, slicing, take, reductions without keepdims, cumulative sums, add_dim and expand_diagonals that does not raise produces arrays with the same property, provided t is used on arrays with distinct dimension names and add_dim with a dimension that has labels. (With keepdims, with labels passed to the constructor, with broadcasting of length-one dimensions and without the two provisos the property fails; witnesses are given.)", "quantifier": "every finite program over these operations, every starting array", "why_tests_cant": "an invariant over all operation histories", "anchors": ["hftools/dataset/arrayobj.py: _hfarray.__new__, verify_dimension, transpose, reorder_dimensions, t, squeeze, take, __getitem__, sum, cumsum, add_dim, expand_diagonals"]}
{"id": "C06", "title": "Matrix transposition", "statement": "For an array with one matrix-row and one matrix-column dimension a.t holds at row r, column c the element of a at row c, column r for every setting of the other dimensions, keeps the positions of all dimensions, exchanges the row and column labels, and a.t.t has the same elements, shape and matrix labels as a.", "quantifier": "every array with exactly one DimMatrix_i and one DimMatrix_j at arbitrary positions, every coordinate", "why_tests_cant": "arbitrary positions of the matrix dimensions and arbitrary shapes", "anchors": ["hftools/dataset/arrayobj.py: _hfarray.t"]}
{"id": "C07", "title": "Reductions and squeeze remove exactly the named dimension", "statement": "sum/mean/min/max over a dimension (named by index, string, dimension object or class) give at each assignment of the remaining dimensions the reduction of the values of the array over all coordinates of the removed dimension, and the remaining dimensions are those of the array without it (axis numbers are non-negative; for negative ones see C51); squeeze drops dimensions of length one and changes no value.", "quantifier": "every array, every axis designation, every reduction operation", "why_tests_cant": "the axis designators interact with all shapes and positions", "anchors": ["hftools/dataset/arrayobj.py: _hfarray.sum, mean, min, max, squeeze, axis_handler, multiple_axis_handler"]}
{"id": "C08", "title": "Indexing keeps labels attached to data", "statement": "a[idx] with integers, slices and Ellipsis gives an array in which every remaining element is still labelled with the same dimension values as in a, integer-indexed dimensions are gone, and the others keep their order; a[mask] with a one-dimensional boolean array along a dimension keeps exactly the elements whose mask is true, with their labels, in order.", "quantifier": "every array of any rank, every tuple of integers/slices (any start, stop, step incl. negative), every mask", "why_tests_cant": "infinite families of slices and shapes", "anchors": ["hftools/dataset/arrayobj.py: _hfarray.__getitem__", "hftools/dataset/dim.py: DimBase.__getitem__"]}
{"id": "C09", "title": "take selects along one dimension and relabels it with the indices", "statement": "a.take(indices, axis) holds at position k of the axis the element of a at position indices[k], all other dimensions unchanged, and the dimension is replaced by one of the same class and name.", "quantifier": "every array, axis and index list within range", "why_tests_cant": "all index lists and ranks", "anchors": ["hftools/dataset/arrayobj.py: _hfarray.take"]}
{"id": "C10", "title": "Collapsing repetitions and tails loses no data", "statement": "remove_tail(x) and remove_rep(x) keep all elements exactly once: the collapsed dimension's index is the mixed-radix number of the collapsed coordinates, and the other dimensions keep their values, for an array whose repetition dimensions are adjacent.", "quantifier": "every array of any rank with any number of repetition dimensions", "why_tests_cant": "mixed radix bijection for all shapes; order of radices unobservable on square examples", "anchors": ["hftools/dataset/arrayobj.py: remove_tail, remove_rep"]}
{"id": "C11", "title": "Real 2x2 representation of complex arrays respects arithmetic", "statement": "make_fullcomplex_array maps every element x+jy to the matrix [[x,-y],[y,x]], so that sums of the representation represent sums and matrix products represent products; for an array of real type only the entry [0,0] is filled and the other three are zero (so it does not represent the number).", "quantifier": "every array and all element values", "why_tests_cant": "algebraic identity over all numbers; the behaviour for real input is only visible when the second diagonal element is used", "anchors": ["hftools/dataset/arrayobj.py: make_fullcomplex_array, isfullcomplex"]}
{"id": "C12", "title": "Expanding a diagonal dimension", "statement": "expand_diagonals replaces a diagonal dimension by an (independent, derivative) pair of the same length; the result is the original value where both coordinates agree and zero elsewhere, for all other coordinates.", "quantifier": "every array and every diagonal dimension of it at every position, any number of diagonal dimensions", "why_tests_cant": "stride arithmetic over all shapes and positions", "anchors": ["hftools/dataset/arrayobj.py: expand_diagonals, _expand_diagonal, diagonal_view"]}
{"id": "C13", "title": "add_dim broadcasts, replace_dim relabels", "statement": "add_dim(dim, axis) inserts dim at the given axis (clipped to the rank) and repeats the data for every label of dim; adding an existing dimension is a no-op; replace_dim changes no data and only the dimensions carrying that name.", "quantifier": "every array, dimension and axis number", "why_tests_cant": "all ranks and axis positions", "anchors": ["hftools/dataset/arrayobj.py: _hfarray.add_dim, replace_dim"]}
{"id": "C14", "title": "Equality and hash of dimensions", "statement": "Dimension equality is an equivalence on dimensions, holding exactly if class, name, labels and unit agree; two dimensions that compare equal have equal hash exactly if they also store the same output format, so sets and dictionaries keyed by dimensions only behave in that case (the hash contract is violated otherwise, witness given).", "quantifier": "every pair/triple of dimensions", "why_tests_cant": "an equivalence law over all dimensions; the hash contract is only violated for special attribute combinations", "anchors": ["hftools/dataset/dim.py: DimBase.__eq__, __hash__"]}
{"id": "C15", "title": "Generated anonymous dimensions are fresh", "statement": "get_new_anonymous_dim returns a dimension whose name differs from that of every anonymous dimension already present, it never fails on dimensions it generated itself, and after any history of such additions anonymous dimension names are distinct. (Dimensions of other classes are not looked at, a clash with them is possible, witness given.)", "quantifier": "every list of dimensions and every history of additions", "why_tests_cant": "freshness for all existing sets of names", "anchors": ["hftools/dataset/arrayobj.py: get_new_anonymous_dim"]}
{"id": "C16", "title": "DataDict stays consistent under every history", "statement": "After any sequence of item assignment, deletion, setdefault, rename, copy, and view on a DataDict, iterating yields every stored key exactly once, in insertion order, lookups return the last value stored under the key, and len equals the number of keys iterated.", "quantifier": "every finite history of operations with arbitrary keys and values, including operations that raise", "why_tests_cant": "histories are unbounded; the order list and the mapping are two structures that can drift apart only after particular sequences", "anchors": ["hftools/dataset/dataset.py: DataDict.__setitem__, __delitem__, setdefault, rename, copy, view, __iter__"]}
{"id": "C17", "title": "Renaming a variable keeps data and position", "statement": "rename(old, new) to an unused name keeps the value and its place in iteration order and leaves all other entries alone; renaming onto another existing name replaces that entry's value in its place and removes old; renaming to itself moves the entry last; an absent old raises KeyError. Renaming a dimension of a DataBlock renames it in every variable and leaves their values alone.", "quantifier": "every DataDict and every pair of names", "why_tests_cant": "collision behaviour is an all-states question", "anchors": ["hftools/dataset/dataset.py: DataDict.rename, DataBlock.rename"]}
{"id": "C18", "title": "DataBlock assignment, lookup and deletion", "statement": "Over every history of assignments (arrays, dimensions, matrix elements), deletions, renamings and dimension replacements, both dictionaries of a DataBlock stay consistent and every dimension of every variable is registered as an independent variable. After db[name] = array, db[name] gives that array unless the name is an independent variable, a dimension name of the array or an element of a stored matrix; assigning an element Mij writes exactly that element; assigning to an independent variable replaces its labels; names not involved keep their values; deletion removes exactly the named dependent variable.", "quantifier": "every history of assignments and deletions on a block, every name, every array", "why_tests_cant": "two dictionaries kept in step: an invariant over histories", "anchors": ["hftools/dataset/dataset.py: DataBlock.__setitem__, __getitem__, __delitem__, __contains__, rename, replace_dim"]}
{"id": "C19", "title": "Sorting a block along a dimension", "statement": "sort(key) applies one and the same permutation, along which the key is ascending, to the labels of the dimension and to that dimension of every variable, so each (label, value) pair present before is present after with the same multiplicity; sorting along the dimension itself leaves its labels ascending. Exceptions shown by witnesses: a one-point sweep and a dimension that no variable has raise.", "quantifier": "every block without names like dimensions or elements, every order of the underlying set with arbitrary many variables of arbitrary rank", "why_tests_cant": "permutation coherence across all variables and shapes", "anchors": ["hftools/dataset/dataset.py: DataBlock.sort"]}
{"id": "C20", "title": "Filtering a block by a boolean condition", "statement": "filter(mask) with a boolean mask keeps for every variable having the dimension exactly the entries whose mask is true in the original order together with their labels and leaves the other variables unchanged.", "quantifier": "every block and every mask", "why_tests_cant": "all masks and shapes", "anchors": ["hftools/dataset/dataset.py: DataBlock.filter"]}
{"id": "C21", "title": "Hyper-dimension conversion keeps (label, value) pairs", "statement": "hyper(names, dim) turns a flat sweep in which every combination of the values of the named variables occurs exactly once into one dimension per name: the place (j1,...,jk) of every variable holds the value recorded for the combination of the j1-th smallest value of the first name, ..., the jk-th smallest of the last; when the values of each name first appear in ascending order the labels of the new dimensions are these values, so that the value found at labels (l1,...,lk) is the one recorded for that combination. Variables without the dimension are kept as they are, and a number of points that is not the product of the numbers of different values is refused.", "quantifier": "every complete set of combinations in any order, every number of names, every strict total order of the values, all other variables of the block", "why_tests_cant": "all orders of all rectangular sets: labels and data are sorted by different criteria and agree only for ascending input", "anchors": ["hftools/dataset/dataset.py: DataBlock.hyper", "hftools/utils.py: stable_uniq"]}
{"id": "C22", "title": "Splitting a block by dimensions loses nothing", "statement": "yield_dim_consistent_datablocks hands out every variable, unchanged, in at least one block; the block yielded for a dimension list holds exactly the variables over these dimensions or over all but the first, in their order, and each list comes once. If dimensions always stand in the same order, no two lists differ only in the first dimension and there are no scalars, every variable is in exactly one block. A list naming a dimension twice is refused with ValueError.", "quantifier": "every block", "why_tests_cant": "partition law over all sets of variables and dimension lists", "anchors": ["hftools/dataset/dataset.py: yield_dim_consistent_datablocks, subset_datablock_by_dims"]}
{"id": "C23", "title": "Matrix variables and their elements convert back and forth", "statement": "convert_matrices_to_elements replaces every matrix variable by one variable per element, row by row, under the names the format function gives, each element having the values of the matrix at that row and column, and keeps every other variable. Running the reader's matrix builder _make_matrix_from_block on the result then gives back every matrix: same rows, columns and outer dimensions, same value at every place. No other variable is changed, added or lost.", "quantifier": "every block; the round trip for matrices named by letters, with at most nine rows and columns and more than one element, beside variables not named like elements", "why_tests_cant": "index arithmetic for all n and all surrounding dimensions", "anchors": ["hftools/dataset/dataset.py: convert_matrices_to_elements", "hftools/file_formats/readbase.py: combine_elements_to_matrix, match_matrix_elements, _matrix_elements"]}
{"id": "C24", "title": "Linear interpolation of a block", "statement": "Interpolation at a point of the grid returns the stored value, between two neighbouring grid points the result lies on the line through the two neighbours (so never outside their values), outside the grid the end lines are continued by linear_extrapolate while interpolate raises ValueError exactly there, and a linear function of the grid is reproduced exactly. Mode none picks the rows of ascending new points with the right labels and raises ValueError if one of them is not in the grid.", "quantifier": "every strictly increasing grid of at least two points, every query point, every data vector", "why_tests_cant": "all grids and query points, the interval search is an unbounded loop", "anchors": ["hftools/math.py: interpolate, linear_extrapolate", "hftools/dataset/dataset.py: interpolate, DataBlock.interpolate"]}
{"id": "C25", "title": "Touchstone text: reading, and reading what was written", "statement": "A text of comments, blank lines, exactly one option line and the number lines of at least two complete records is read as the option line says: frequencies times the unit, the named kind of parameters, element i,j from its place in the record (row by row, column by column for two ports) in the given format, the comments trimmed; noise data likewise for two ports. No or more than one option line is an error. Writing a block with one or two ports and at least two rising frequencies and reading it back returns the same frequencies and S[i][j] in place i,j; with three or more ports the matrices come back transposed, and a file with one frequency cannot be read.", "quantifier": "every file of this form, every port count n, every number of frequency points, every data, every number printer whose output has no white space, ! or # and reads back", "why_tests_cant": "all n and all lengths; only asymmetric matrices with n>=3 or single-point sweeps reveal the divergence", "anchors": ["hftools/file_formats/touchstone.py: save_touchstone, format_touchstone_block, proc_info, process_data"]}
{"id": "C26", "title": "Port count inference from a Touchstone data stream", "statement": "The reader takes the smallest number of ports n (with 4 n^2 less than the count of numbers) for which the lines are complete records of 2 n^2 + 1 numbers with rising frequency (for two ports possibly followed by noise records), gives exactly these records and loses, doubles or moves no number. At least two complete records of an n-port with rising frequency, the first line of which has more than 2 (n-1)^2 + 1 numbers, are thus read as that n-port. A single record on one line is always rejected; two-port records broken into lines of three numbers are read as a one-port.", "quantifier": "every list of non-empty lines of numbers, every order test, every n and number of records", "why_tests_cant": "the reader guesses the record width by trial; ambiguity depends on data values", "anchors": ["hftools/file_formats/touchstone.py: process_data, _process_data, proc_data"]}
{"id": "C27", "title": "Noise block separation in two-port Touchstone data", "statement": "A stream is accepted as two-port data exactly when it is complete records of nine numbers with rising frequency, followed by nothing or by at least one complete noise record of five numbers whose first frequency does not exceed that of the last network record and which rise among themselves; both parts are returned and their concatenation is the input. Other record lengths never give noise data. One frequency point with one noise record, and noise data above the network frequencies, are rejected.", "quantifier": "every list of non-empty lines of numbers and every order test", "why_tests_cant": "position search over unbounded streams", "anchors": ["hftools/file_formats/touchstone.py: _process_data"]}
{"id": "C28", "title": "Cascade of two-ports is the composition of networks", "statement": "cascadeS(S1,S2) is the scattering matrix of the two networks connected output to input: for all waves satisfying both networks and the connection the outer waves satisfy the result, conversely; it is associative, has the thru as identity and multiplies under the S-to-T map.", "quantifier": "all complex two-port matrices for which the connection is well posed", "why_tests_cant": "algebraic laws over all complex values", "anchors": ["hftools/networks/spar_functions.py: cascadeS", "hftools/networks/multiports.py: _MultiPortArray.cascade, TArray"]}
{"id": "C29", "title": "Deembedding inverts cascading", "statement": "deembedleft(A, cascadeS(A,X)) = X and deembedright(cascadeS(X,B), B) = X and deembed(A, cascade(A,X,B), B) = X whenever the fixtures transmit and the connections are well posed.", "quantifier": "all complex two-port matrices with non-zero transmission terms", "why_tests_cant": "rational identities over all complex values", "anchors": ["hftools/networks/spar_functions.py: deembedleft, deembedright, deembed"]}
{"id": "C30", "title": "Network parameter conversions describe the same network", "statement": "Converting a two-port between Z, Y, S, T, Tp, H, G and ABCD keeps the set of admissible port voltages and currents whenever the conversion is defined, hence chained conversions equal the direct one and every round trip is the identity; each kind's matrix has its textbook meaning.", "quantifier": "all invertible cases, every pair of kinds, every chain of conversions, all complex data and reference impedances", "why_tests_cant": "64 pairs and all chains over all complex matrices", "anchors": ["hftools/networks/multiports.py: convert, _MultiPortArray.__new__, ZArray, YArray, SArray, GArray, HArray, ABCDArray, TArray, TpArray"]}
{"id": "C31", "title": "Reference impedance is honoured", "statement": "Converting S parameters with reference impedance Z0a to another reference impedance Z0b renormalises (same network), asking for the same impedance changes nothing, and renormalising back restores the data; an explicit Z0 is honoured when the source is another kind or is not at the default impedance, and ignored (the result stays at the default) for plain data and for S data at the default impedance; indexing resets the impedance.", "quantifier": "all S matrices and impedances, every way of passing Z0", "why_tests_cant": "combinations of constructor paths and all values", "anchors": ["hftools/networks/multiports.py: _MultiPortArray.__new__, Z0, convert"]}
{"id": "C32", "title": "Noise parameters round trip", "statement": "Building a noisy two-port from Fmin, Rn, Gopt and reading the noise parameters back returns the same Fmin, Rn and Gopt after conversion to any representation other than ABCD; read straight from the ABCD representation Fmin and Gopt are right and Rn comes out doubled.", "quantifier": "all physically meaningful noise parameters and networks", "why_tests_cant": "real-algebraic identity over all values", "anchors": ["hftools/networks/noise.py: from_noisepar, NoisyTwoport.noise_parameters, convert, passive_noise"]}
{"id": "C33", "title": "Conversion of noise correlation matrices is basis independent", "statement": "Converting a noisy network from one representation to another transforms the noise sources so that converting there and back restores the correlation matrix, and converting through a third equals converting directly.", "quantifier": "all networks and correlation matrices for which the conversions exist", "why_tests_cant": "matrix identities over all values", "anchors": ["hftools/networks/noise.py: NoisyTwoport.convert"]}
{"id": "C34", "title": "Batched matrix routines act matrix-wise on aligned dimensions", "statement": "matrix_multiply, inv, det and solve on arrays with extra dimensions act on each square matrix separately, aligning the extra dimensions by name in whatever order they are stored (inv and det: matrix axes last); inv is a two-sided inverse, defined whenever all matrices are invertible, and multiplying with it gives the identity; solve(A,b) solves A x = b for matrices and for columns b.", "quantifier": "arrays of any extra dimensions and any matrix size", "why_tests_cant": "all sizes and all shapes", "anchors": ["hftools/math.py: matrix_multiply, inv, det, solve_Ab, broadcast_matrices"]}
{"id": "C35", "title": "Angles and phase unwrapping", "statement": "angle lies in the interval chosen by the branch and is an angle of the number; unwrapping changes every sample by an integral multiple of a full turn, and afterwards no two neighbouring samples differ by more than half a turn; the first sample of a sweep is kept (other columns are moved as a whole by a turn when that brings them near the first); a sequence already fulfilling this is recovered unchanged; the square of continous_phase_sqrt is the argument and its steps are at most a quarter turn; the group delay of a pure delay is that delay.", "quantifier": "all sequences of angles of any length", "why_tests_cant": "induction over sequence length; jumps accumulate", "anchors": ["hftools/math.py: _unwrap_phase, unwrap_phase, continous_phase_sqrt"]}
{"id": "C36", "title": "Smoothing windows stay inside the data", "statement": "smooth uses for each point a contiguous window around the point inside the data, of the requested size where it fits, symmetric for odd apertures; results stay in the range of the data and straight lines are reproduced for odd apertures. The assertion of poly_smooth never fails, its window lies inside the data, polynomials up to the fit degree are reproduced, and the last sample is used by no window unless the aperture is at least the number of samples.", "quantifier": "all lengths, all apertures and all positions", "why_tests_cant": "window clamping at both ends for all lengths/apertures", "anchors": ["hftools/math.py: smooth, poly_smooth"]}
{"id": "C37", "title": "SI prefix handling is consistent", "statement": "A prefix is understood exactly in front of a base unit, the multiplier is the one of the prefix, base units are kept unchanged and no unit can be read in two ways; a number without exponent followed by a unit reads as number times multiplier in the base unit; formatting gives a mantissa in [1,1000) times the prefix equal to the number for 1e-24 <= |x| < 1e24 and KeyError outside; formatting and reading gives the number back between atto and exa.", "quantifier": "all unit strings, all number texts and all numbers", "why_tests_cant": "all strings; ambiguous one-letter cases are not enumerable by hand", "anchors": ["hftools/constants/si_units.py: unit_to_multiplier, convert_with_unit, string_number_with_unit_to_value, format_number, siprefixes"]}
{"id": "C38", "title": "HDF5 name escaping is reversible and collision free", "statement": "Escaping never produces a path separator; unescape(escape(n)) = n exactly for the names without a backslash, and two different names without backslashes never share a stored name.", "quantifier": "all names (all strings)", "why_tests_cant": "injectivity over all strings; collisions only arise for names that contain the escape sequence", "anchors": ["hftools/file_formats/hdf5/v_02.py: escape, unescape, save_hdf5_handle, read_hdf5_handle"]}
{"id": "C39", "title": "Appending to an HDF5 file extends every variable by the new data and keeps the rest", "statement": "After any sequence of successful appends every variable of the file has one entry more per append along its unlimited axis, entry n+j being the data of append j (converted for storage) and all earlier entries unchanged; independent variables, names, limits and version are unchanged; the append dimension has one entry more per append, whose label is the fill value (the computed label is written to a copy: refuted that it is last+1). A file of another version, or without the dimension, or with an empty or limited one, is refused unchanged. Whatever the outcome, no dataset loses or changes an earlier entry or grows by more than one; but a refusal at a later dataset leaves the dimension one entry longer (so all-or-nothing is refuted).", "quantifier": "all files, all append histories including failing ones", "why_tests_cant": "histories and failure points", "anchors": ["hftools/file_formats/hdf5/v_02.py: append_hdf5, expand_dataset"]}
{"id": "C40", "title": "Hypercube detection when merging files", "statement": "merge_blocks_to_association_list gives for each variable one entry for every block that has it, in the order of the blocks, with the block's scalar sweep parameters sorted by name. association_list_in_hypercube_order succeeds exactly when the combinations of parameter values are the full product of the values seen, none twice; otherwise it raises HFToolsHyperCubeError when their number is not that of the product and ValueError when it is. On success the values of each parameter are in ascending order, every block is at the place of its values, in row-major order, and the result does not depend on the order of the blocks. merge_variable on arrays of one kind puts one axis for each parameter after the first axis and places every block's data at the coordinates of its parameters; a single block is handed on unchanged, and arrays of as many axes, none of length one, whose shapes are not all the same are refused with ValueError. Only the parameter names of the first block are used.", "quantifier": "all lists of blocks with scalar parameters of any names and values (with a strict total order on names and values), all data arrays", "why_tests_cant": "all orders and all combinations", "anchors": ["hftools/file_formats/merge.py: merge_blocks, merge_blocks_to_association_list, association_list_in_hypercube_order, merge_variable"]}
{"id": "C41", "title": "MDIF grouping of records", "statement": "Reading the lines of an MDIF file (tokens, grouping, and the blocks before columns are joined to matrices): every line that is not blank gives one token by its mark, in the order of the file. The tokens are taken apart in exactly one way into complete groups (comments, VAR lines, BEGIN, attributes, headers, data, END) and a rest that does not begin with a complete group; each complete group gives exactly one block, in file order, with the comments and VAR lines directly before BEGIN and the attributes after it; the rest is dropped without an error when it is the beginning of a group and is an error otherwise. When a group has headers with different names and each record has one line for each header line, every column has one value for each record at its place, the first column is the sweep (without the prefix sweep. in any case), and attributes name(real) = value are taken with their values. Data lines that do not fill the last record, or no data, are an IndexError; with data but no header the loop never ends.", "quantifier": "all files, token streams, headers, records and attributes", "why_tests_cant": "unbounded streams and nesting of optional parts", "anchors": ["hftools/file_formats/mdif.py: MDIFFormat.group_blocks, parse_blocks", "hftools/file_formats/readbase.py: Stream, ManyOptional, Optional, One"]}
{"id": "C42", "title": "Token stream combinators consume exactly what they report", "statement": "Each combinator (one, optional, many, one-of) consumes a prefix of the stream, returns exactly the consumed tokens, and leaves the rest, so what is left is always a suffix: many takes the longest run with its tag, optional takes one token or none, one-of takes one token or raises having consumed only the token it inspected, expect_end succeeds exactly at the end.", "quantifier": "all token streams and all token classes", "why_tests_cant": "unbounded streams", "anchors": ["hftools/file_formats/readbase.py: Stream, One, OneOf, Optional, ManyOptional"]}
{"id": "C43", "title": "SP-data grouping, columns and round trip", "statement": "Lines are grouped without error exactly if they are a sequence of groups (comments, one header, data lines) the last of which has data, and then into these groups; in any case the groups given are the beginning of the file, so no line is dropped or moved. Complete lines give the columns under their titles, columns of the same title gathered in order. Writing blocks (real and complex variables and matrices, with units) and reading them returns the same blocks in order with the same titles, units and values, and the comments. A sweep value printed as a word, a block without points and lines of differing length are not handled: witnesses are given.", "quantifier": "all token streams; all non-empty lists of blocks with at least one point, tidy names without tab, distinct titles, any number of columns and points, any printer that reads back", "why_tests_cant": "unbounded streams", "anchors": ["hftools/file_formats/spdata.py: group_blocks, parse_blocks, format_sp_block"]}
{"id": "C44", "title": "CITI files are read as what they say and written blocks are read back", "statement": "A CITI file with version, name, sweep and data definitions, sweep lists or segments and data lists, with comments anywhere between the sections and blank lines anywhere, gives exactly the block it describes when each data list has as many values as all sweeps together, and is rejected with a ValueError otherwise; whatever follows the last END is ignored. Comments are lines after an exclamation mark, a hash or the word COMMENT and constants; a constant time of six numbers is spelled out as a measurement time. A block all of whose numeric variables are over the same sweeps in the same order, with word names and numbers printed so that they can be read, is read back from what the writer writes for it: name, comments, sweeps, and every variable, matrices element by element row by row, with its dimensions and the value at each index, in order.", "quantifier": "all token streams, all blocks with any number of sweeps and variables, all line endings, all number printers and parsers that fit together", "why_tests_cant": "all names, sizes and orders", "anchors": ["hftools/file_formats/citi.py: format_citi_block, tokenize, parse_blocks, handle_data"]}
{"id": "C45", "title": "Joining real and imaginary parts to complex variables", "statement": "A name is read as function and argument exactly when it is written f(x), with spaces allowed before the parenthesis and a remark after it. make_cplx replaces every pair Re(x), Im(x), or else Mag(x), Arg(x), for which x is not yet in the block, by the variable x whose value at every coordinate is the combination of both parts, over the union of their dimensions and with the unit of the first part; both parts are removed; every other variable and all dimensions are unchanged.", "quantifier": "all blocks in which no part occurs twice and no joined name is a part of another pair or an element of a matrix; all data", "why_tests_cant": "all header sequences", "anchors": ["hftools/file_formats/readbase.py: make_cplx", "hftools/file_formats/common.py: format_complex_header"]}
{"id": "C46", "title": "Lexical scoping of configuration dictionaries", "statement": "Looking up a key in a nested configuration returns the value of the nearest enclosing dictionary that defines it, skipping lists in between, and raises KeyError exactly if none does; where all enclosing objects are non-empty dictionaries membership holds exactly if lookup succeeds, and a key the dictionary itself has not is no member if the parent is an empty dictionary, whatever is around it; assigning a key is seen from the dictionary and from everything inside it that does not shadow the key, changes no other key and no dictionary that does not look through it, in particular no outer one.", "quantifier": "all nestings of dictionaries and lists, all keys", "why_tests_cant": "arbitrary depth and mixed list/dict nesting", "anchors": ["hftools/file_formats/config.py: LexicalScopeDict, LexicalScopeList, find_next_dict"]}
{"id": "C47", "title": "Merged dictionaries act as one dictionary with priorities", "statement": "MergedDicts looks up a key in the last given dictionary that (with its scope) has it and only if none has it in its own parent, which counts only if it is not empty; its key set is the union of the own keys; membership, key set and lookup agree for dictionaries without parents.", "quantifier": "all heaps of dictionaries and all lists of them", "why_tests_cant": "all overlaps of keys", "anchors": ["hftools/file_formats/config.py: MergedDicts"]}
{"id": "C48", "title": "Stable unique and natural ordering", "statement": "stable_uniq returns each element once, in order of first appearance; lex_order returns a permutation sorted in natural order (digit runs by value, other runs as text), which is a strict total order on names that all begin with a digit or all do not, so the result does not depend on the order given; a name of each sort cannot be ordered (TypeError); flatten lists all leaves from left to right.", "quantifier": "all lists and strings", "why_tests_cant": "all inputs", "anchors": ["hftools/utils.py: stable_uniq, uniq, lex_order, split_num, flatten"]}
{"id": "C49", "title": "Matrix name recognition and element grouping", "statement": "A group of names read as elements of X is recognised as a matrix exactly if there are at least two and their indices are all pairs of an ascending list of rows and an ascending list of columns; the names are then listed row by row and a partial set is never turned into a matrix. The readers' pattern is letters followed by two digits, so different names are different elements. MDIF columns form an m by n matrix exactly if the indices, none given twice, are all pairs of 1..m and 1..n, and a vector exactly if they are 1..n in any order.", "quantifier": "all sets of names, all matchers that read different names as different elements", "why_tests_cant": "all name sets, duplicates and gaps", "anchors": ["hftools/file_formats/readbase.py: match_matrix_elements, _matrix_elements", "hftools/file_formats/mdif.py: match_matrix_names, is_matrix_name"]}
{"id": "C50", "title": "Relative paths lead back", "statement": "p.relpathto(q) joined to p made absolute and normalised is q made absolute, for all paths p and q, absolute or not; it is '.' if they are the same and is relative unless the roots differ; splitall of an absolute normalised path gives its root and components, which joined give it back.", "quantifier": "all pairs of paths of any depth", "why_tests_cant": "all prefix relations", "anchors": ["hftools/_external/path.py: path.relpathto, splitall"]}
{"id": "C51", "title": "Negative axis numbers in reductions are always rejected", "statement": "A reduction (sum, mean, min, max, ...) over one negative axis number within the range of the array raises ShapeDimsError instead of reducing the axis counted from the end.", "quantifier": "every array of any rank, every reduction, every negative axis number in range", "why_tests_cant": "tests with one rank do not show that it never works", "anchors": ["hftools/dataset/arrayobj.py: _hfarray.sum, mean, min, max, axis_handler, multiple_axis_handler"]}
{"id": "C52", "title": "Arithmetic takes the labels of the left operand and never compares them", "statement": "Every dimension of a op b that a has is a's own dimension with a's labels, whatever the labels of the dimension of b of that name are; values are paired by position even if the labels differ.", "quantifier": "every pair of well-formed arrays with equal lengths of shared dimensions and arbitrary labels", "why_tests_cant": "an absence of a check is a statement about all label lists", "anchors": ["hftools/dataset/arrayobj.py: dims_union, make_same_dims, check_instance"]}
{"id": "C53", "title": "Cumulative sums and products run along the named dimension", "statement": "cumsum/cumprod over a dimension gives an array with the same dimensions whose value at a position is the combination of the values at all positions up to it along that dimension only, first to last; the unit is dropped.", "quantifier": "every well-formed array of any rank, every way of naming one dimension, every operation", "why_tests_cant": "all ranks, axis positions and lengths", "anchors": ["hftools/dataset/arrayobj.py: _hfarray.cumsum, cumprod, axis_handler"]}
{"id": "C54", "title": "The name of the x variable alternates", "statement": "Every assignment of an array to a block whose xname is set clears it, so that after n successful assignments of arrays with dimensions to a new block xname is set exactly if n is odd.", "quantifier": "every sequence of assignments of any length", "why_tests_cant": "depends on the parity of the length of the history", "anchors": ["hftools/dataset/dataset.py: DataBlock.__setitem__"]}
{"id": "C55", "title": "Thermal noise of a passive network does not depend on the representation", "statement": "For Y, Z and S matrices passive_noise commutes with conversion: converting the noisy network built from one matrix gives exactly the noisy network built from the converted matrix; every other kind is refused.", "quantifier": "all networks, all pairs of Y, Z and S, every field with an involution, real reference impedance", "why_tests_cant": "matrix identities over all complex values", "anchors": ["hftools/networks/noise.py: passive_noise, NoisyTwoport.convert, Hconj"]}
{"id": "C56", "title": "Writing a block distributes every number over the tables exactly once", "statement": "For every block whose arrays are sound, whose variables are not named like a dimension or like an element of another variable and whose dimensions of the same name have the same labels, the tables produced for the text writers are rectangular and contain every number of every variable that has a dimension besides its matrix dimensions exactly once, under its name, its position in the matrix and the labels of all its coordinates, and nothing else; scalars are passed on as properties and dimensions used by no variable get a table of their own, whatever the order of the dictionary of groups. A matrix without other dimensions is lost, and labels of dimensions of the same name are not compared.", "quantifier": "every block reachable by any history of assignments, deletions and renamings, any number and rank of variables, every order of the dictionary of groups", "why_tests_cant": "all combinations of shared and private dimensions and all dictionary orders", "anchors": ["hftools/file_formats/common.py: make_block_iterator, db_iterator, get_dims_names"]}
{"id": "C57", "title": "Normalizing names renames without touching data", "statement": "For every block reachable by the block operations whose dimensions are stored under their own names and agree with those of the variables, and in which no two names have the same standard name: normalize_names gives every variable and dimension that has a standard name (b1/a1 raw is b11, Freq[Hz] is freq, ...) that name unless the block already has something called so, then replaces Mean(x) by x and Std(x) by s_x, in this order, keeps the order of the variables, the elements, units, formats and labels of everything, and does not depend on the order of the table's dict; a variable Mean(x) beside a variable x that stays is reported as ValueError. Two names with one standard name lose one of them depending on dict order, and Mean(freq) gets the name of the dimension freq: shown by witnesses.", "quantifier": "all reachable blocks, all orders of the table, all names (any string)", "why_tests_cant": "Tests use one block and the dict order of one interpreter; the claim is about all blocks, all strings the regular expression can meet and all orders.", "anchors": ["hftools/file_formats/common.py:230-309", "hftools/dataset/dataset.py:140-145", "hftools/dataset/dataset.py:232-250"]}
{"id": "C58", "title": "Corrections of measured S-parameters: passivity, reciprocity, switch terms", "statement": "For arrays of n by n complex matrices of any size: make_passive_eig leaves a matrix whose eigenvalues are all inside the unit circle as it is and scales any other so that its largest eigenvalue has magnitude 1 - delta; check_passive gives the largest magnitude of the eigenvalues and never exceeds 1 for a passive matrix; the singular value method, given a matrix product and a correct singular value decomposition, makes every matrix passive (no more power out than in, for all waves) and leaves passive ones alone; make_reciprocal gives equal transmissions whose product is unchanged and keeps everything else and all reciprocal matrices; switch_correct recovers S from the waves of n independent excitations. As written make_passive_svd always raises AttributeError, the eigenvalue check and correction let an amplifier pass, and make_reciprocal can pick the wrong sign: shown separately.", "quantifier": "all sizes n, all lists of matrices, all delta < 1, every correct routine for eigenvalues, singular values and inverses", "why_tests_cant": "Properties over all incident waves and all matrices; tests check a few matrices.", "anchors": ["hftools/networks/spar_functions.py:104-166"]}
{"id": "C59", "title": "Comments and the properties read from them", "statement": "The regular expression of comments takes a comment name: value or name = value apart into the name and the value, and a comment name [unit]: value into name, unit and value, for every name without separators and opening brackets, every unit of the allowed characters and every value, whatever white space is between them; whatever is taken apart has one of these forms with a trimmed name which ends at the first separator, and a line gives a value exactly if something follows a separator. Reading a list of comment lines into a Comments object sets each name to the value of the last line which gives it (the first converter which accepts the text, else the text itself), leaves other names alone and never fails if the converters refuse only by ValueError. The full comments of a dataset are the nonempty lines without leading exclamation marks and surrounding white space, and reading them again after writing each with an exclamation mark gives the same comments and properties, unless one begins with an exclamation mark of its own. Extending comments by others keeps all full comments in order and the properties of the other win. The class of datasets raises where the class of the file formats keeps a text value with unit.", "quantifier": "every line of text, every list of lines, all converters, all previous properties", "why_tests_cant": "Tests read a handful of comment lines of one instrument; the expression has three adjacent unbounded white space matches, a lazy and an optional part which backtrack into each other, so what it does for other lines cannot be seen from examples.", "anchors": ["hftools/file_formats/common.py:104-200", "hftools/dataset/comments.py:100-176"]}
{"id": "C60", "title": "What is written to an MDIF file is read from it", "statement": "Every block over a sweep and any number of outer dimensions that has at least one column and at least one real variable over the outer dimensions alone is written by save_mdif as one group for each position of the outer dimensions, and the MDIF reader gives for each position, in order, the sweep, every real or complex column, the values of the outer dimensions and every such variable, provided that the values of the outer dimensions are their own indices, that the formats print the numbers and that there are no fewer columns than outer dimensions. In general the numbers given for a position are those at the position which the values mean as indices. Several blocks in one file are read one after the other, with the time of writing as a comment of the first. A block without a variable over exactly the outer dimensions raises ValueError, and a complex one raises. (The code uses the values of the outer dimensions as indices, so that other values give the numbers of another position or IndexError, and after the first position it prints them with the formats of the columns, so that with fewer columns than outer dimensions some are lost.)", "quantifier": "for all blocks, numbers of outer dimensions and positions, names without white space, parentheses and equal signs, and all number types with any printer and parser that agree on the numbers in the block", "why_tests_cant": "There is one test, which writes one file and checks nothing about it. Whether every position, column and attribute comes back for any number of dimensions and any format is a statement about infinitely many blocks.", "anchors": ["hftools/file_formats/mdif.py:463-521", "hftools/file_formats/common.py:335-374"]}
{"id": "C61", "title": "HDF5 files give back the block", "statement": "Writing a block to an HDF5 file of layout 0.2 and reading it, in whatever order the file lists its datasets, gives the same variables: each with its data, data type, non-empty unit and non-empty output format, under its name with slashes for backslashes, over the dimensions (class, labels, non-empty unit) that the block has under the names of its axes, in the order of its axes; the independent variables of the result are those that some variable uses. In an expandable file each variable has the append dimension as its second axis (only axis of a number) and the same values. Conditions: names that are different and names of datasets on the disk, dimensions of the five classes of dimrep, no variable named like an element of another. Otherwise: equal names on the disk or a slash inside the name of a used dimension make writing fail, another class of a used dimension makes reading fail; a variable named like a matrix element ends up in the matrix, and unused dimensions, formats of dimensions and axes differing from the block's dimension are not kept.", "quantifier": "all blocks, all append dimensions, all encodings of elements that can be decoded, all orders of datasets in the file", "why_tests_cant": "Tests write a few fixed blocks to real files; they cannot cover all names, axes and listing orders, and they need the HDF5 library.", "anchors": ["hftools/file_formats/hdf5/v_02.py:24-97", "hftools/file_formats/hdf5/v_02.py:100-167"]}
{"id": "C62", "title": "The blocks of an MDIF file are stacked by name", "statement": "With merging, an MDIF file gives one block for each block name, made of the blocks of this name in the order of the file. A single block is taken as it is; several blocks that all have the variables of the first one, with equal shapes, and its partial dimensions give a block in which each variable has the first block's dimensions with a dimension INDEX of the block numbers after the first of them, its value at number i being the value of block i at the same position, in which each partial dimension has become the list of its first labels in the blocks, and which has no other variables and no dimensions but those of its variables. If a block lacks a variable of the first one or has it with another shape, merging fails. (Variables that only later blocks have are lost, the labels of the dimensions of later blocks are not compared, units are lost.)", "quantifier": "all numbers of blocks, all variables, shapes and positions, all element types and conversions between them, all sequences of block names", "why_tests_cant": "The tests merge two sample files. That every number of every block ends up at its place for any number of blocks and dimensions, and when merging fails, cannot be tested.", "anchors": ["hftools/file_formats/mdif.py:311-349"]}
{"id": "C63", "title": "The columns of an MDIF table are gathered to matrices and vectors", "statement": "In the header of an MDIF block a column written name[i,j](type), name[i](type) or name(type) is recognized as the element i,j of a matrix, element i of a vector or a plain variable of this name, and nothing else is taken as one. If the columns of a name are exactly those of an m by n matrix or of a vector of length n, in any order and mixed with other columns, they are replaced by one variable of this name over the sweep dimension and the matrix dimensions i and j (or j), whose element at frequency k and place i,j is the value of the column [i,j] at k; it stands where the first of its columns stood. All other variables, also the columns of an incomplete matrix, stay as they are and in order. This does not depend on the order in which the groups are gone through. (Witnesses: a plain variable with the name of the matrix is lost, of a matrix and a vector of the same name only the vector is left, and an index with a leading zero makes reading fail.)", "quantifier": "all headers with distinct column names, all sizes and orders of the columns, all values, element types and conversions, all orders of the dictionaries", "why_tests_cant": "The tests read sample files with 2 by 2 matrices in one column order. The claim is about every size, order and mixture of columns and every dictionary order.", "anchors": ["hftools/file_formats/mdif.py:274-309", "hftools/file_formats/mdif.py:376-436", "hftools/dataset/arrayobj.py:1014-1022"]}
{"id": "C64", "title": "Kinds of dimensions and their halves", "statement": "isinstance tests between the classes of dimensions follow the class statements of dim.py. After these statements and the metaclass have run, every diagonal dimension (ordinary, complex, matrix row or column) gives an independent and a derivative dimension of its kind with the same name, labels and unit, each half gives the other, and ordinary and complex halves give a diagonal dimension back; the classes without independent half are exactly the abstract ones and the independent ones. When dimensions are sorted, ordinary ones come before repetitions, these before matrix rows, then columns, complex ones last. (Witnesses: the way to a half and back turns a sweep into a plain diagonal dimension; the halves of matrix dimensions cannot be asked for their diagonal dimension.)", "quantifier": "all classes and pairs of classes, all names, labels, units and formats of dimensions", "why_tests_cant": "The tests look at a few classes. The attributes come about by side effects of a metaclass on other classes, in the order of the statements; that all of them come out right and pairs of halves agree is a claim about all classes.", "anchors": ["hftools/dataset/dim.py:47-48", "hftools/dataset/dim.py:169-289"]}
{"id": "C65", "title": "Selecting, squeezing and collapsing repetitions of whole blocks", "statement": "keep_variables with distinct names none of which is a dimension gives a block with exactly the variables of those names that exist, in the order of the names and with their values, and exactly the dimensions of these variables, of each name the first that occurs. squeeze of a block gives every variable without its dimensions of length one and with the same values, and keeps every dimension of the block unchanged (also those of length one), those that still occur in variables first. remove_rep of a block whose variables have either all repetition dimensions beside each other in the order of the block or none collapses them in every variable to one dimension with the new name, whose length is the product of the lengths, so that every value is at the mixed-radix position of its coordinates, leaves the other variables alone, and adds for every repetition dimension a variable that tells its label for every position. A dimension among the names of keep_variables becomes a variable and stays a dimension, and a variable with only some of the repetitions gets a collapsed dimension of the same name and another length than the block has.", "quantifier": "for all blocks, values, dimensions and names", "why_tests_cant": "Tests use one block with one repetition or two; that the label variables fit the collapsed positions for any number and lengths of repetitions, and that nothing else is lost, is a statement about all blocks.", "anchors": ["hftools/dataset/dataset.py:215", "hftools/dataset/dataset.py:645", "hftools/dataset/dataset.py:712"]}
{"id": "C66", "title": "Values at new labels without interpolation", "statement": "interpolate in the mode none: an array that does not have the dimension is returned unchanged; if the dimension is the first one of the array and the new labels are labels of it in its order, the result has the new dimension in its place, the same unit and format and, for every new label, the values that the array has at that label; a new label that the dimension does not have gives ValueError whichever dimension it is; a dimension that is not the first and not as long as the first gives IndexError. An array in place of the dimension counts as its only dimension. For a block this holds for every variable at once. New labels in another order get the values of the old order, and a dimension that is not the first but as long as the first gives a result whose labels do not fit its shape.", "quantifier": "for all arrays, blocks, dimensions and labels", "why_tests_cant": "The tests interpolate arrays with one dimension or with the dimension first and ascending labels; only a statement about all arrays separates where the boolean index is right from where it is not.", "anchors": ["hftools/dataset/dataset.py:722", "hftools/dataset/dataset.py:729"]}
{"id": "C67", "title": "Misuse is reported by the exception of its kind", "statement": "An array with another number of dimensions than axes is refused with ShapeDimsError; expanding a dimension that is not diagonal or not there raises Exception; reading a dimension without labels and format raises IndexError; a name that a block has not, or that would be an element of something that is not a matrix, raises KeyError; det and inv of matrices that are not square and inv of singular matrices raise LinAlgError and inv raises nothing else; unwrapping no sweep or an empty one raises IndexError; int() of a text raises nothing but ValueError; a text without number at its beginning raises ValueError when read as number with unit, and nothing else is raised there; a complex number in a CITI file that is not two numbers raises ValueError and a line of unknown type raises HFError as soon as it is looked at; an MDIF header without type raises Exception, a line with too few words IndexError, writing a complex attribute TypeError; a first header line without names raises IndexError if the data can be read, as does writing at outer values that are no indices within their dimensions; stacking no blocks raises IndexError, arrays of different shapes ValueError; of SP-data blocks those before the first bad one are given and then its exception is raised; only dictionaries of a configuration take items, everything else raises TypeError.", "quantifier": "for all arrays, blocks, texts, tokens and heaps", "why_tests_cant": "The tests provoke single errors with assertRaises; that every misuse of a kind is reported, and reported so, needs all inputs.", "anchors": ["hftools/dataset/arrayobj.py:461", "hftools/dataset/dataset.py:198", "hftools/math.py:411", "hftools/constants/si_units.py:71", "hftools/file_formats/citi.py:85", "hftools/file_formats/mdif.py:234", "hftools/file_formats/spdata.py:114", "hftools/file_formats/config.py:63"]}
{"id": "C68", "title": "Circles of the Smith chart", "statement": "RCircle and XCircle without limits give the circle through 1 whose other points are exactly the reflection coefficients of the impedances with this resistance (other than -1) or this reactance (other than 0); GCircle and BCircle the same for admittances with the point -1. With finite limits, for resistances and conductances above -1, the angles of the arc are in order, span less than a turn, and the points passed from the first angle to the second are exactly the reflection coefficients with the other part between the limits; limits of RCircle and XCircle may be in any order, those of GCircle and BCircle must ascend (descending limits of GCircle give angles in descending order). For zero reactance the line ends at the coefficients of the two resistances. With infinite reactances the circle of resistance goes from 0 to less than 360 degrees, short of it by the angle with tangent (r+1)/10^15; up to infinite resistance the arc of a reactance ends at 1. A point is inside the unit circle exactly if the resistance is not negative. The point of an infinite part lies within 1e-15 of 1 for impedances and of -1 for admittances, for these on the side of the real axis where the finite conductances with this susceptance are; infinite and finite parts are ordered as usual. The line of zero susceptance does not end at the coefficients of the conductances.", "quantifier": "for all resistances, reactances, conductances, susceptances and limits", "why_tests_cant": "The tests draw nothing of this; a continuum of circles and points is only covered by a proof over the reals.", "anchors": ["hftools/plotting/smith.py:131", "hftools/plotting/smith.py:151", "hftools/plotting/smith.py:169", "hftools/plotting/smith.py:195", "hftools/plotting/smith.py:212"]}
{"id": "C69", "title": "Numbers, times and intervals in configuration files", "statement": "An interval is read from exactly the texts made of days, hours, minutes and seconds in this order, each a plain decimal number and a word, each possibly missing, and has the value written; no other text is accepted, in particular none with a minus. A non-negative interval is written with whole days, less than 24 hours, less than 60 minutes and less than 60 seconds, leaving out zeros, and is read back, provided numbers are written plainly; a negative one and one below a minute written with a negative exponent are not readable. Percentages are hundredths, ppm millionths and ppb billionths of the number. A number with an SI prefix and unit has the value of the number times the power of ten and keeps its unit, and is read back when written; but an m alone is the prefix milli, so metres are lost. A time of the day gives the one moment within the next 24 hours at which the clock shows it; hours from 24, minutes or seconds from 60 are refused with ValueError. An integer that begins like a time of the day is one.", "quantifier": "for all texts, intervals, numbers and moments, whatever the routines that read and print numbers", "why_tests_cant": "The texts accepted by a backtracking regular expression and the intervals are infinitely many; the tests try a handful.", "anchors": ["hftools/file_formats/config.py:23", "hftools/file_formats/config.py:220", "hftools/file_formats/config.py:228", "hftools/file_formats/config.py:255", "hftools/file_formats/config.py:280", "hftools/file_formats/config.py:294", "hftools/file_formats/config.py:314", "hftools/file_formats/config.py:328"]}
{"id": "C70", "title": "Merging the blocks of one or several files", "statement": "Blocks that have the same partial dimensions (at least one), the same variables and the same shapes are merged into one block: every variable holds the values of all blocks along a new dimension INDEX1, placed first or, if the first dimension is swept over, second, with the unit of the first block; every partial dimension becomes the list of its labels in the blocks, with its unit; the other independent variables are those of the first block that has them, and there are no others; dimensions of length one are then left out of the arrays. The order in which dicts and sets give their keys does not matter to this. Blocks without partial dimensions and blocks in which a variable has different shapes cannot be merged. It is not true that every array of the merged block fits its dimensions: a variable that only some of the blocks have is stacked without its place among the blocks, and when some blocks have the partial dimension P and others P and Q the labels of the former are lost and their variables get the dimension of the latter.", "quantifier": "for all numbers of blocks, sets of variables, dimensions, shapes and values, and all orders of the keys of dicts and sets", "why_tests_cant": "The number of blocks, variables and dimensions is unbounded and the key order depends on hashing; the tests merge a few fixed blocks.", "anchors": ["hftools/file_formats/merge.py:150", "hftools/file_formats/merge.py:158", "hftools/file_formats/merge.py:168", "hftools/file_formats/merge.py:175", "hftools/file_formats/merge.py:182", "hftools/file_formats/merge.py:216", "hftools/file_formats/readbase.py:394"]}
{"id": "C71", "title": "Which reader read_data chooses", "statement": "read_data looks at the first match of the first name that matches any file (IOError if none does) and hands all names on to the reader of its format. The first line that bears a mark decides: VAR name(type) means MDIF, CITIFILE at the beginning CITI, an option line such as # GHz S RI (the case of letters and the amount of white space do not matter) Touchstone, MATLAB 5.0 MAT-file MuWave; a HDF5 file is taken for one unless its first line bears the mark of MDIF; without marks SP-data is assumed. No line bears two marks, so the order of the tests matters for HDF5 only. Files written by save_citi are always recognised, those of save_touchstone if no comment contains a newline (with one they may not be), those of save_spdata if the name of the sweep does not begin with a mark, those of save_mdif if a second dimension with a plain name is swept; MDIF files with a single dimension are taken for SP-data.", "quantifier": "for all files, lists of names, results of glob, and blocks to be written", "why_tests_cant": "The texts of files and lines are unbounded; the tests read a few files of each format.", "anchors": ["hftools/file_formats/__init__.py:44", "hftools/file_formats/__init__.py:55", "hftools/file_formats/mdif.py:39", "hftools/file_formats/touchstone.py:137", "hftools/file_formats/citi.py:242", "hftools/file_formats/muwave_mat.py:41", "hftools/file_formats/mdif.py:514", "hftools/file_formats/touchstone.py:227", "hftools/file_formats/spdata.py:179"]}
{"id": "C72", "title": "Walking directory trees", "statement": "walk, walkdirs and walkfiles of a path yield the items, the directories and the files below a directory whose names fit the pattern (all, without one), each exactly once, depth first with a directory before its contents and in the order of the listings; the pattern does not restrict which directories are entered, and the paths yielded are distinct when no directory has two entries of the same name. A directory that cannot be listed is yielded like others and then ignored, warned about (directly after it) or, with strict, ends the walk with the error after exactly what precedes it; any other value of errors is refused with ValueError before anything is yielded. listdir, dirs and files give the entries, directories and files in a directory whose names fit.", "quantifier": "for all trees, patterns, functions fnmatch, roots and values of errors", "why_tests_cant": "Trees are of unbounded depth and width; failures of listings cannot be provoked portably.", "anchors": ["hftools/_external/path.py:301", "hftools/_external/path.py:317", "hftools/_external/path.py:330", "hftools/_external/path.py:343", "hftools/_external/path.py:396", "hftools/_external/path.py:432", "hftools/_external/path.py:480"]}
{"id": "C73", "title": "The cache of files read", "statement": "read_to_cache keeps what has been read under the name of the file without directory and extension (or under the name given) in the cache directory. A use whose name is not in the cache, or that asks for reading again, reads the file, gives the data with True and afterwards stores the data as the body of the with statement has left them; if reading or the body raises, the cache stays as it is. Any other use gives what is stored with False, whatever the file contains by then, and changes nothing. Over any sequence of uses: something is stored under a name exactly if it was before or a use of that name has read the file and completed its body, everything stored comes from such a use, it stays until a use asks for reading again, and all uses in between are given it; for HDF5 files this is the block left by the first use in the sense of C61. read_from_cache gives the same. Names without directory and extension are those of os.path.splitext: the extension is the last dot of the last segment with what follows it, unless only dots precede it. Files that differ only in directory and extension share their place, so the second of them is given the data of the first.", "quantifier": "for all names, cache directories and contents, data, bodies, and sequences of uses", "why_tests_cant": "Sequences of uses with failures and changing files are unbounded; no test uses the cache.", "anchors": ["hftools/file_formats/__init__.py:86", "hftools/file_formats/__init__.py:95", "hftools/file_formats/__init__.py:98", "hftools/file_formats/__init__.py:99", "hftools/file_formats/__init__.py:108", "hftools/_external/path.py:131", "hftools/_external/path.py:135", "hftools/_external/path.py:190", "hftools/file_formats/hdf5/hdf5.py:51"]}
{"id": "C74", "title": "Reading one or several files", "statement": "Reading a file sends every block found in it through the stages complex numbers, properties, units, names and matrices, in this order, each only if its option is set and independently of the other blocks, merges the blocks if there are several, and adds the number of the file as FILEINDEX unless there is one. Reading patterns reads the matching files, sorted for each pattern, in the order of the patterns; the i-th file gets number i and its name as FILENAME, unless there is one, everything else is as in the file, and the results are merged if there are several. No match and a file without blocks are errors. With merge=False no file can be read: every attempt ends with an exception, AttributeError if nothing else fails first. For MDIF the blocks of all files are collected by name, in order, with number and name of their file, and merged for each name; the option merge does not matter, a name that does not occur gives None and patterns without matches give an empty dict, both without exception.", "quantifier": "for all formats (parsers and stages), options, patterns, results of glob, contents of files and blocks", "why_tests_cant": "Numbers of files and blocks and combinations of options are unbounded; the tests read few files with default options.", "anchors": ["hftools/file_formats/readbase.py:246", "hftools/file_formats/readbase.py:266", "hftools/file_formats/readbase.py:307", "hftools/file_formats/readbase.py:327", "hftools/file_formats/readbase.py:342", "hftools/file_formats/readbase.py:394", "hftools/file_formats/mdif.py:116", "hftools/file_formats/mdif.py:155", "hftools/file_formats/mdif.py:311"]}
{"id": "C75", "title": "Older HDF5 format and choice of the format", "statement": "A block saved in format 0.1 and read back, in whatever order the file lists its datasets, has all its dimensions and variables under their names; variables keep data, type and unit, and their axes are the dimensions of the block of these names. Dimensions keep labels, unit and class, but for the classes not exported by hftools.dataset, which become DimRep. The name of the block is kept and the comments are kept without surrounding white space; a name or unit spelling none in any case becomes None, and output formats are lost. A variable or dimension with a slash inside its name can be saved but the file cannot be read. A file saved for a version other than 0.2 is read in the older format, under the group name it was saved with only; one saved for 0.2 is read in the newer format whatever name is asked for, without name of the block and comments.", "quantifier": "for all blocks, names, comments, versions, element encodings that decode, and orders of the datasets in the file", "why_tests_cant": "The tests round-trip a handful of blocks; numbers of variables, classes of dimensions, names and orders are unbounded.", "anchors": ["hftools/file_formats/hdf5/v_01.py:25", "hftools/file_formats/hdf5/v_01.py:28", "hftools/file_formats/hdf5/v_01.py:81", "hftools/file_formats/hdf5/v_01.py:84", "hftools/file_formats/hdf5/hdf5.py:41", "hftools/file_formats/hdf5/hdf5.py:50"]}
{"id": "C76", "title": "Units in names and guessed units", "statement": "A name is taken to carry a unit exactly when it is a name without line break, not ending in a space or tab, followed by spaces or tabs, an opening bracket, letters, any number of closing brackets and possibly a line break at the end; the name and the unit are then determined. For a block whose dimensions are stored under their names with an output format and whose names without unit are different from each other and from all names, and do not name an element of a matrix of the block, the step over all names succeeds: every dimension and every variable stays in its place, the ones with a unit in the name are under the name without it, with the elements (of a dimension: the labels) multiplied by the power of ten of the prefix and the base unit as unit, and everything else is as before; an axis of a variable is what the dimension of its name has become. Guessing a unit changes only what has no unit: variables get the unit of the table for their name; dimensions without unit get it too (with their output format made explicit) but are moved behind the others. The stage of a reader does the second and then the first. The table holds exactly the spellings of transistor voltages, currents and frequencies listed in the specification, and an added entry changes the guess of its name only. The name of the x variable is not updated, and a variable already having the name without unit is lost.", "quantifier": "For all names, all blocks satisfying the invariant of reachable blocks and the stated conditions on names, all tables, all element types and all multiplications.", "why_tests_cant": "The tests read a few files with one or two units; they never look at the order of dimensions after guessing, at the remembered x variable, or at names that meet after the unit is cut off.", "anchors": ["hftools/file_formats/readbase.py:160", "hftools/file_formats/readbase.py:163", "hftools/file_formats/readbase.py:354", "hftools/dataset/dataset.py:619", "hftools/dataset/helper.py:10", "hftools/dataset/helper.py:33", "hftools/dataset/helper.py:38"]}
{"id": "C77", "title": "Element attributes of multiports", "statement": "For a multiport whose class has a letter and whose array has at least two axes, an attribute made of the letter (as it is, in small or in large letters) and the decimal numbers of a row and a column, both counted from one and not above the number of columns, gives this element at every point of the leading axes, provided the digits can not be read as a later element; with up to ten columns they never can. Assigning to such an attribute replaces this element at every point of the leading axes by the broadcast value and changes no other, so that the value is read back and the other attributes are as before; a value whose shape does not fit is refused. Assigning to a name the object has as an attribute of its own leaves all elements as they are. All other names are refused as attributes for reading and writing, as are all names without letter or with fewer than two axes. From eleven columns on the attribute ending in 111 is the element 11, 1, so that the element 1, 11 has no attribute. With fewer rows than columns the elements beyond the rows are refused with an index error.", "quantifier": "For all arrays of any element type and any number of axes, all letters, names, values and elements.", "why_tests_cant": "The tests read single elements of two-ports; they never use more than nine ports, assign values of other shapes or look at elements not assigned to.", "anchors": ["hftools/networks/multiports.py:47", "hftools/networks/multiports.py:88", "hftools/networks/multiports.py:195", "hftools/networks/multiports.py:201"]}
{"id": "C78", "title": "Reading a configuration keeps its places and its scoping", "statement": "The loader makes of a document, for every place in it given by keys and positions, the scalar, dictionary or list that is there, and nothing at other places; of a key given several times in a mapping the last value counts, and a dictionary has the keys in the order of the document if none is repeated. The parent of a dictionary or list is the one it is in; the outermost has none. Looking up a key in the dictionary at a place gives the value from the innermost mapping around the place that defines the key, lists being passed over, and KeyError if there is none. A configuration can be read exactly if the document is a mapping; it has the same places and the same rule for keys. An assignment to the configuration is seen in the configuration, but from no dictionary inside it, whatever key is looked up there. What is written is a document with the same scalars, keys and positions at the same places.", "quantifier": "For all documents (trees of mappings with string keys, sequences and scalars of any type), all places and keys.", "why_tests_cant": "The tests load one small document and look at two or three keys; none assigns to a configuration after loading and looks from inside.", "anchors": ["hftools/file_formats/config.py:167", "hftools/file_formats/config.py:173", "hftools/file_formats/config.py:348", "hftools/file_formats/config.py:371", "hftools/file_formats/config.py:42", "hftools/file_formats/config.py:96"]}
{"id": "C79", "title": "Shortened names keep every variable and are as short as possible", "statement": "Shortening the dotted name of a variable gives it the shortest name, among its own and what follows one of its dots, that no other variable has; the variable keeps its place and value, and all others are unchanged. For all variables of a block, in order: those with names ending in .s are dropped; a name ending in .m stands for the name without it; every variable kept stays in order with its value, under the shortest free tail of the name it stands for at that moment, and the names are distinct. This holds if the name without .m is not also the name of another variable, nor a tail of the name another kept variable stands for.", "quantifier": "For all blocks with distinct variable names and all names (any number of dots, empty parts included).", "why_tests_cant": "The tests read files with one or two dotted names and no clashes between shortened names.", "anchors": ["hftools/file_formats/mdif.py:439", "hftools/file_formats/mdif.py:451"]}
{"id": "C80", "title": "Arranged figures are all placed, on the screen, and mostly without overlap", "statement": "Arranging figures moves every figure once, in order, if it ends. A window is never put outside the screen unless it is larger than the screen, and goes exactly where asked if there it is on the screen. It ends if every figure fits in the width at the left edge with the offset ten, or in the height one gap below the offset ten; if the first figure of a call with this offset does neither, it calls itself without end. In one pass over the screen, with non-negative sizes and gaps (the vertical one positive), each next window stands next to the one before it if it fits there in the width, and otherwise begins a row at the left that is lower by the gap at least; a window that stands next to the one before it lies left of or above all windows asked for later in the pass, with the gap between; so does the first window if it fits in the width. Over all passes, each next window stands next to the one before it or at the left edge with the given offset or the offset ten.", "quantifier": "For all screen sizes, gaps, offsets and lists of figures of any sizes.", "why_tests_cant": "There are no tests of it: it needs windows on a screen.", "anchors": ["hftools/plotting/helper.py:765", "hftools/plotting/helper.py:775", "hftools/plotting/helper.py:787", "hftools/plotting/helper.py:862"]}
