{"id": "C01", "title": "Matrix cells are independent and column-major", "statement": "For every M x N matrix and every in-range (row,col), m.at(row,col), m(row,col) and m[row][col] denote the same cell, that cell is the (col*M+row)-th element of the raw array, writing it makes a later read of it return the written value and changes no other cell; an out-of-range row or column makes at()/operator() throw (nothing read or written) when safe accessors are on.", "quantifier": "all shapes M,N, all element types, all cell contents, all row/column pairs, both accessor build modes", "why_tests_cant": "The number of shapes and index pairs is unbounded; a test sees only the shapes it instantiates.", "anchors": ["vmmlib/matrix.hpp:Matrix::at", "vmmlib/matrix.hpp:Matrix::operator()", "vmmlib/matrix.hpp:Matrix::row_accessor", "vmmlib/matrix.hpp:Matrix::operator[]"]}
{"id": "C02", "title": "Any history of element writes behaves like a map from (row,col) to value", "statement": "After any sequence of in-range element writes, reading any cell returns the value of the last write to that cell, or its initial value when it was never written.", "quantifier": "all shapes, all initial contents, all finite write sequences", "why_tests_cant": "Histories are unbounded in length and order.", "anchors": ["vmmlib/matrix.hpp:Matrix::at", "vmmlib/matrix.hpp:Matrix::operator()"]}
{"id": "C03", "title": "The default, identity, zero, fill and diag constructors fill exactly the documented pattern", "statement": "A default-constructed matrix is the identity when square and zero otherwise; identity(), IDENTITY, ZERO, zero(), fill(v), operator=(v) and diag(d) leave every cell of the matrix holding exactly the value the name promises, whatever it held before.", "quantifier": "all shapes and sizes, all previous contents", "why_tests_cant": "All sizes; tests instantiate two or three.", "anchors": ["vmmlib/matrix.hpp:Matrix::Matrix", "vmmlib/matrix.hpp:identity", "vmmlib/matrix.hpp:Matrix::fill", "vmmlib/matrix.hpp:Matrix::zero", "vmmlib/matrix.hpp:Matrix::diag", "vmmlib/matrix_functors.hpp:set_to_identity_functor"]}
{"id": "C04", "title": "Assigning a matrix of another shape keeps the overlap and zeroes the rest", "statement": "Constructing or assigning an M x N matrix from any P x Q matrix copies every cell with row < min(M,P) and col < min(N,Q) and sets every other cell to zero; previous contents never leak through.", "quantifier": "all four dimensions, all contents of source and target", "why_tests_cant": "Four independent unbounded dimensions.", "anchors": ["vmmlib/matrix.hpp:Matrix::operator=(Matrix<P,Q,U>)", "vmmlib/matrix.hpp:Matrix::Matrix(Matrix<P,Q,U>)"]}
{"id": "C05", "title": "Loading from an element range fills row by row and stops at the end of the range", "statement": "set(begin,end,true) stores the k-th element of the range in cell (k/N, k mod N) until either the range or the matrix is exhausted and leaves the remaining cells unchanged; operator=(std::vector) throws when fewer than M*N elements are supplied; set(begin,end,false) copies M*N elements in storage order, and reads past the end of a shorter range.", "quantifier": "all shapes, all range lengths, all contents", "why_tests_cant": "All lengths relative to all shapes.", "anchors": ["vmmlib/matrix.hpp:Matrix::set", "vmmlib/matrix.hpp:Matrix::operator=(std::vector)", "vmmlib/matrix.hpp:Matrix::operator=(T*)"]}
{"id": "C06", "title": "Rows, columns and sub-matrices round-trip and leave the rest alone", "statement": "get_row/get_column/get_sub_matrix return exactly the addressed cells; set_row/set_column/set_sub_matrix change exactly the addressed cells to the given values and nothing else; setting what was just read is the identity; an out-of-range index is reported when safe accessors are on.", "quantifier": "all shapes, offsets, sizes of sub-matrices and contents", "why_tests_cant": "Unbounded shapes and offsets; the 'nothing else changes' half is never tested exhaustively.", "anchors": ["vmmlib/matrix.hpp:Matrix::get_row", "vmmlib/matrix.hpp:Matrix::set_row", "vmmlib/matrix.hpp:Matrix::get_column", "vmmlib/matrix.hpp:Matrix::set_column", "vmmlib/matrix.hpp:Matrix::get_sub_matrix", "vmmlib/matrix.hpp:Matrix::set_sub_matrix"]}
{"id": "C07", "title": "Transposition swaps indices and is an involution", "statement": "transpose(m) has cell (c,r) equal to cell (r,c) of m for every shape, transposing twice gives back m, and transpose(A*B) = transpose(B)*transpose(A).", "quantifier": "all shapes, all contents", "why_tests_cant": "All shapes, all contents.", "anchors": ["vmmlib/matrix.hpp:Matrix::transpose_to", "vmmlib/matrix.hpp:transpose", "vmmlib/matrix.hpp:Matrix::multiply"]}
{"id": "C08", "title": "Matrix product is the mathematical product, for every shape", "statement": "multiply(), operator* and operator*= compute sum_p L(r,p)*R(p,c) in every cell, in index order, for every element type; over the reals the product is associative, has the identity as neutral element and distributes over addition.", "quantifier": "all dimensions M,N,P,Q, all contents", "why_tests_cant": "Unbounded dimensions and contents.", "anchors": ["vmmlib/matrix.hpp:Matrix::multiply", "vmmlib/matrix.hpp:Matrix::operator*", "vmmlib/matrix.hpp:Matrix::operator*="]}
{"id": "C09", "title": "multiply() into one of its own operands", "statement": "m.multiply(left,right) yields left*right for every choice of operands, including when m itself is passed as an operand.", "quantifier": "all operand aliasings, all sizes, all contents", "why_tests_cant": "Aliasing patterns are not reachable by value-comparing tests that never alias.", "anchors": ["vmmlib/matrix.hpp:Matrix::multiply", "vmmlib/matrix.hpp:multiply"]}
{"id": "C10", "title": "Matrix sums, differences and scalings are element-wise", "statement": "operator+,-,+=,-= (matrix and scalar), operator*,/,*=,/= (scalar) and multiply_piecewise change each cell by exactly the corresponding scalar operation, also when the operand is the matrix itself; over the reals they obey the vector-space laws.", "quantifier": "all shapes, contents and scalars, all element types", "why_tests_cant": "All shapes and contents.", "anchors": ["vmmlib/matrix.hpp:Matrix::operator+", "vmmlib/matrix.hpp:Matrix::operator-", "vmmlib/matrix.hpp:Matrix::operator+=", "vmmlib/matrix.hpp:Matrix::operator/=", "vmmlib/matrix.hpp:Matrix::multiply_piecewise"]}
{"id": "C11", "title": "Unary minus of a matrix negates every cell", "statement": "-m and m.negate() return the matrix whose every cell is the negation of the corresponding cell of m.", "quantifier": "all shapes, all contents", "why_tests_cant": "One failing value is enough to refute it, but only a proof shows for which matrices it holds.", "anchors": ["vmmlib/matrix.hpp:Matrix::negate", "vmmlib/matrix.hpp:Matrix::operator-"]}
{"id": "C12", "title": "det() is the determinant", "statement": "For 1x1 to 4x4 matrices det() equals the Laplace-expansion determinant; it is invariant under transposition, changes sign when two rows are swapped, and det(A*B) = det(A)*det(B), det(I) = 1.", "quantifier": "all real matrices of sizes 1..4", "why_tests_cant": "24-term polynomial identity over 16 unknowns.", "anchors": ["vmmlib/matrix.hpp:compute_determinant", "vmmlib/matrix.hpp:Matrix::det"]}
{"id": "C13", "title": "inverse() succeeds exactly when |det| exceeds the tolerance and then really inverts", "statement": "For 2x2, 3x3 and 4x4 matrices and any tolerance, inverse() returns true exactly when |det| > tolerance (2x2: |det| >= tolerance) and then A*A^-1 = A^-1*A = I; it never divides by zero for a non-negative tolerance (2x2: positive).", "quantifier": "all real matrices of sizes 2..4, all tolerances", "why_tests_cant": "Continuous domain; a wrong cofactor sign can hide on symmetric test matrices.", "anchors": ["vmmlib/matrix.hpp:compute_inverse", "vmmlib/matrix.hpp:Matrix::inverse"]}
{"id": "C14", "title": "Cofactors, minors and adjugate", "statement": "get_minor returns the determinant of the matrix with the given row and column removed, get_cofactors the signed minors and get_adjugate their transpose, so A*adj(A) = adj(A)*A = det(A)*I for every supported size; no index computed in the process leaves the minor.", "quantifier": "all real matrices of sizes 2..4 (5 for cofactors), all cut rows and columns", "why_tests_cant": "Symbolic identities over up to 25 unknowns; the index arithmetic wraps modulo 2^64.", "anchors": ["vmmlib/matrix.hpp:Matrix::get_minor", "vmmlib/matrix.hpp:Matrix::get_cofactors", "vmmlib/matrix.hpp:Matrix::get_adjugate"]}
{"id": "C15", "title": "Matrix-vector product is the linear map of the matrix", "statement": "m * v has component i equal to sum_j m(i,j)*v(j) for every shape; (A*B)*v = A*(B*v), A*(u+v) = A*u+A*v and I*v = v over the reals.", "quantifier": "all shapes and contents", "why_tests_cant": "Unbounded shapes and contents.", "anchors": ["vmmlib/matrix.hpp:Matrix::operator*(Vector<N>)"]}
{"id": "C16", "title": "Homogeneous transform of a short vector performs the perspective divide", "statement": "For an (n+1)x(n+1) matrix and an n-vector, m * v equals the first n components of m*(v,1) divided by its last component, whenever that component is non-zero, and equals converting v to homogeneous coordinates, multiplying and converting back.", "quantifier": "all n, all matrices and vectors with non-zero resulting w", "why_tests_cant": "All sizes, all contents.", "anchors": ["vmmlib/matrix.hpp:Matrix::operator*(Vector<O>)", "vmmlib/vector.hpp:Vector::operator=(Vector<N>)"]}
{"id": "C17", "title": "rotate(angle, axis) builds the right-handed rotation about the axis", "statement": "For a unit axis Matrix::rotate yields the 4x4 matrix of the right-handed rotation by the angle: its 3x3 part is orthogonal with determinant 1, fixes the axis, follows Rodrigues' formula on every vector, the translation and projective parts are those of the identity, and the matrix agrees with Vector::rotate on every vector.", "quantifier": "all angles, all unit axes, all vectors, all previous matrix contents", "why_tests_cant": "Continuous domain.", "anchors": ["vmmlib/matrix.hpp:Matrix::rotate", "vmmlib/vector.hpp:Vector::rotate", "vmmlib/util.hpp:create_rotation"]}
{"id": "C18", "title": "rotate_x/y/z post-multiply by the axis rotations", "statement": "m.rotate_x(a), rotate_y(a), rotate_z(a) replace m by m * R where R is rotate(a, unit axis); consequently successive rotations about one axis add their angles and a rotation by -a undoes one by a.", "quantifier": "all angles, all 4x4 matrices", "why_tests_cant": "Continuous domain, all contents.", "anchors": ["vmmlib/matrix.hpp:Matrix::rotate_x", "vmmlib/matrix.hpp:Matrix::rotate_y", "vmmlib/matrix.hpp:Matrix::rotate_z"]}
{"id": "C19", "title": "pre_rotate_x/y/z pre-multiply by the same rotations", "statement": "m.pre_rotate_x(a), pre_rotate_y(a), pre_rotate_z(a) replace m by R * m where R is the rotation that rotate_x/y/z(a) applies from the right.", "quantifier": "all angles, all 4x4 matrices", "why_tests_cant": "Continuous domain, all contents.", "anchors": ["vmmlib/matrix.hpp:Matrix::pre_rotate_x", "vmmlib/matrix.hpp:Matrix::pre_rotate_y", "vmmlib/matrix.hpp:Matrix::pre_rotate_z"]}
{"id": "C20", "title": "Scaling and translation helpers compose as transformations", "statement": "m.scale(s) equals m * diag(s,1); scale_translation multiplies only the translation; set_translation followed by get_translation returns the translation and changes nothing else; x(),y(),z() denote the translation cells of a 4x4 matrix; create_translation(t)*p = p+t, create_scaling(s)*p = s.p and apply_translation/apply_rotation post-multiply.", "quantifier": "all 4x4 matrices, scales, translations, points", "why_tests_cant": "All contents.", "anchors": ["vmmlib/matrix.hpp:Matrix::scale", "vmmlib/matrix.hpp:Matrix::scale_translation", "vmmlib/matrix.hpp:Matrix::set_translation", "vmmlib/matrix.hpp:Matrix::get_translation", "vmmlib/matrix.hpp:Matrix::x", "vmmlib/util.hpp:create_translation", "vmmlib/util.hpp:apply_translation", "vmmlib/util.hpp:create_scaling"]}
{"id": "C21", "title": "tensor(u,v) is the outer product of u and v", "statement": "After m.tensor(u,v) cell (i,j) of m is u(i)*v(j) for every shape, and no memory outside u and v is read.", "quantifier": "all shapes M,N, all vectors", "why_tests_cant": "Non-square shapes and memory safety are not observable by value tests on square matrices.", "anchors": ["vmmlib/matrix.hpp:Matrix::tensor"]}
{"id": "C22", "title": "Structured products place every block and entry correctly", "statement": "direct_sum puts its two operands on the diagonal and zero elsewhere; kronecker_product(A,B) has cell (O*m+o, P*n+p) = A(m,n)*B(o,p); khatri_rao_product is the column-wise Kronecker product; symmetric_covariance(A) = A*transpose(A); all of them define every cell of the result and read or write nothing outside their operands.", "quantifier": "all shapes, all contents, all previous result contents", "why_tests_cant": "Four to six independent unbounded dimensions.", "anchors": ["vmmlib/matrix.hpp:Matrix::direct_sum", "vmmlib/matrix.hpp:Matrix::kronecker_product", "vmmlib/matrix.hpp:Matrix::khatri_rao_product", "vmmlib/matrix.hpp:Matrix::symmetric_covariance"]}
{"id": "C23", "title": "Sums over rows, columns and the whole matrix", "statement": "columnwise_sum(n) is the sum of column n, sum_elements the sum of all cells; sum_rows/sum_columns store in row/column k the sum of rows/columns 2k and 2k+1 (a last unpaired one is dropped); frobenius_norm is the root of the sum of squares.", "quantifier": "all shapes incl. odd ones, all contents", "why_tests_cant": "All shapes; the odd case needs an index never incremented past the end.", "anchors": ["vmmlib/matrix.hpp:Matrix::columnwise_sum", "vmmlib/matrix.hpp:Matrix::sum_elements", "vmmlib/matrix.hpp:Matrix::sum_rows", "vmmlib/matrix.hpp:Matrix::sum_columns", "vmmlib/matrix.hpp:Matrix::frobenius_norm"]}
{"id": "C24", "title": "get_min/get_abs_min/get_abs_max return the extremal cell value", "statement": "get_min, get_abs_min and get_abs_max return a value that is the minimum (minimum absolute, maximum absolute value) of the cells: it bounds all cells and is attained by one.", "quantifier": "all shapes, all contents", "why_tests_cant": "Sign patterns such as 'all cells negative' are easily missed.", "anchors": ["vmmlib/matrix.hpp:Matrix::get_min", "vmmlib/matrix.hpp:Matrix::get_max", "vmmlib/matrix.hpp:Matrix::get_abs_min", "vmmlib/matrix.hpp:Matrix::get_abs_max"]}
{"id": "C25", "title": "threshold() and nnz() agree", "statement": "nnz() counts the non-zero cells and nnz(t) those whose absolute value exceeds t; after threshold(t) with t>=0 exactly the cells with absolute value <= t are zero, all others are unchanged, and nnz() equals the earlier nnz(t).", "quantifier": "all shapes, contents and thresholds", "why_tests_cant": "All contents and thresholds.", "anchors": ["vmmlib/matrix.hpp:Matrix::nnz", "vmmlib/matrix.hpp:Matrix::threshold", "vmmlib/vector.hpp:Vector::nnz"]}
{"id": "C26", "title": "Quantization to an unsigned type is accurate to half a step", "statement": "For unsigned targets of at most 63 bits and min<max, quantize_to maps every cell into the target range and dequantize of the result differs from the original cell by at most half a quantization step for every cell in [min,max]; cells outside are clamped as long as the scaled value fits a 64-bit integer; quantize() reports a range containing all cells.", "quantifier": "all cell values, all ranges, all unsigned target widths", "why_tests_cant": "Continuous domain with rounding.", "anchors": ["vmmlib/matrix.hpp:Matrix::quantize_to", "vmmlib/matrix.hpp:Matrix::quantize", "vmmlib/matrix.hpp:Matrix::dequantize"]}
{"id": "C27", "title": "Quantization to a signed type is accurate to half a step", "statement": "For signed targets and min<max, quantizing and dequantizing a cell in [min,max] returns a value within one quantization step of the cell.", "quantifier": "all cell values, all ranges, all signed target widths", "why_tests_cant": "Asymmetric ranges are the failing case.", "anchors": ["vmmlib/matrix.hpp:Matrix::quantize_to", "vmmlib/matrix.hpp:Matrix::dequantize"]}
{"id": "C28", "title": "Raw file write/read round-trips", "statement": "Writing a matrix with write_to_raw and reading the same bytes with read_from_raw restores every cell, for every size including those larger than the 2 GiB read chunk; reading never writes outside the matrix.", "quantifier": "all sizes, all contents, all chunk boundaries", "why_tests_cant": "Multi-gigabyte matrices are not testable.", "anchors": ["vmmlib/matrix.hpp:Matrix::write_to_raw", "vmmlib/matrix.hpp:Matrix::read_from_raw"]}
{"id": "C29", "title": "write_to_raw and read_from_raw agree on the file name", "statement": "read_from_raw(dir,name) opens the file that write_to_raw(dir,name) created, for every directory and file name.", "quantifier": "all directory and file name strings", "why_tests_cant": "All strings, including short ones where the suffix search position wraps.", "anchors": ["vmmlib/matrix.hpp:Matrix::write_to_raw", "vmmlib/matrix.hpp:Matrix::read_from_raw"]}
{"id": "C30", "title": "Stream write/read round-trips", "statement": "read_from_stream applied to the output of write_to_stream restores every element of a vector or matrix and leaves the stream just after it, for every element type whose textual form is readable back.", "quantifier": "all shapes, all contents, all stream continuations", "why_tests_cant": "All shapes and contents; element types whose text form is a raw character behave differently.", "anchors": ["vmmlib/matrix.hpp:Matrix::write_to_stream", "vmmlib/matrix.hpp:Matrix::read_from_stream", "vmmlib/vector.hpp:Vector::write_to_stream", "vmmlib/vector.hpp:Vector::read_from_stream"]}
{"id": "C31", "title": "convolve() is the border-extended convolution", "statement": "m.convolve(kernel) replaces each cell by the sum over the kernel of kernel(j,i)*m(clamped neighbour), neighbours outside the matrix being clamped to the border, and never accesses memory outside the matrices, for every shape of matrix and kernel.", "quantifier": "all shapes, kernels and contents", "why_tests_cant": "Non-square shapes are the failing case; memory errors need not change values.", "anchors": ["vmmlib/matrix.hpp:Matrix::convolve"]}
{"id": "C32", "title": "set_dct() yields an orthonormal basis", "statement": "After set_dct() on an n x n matrix the rows are orthonormal: m * transpose(m) = I.", "quantifier": "all n >= 1", "why_tests_cant": "Holds for all n only by a trigonometric argument.", "anchors": ["vmmlib/matrix.hpp:Matrix::set_dct"]}
{"id": "C33", "title": "is_positive_definite() decides positive definiteness", "statement": "is_positive_definite(m) with the default limit returns true exactly for the symmetric 3x3 matrices m with x^T m x > 0 for all x != 0.", "quantifier": "all symmetric 3x3 matrices", "why_tests_cant": "Continuous domain.", "anchors": ["vmmlib/matrix.hpp:is_positive_definite"]}
{"id": "C34", "title": "Tolerance comparison of matrices and of rows/columns up to sign", "statement": "m.equals(n,tol) holds exactly when every pair of cells differs by less than tol; operator== exactly when all cells compare equal and operator!= is its negation; over the reals matrix_equals_allow_inverted_rows/columns accept exactly the pairs whose rows (columns) agree up to a sign per row (column).", "quantifier": "all shapes, contents and tolerances", "why_tests_cant": "All contents, one differing cell anywhere must be detected.", "anchors": ["vmmlib/matrix.hpp:Matrix::equals", "vmmlib/matrix.hpp:Matrix::operator==", "vmmlib/matrix_functors.hpp:matrix_equals_allow_inverted_rows"]}
{"id": "C35", "title": "Vector arithmetic is element-wise, also on itself", "statement": "operator +,-,*,/ and +=,-=,*=,/= with vector or scalar, unary minus and negate() act on each component by the corresponding scalar operation, for every dimension and element type, also when both operands are the same object; for signed integers the result is defined exactly when no component overflows.", "quantifier": "all dimensions, contents, element types and aliasings", "why_tests_cant": "All dimensions, contents and aliasings.", "anchors": ["vmmlib/vector.hpp:Vector::operator+", "vmmlib/vector.hpp:Vector::operator-=", "vmmlib/vector.hpp:Vector::operator*=", "vmmlib/vector.hpp:Vector::negate"]}
{"id": "C36", "title": "dot, length and distance satisfy the Euclidean laws", "statement": "dot is bilinear and symmetric, dot(v,v) = squared_length >= 0 with equality only for the zero vector, |dot(u,v)| <= length(u)*length(v), length and distance satisfy the triangle inequality, distance is symmetric and zero only for equal vectors, norm() equals length().", "quantifier": "all dimensions, all real vectors", "why_tests_cant": "Inequalities over all vectors of all dimensions.", "anchors": ["vmmlib/vector.hpp:Vector::dot", "vmmlib/vector.hpp:Vector::length", "vmmlib/vector.hpp:Vector::squared_length", "vmmlib/vector.hpp:Vector::distance", "vmmlib/vector.hpp:Vector::norm"]}
{"id": "C37", "title": "normalize() yields a parallel unit vector and reports the old length", "statement": "For a non-zero vector normalize() returns its length and leaves the vector divided by that length (length 1, same direction); for the zero vector it returns 0 and changes nothing; it never divides by zero. The free function leaves its argument unchanged.", "quantifier": "all dimensions, all real vectors", "why_tests_cant": "Continuous domain, includes the zero vector.", "anchors": ["vmmlib/vector.hpp:Vector::normalize", "vmmlib/vector.hpp:normalize"]}
{"id": "C38", "title": "The cross product is orthogonal, antisymmetric and satisfies Lagrange's identity", "statement": "a.cross(b) is orthogonal to a and b, equals minus b.cross(a), has squared length |a|^2|b|^2-(a.b)^2 and satisfies the Jacobi and triple-product identities.", "quantifier": "all 3-vectors", "why_tests_cant": "Polynomial identities over nine unknowns.", "anchors": ["vmmlib/vector.hpp:Vector::cross", "vmmlib/quaternion.hpp:Quaternion::cross"]}
{"id": "C39", "title": "v.cross(a,b) may be stored into one of its operands", "statement": "v.cross(a,b) stores a x b in v for every choice of a and b, including a or b being v itself.", "quantifier": "all aliasings, all contents", "why_tests_cant": "Aliased calls.", "anchors": ["vmmlib/vector.hpp:Vector::cross(a,b)"]}
{"id": "C40", "title": "compute_normal returns the unit normal of a CCW triangle", "statement": "For a non-degenerate triangle the result has length 1, is orthogonal to both edges and points to the side from which the triangle appears counter-clockwise; for a degenerate triangle it is the zero vector; the target may alias a vertex.", "quantifier": "all triangles, all aliasings", "why_tests_cant": "Continuous domain.", "anchors": ["vmmlib/vector.hpp:Vector::compute_normal"]}
{"id": "C41", "title": "Vector::rotate is a rotation", "statement": "v.rotate(theta, axis) preserves lengths and dot products, fixes multiples of the axis, composes additively in theta, for every non-zero axis (which need not be normalized), and equals Rodrigues' formula.", "quantifier": "all vectors, axes, angles", "why_tests_cant": "Continuous domain.", "anchors": ["vmmlib/vector.hpp:Vector::rotate"]}
{"id": "C42", "title": "operator< is a strict total order", "statement": "operator< is irreflexive, transitive and, over totally ordered elements, two vectors neither of which is less are component-wise equal; it is the lexicographic order, hence usable as key of ordered containers.", "quantifier": "all dimensions, all vectors", "why_tests_cant": "Order axioms range over triples of vectors.", "anchors": ["vmmlib/vector.hpp:Vector::operator<"]}
{"id": "C43", "title": "operator< over floating point with NaN components", "statement": "operator< is a strict weak order on all vectors of doubles, including those with NaN components.", "quantifier": "all double vectors", "why_tests_cant": "NaN triples.", "anchors": ["vmmlib/vector.hpp:Vector::operator<"]}
{"id": "C44", "title": "operator== is bit equality", "statement": "operator== is an equivalence relation that holds exactly when all components have the same bit pattern (so +0 and -0 differ and a NaN equals itself), and operator!= is its negation; for integers it is component-wise equality.", "quantifier": "all dimensions, all double/integer vectors", "why_tests_cant": "All bit patterns.", "anchors": ["vmmlib/vector.hpp:Vector::operator==", "vmmlib/vector.hpp:Vector::operator!="]}
{"id": "C45", "title": "Vector::equals with a tolerance", "statement": "Over the reals u.equals(v,tol) holds exactly when every component differs by less than tol; it is symmetric, reflexive for tol > 0, and v.equals(v) holds with the default tolerance.", "quantifier": "all dimensions, vectors, tolerances, element types", "why_tests_cant": "Default tolerance of integer types and NaN/infinite components are the failing cases.", "anchors": ["vmmlib/vector.hpp:Vector::equals", "vmmlib/util.hpp:equals"]}
{"id": "C46", "title": "find_min/find_max and their indices", "statement": "find_min_index/find_max_index return the first index attaining the minimum/maximum, find_min/find_max that component, find_abs_min_index the first index of smallest absolute value.", "quantifier": "all dimensions >= 1, all vectors", "why_tests_cant": "All orderings with ties.", "anchors": ["vmmlib/vector.hpp:Vector::find_min_index", "vmmlib/vector.hpp:Vector::find_max_index", "vmmlib/vector.hpp:Vector::find_abs_min_index", "vmmlib/math.hpp:abs_less"]}
{"id": "C47", "title": "find_abs_max_index returns the index of the largest absolute value", "statement": "find_abs_max_index returns an index whose component has the largest absolute value.", "quantifier": "all dimensions >= 1, all vectors", "why_tests_cant": "A single witness refutes it; the proof characterises what is returned instead.", "anchors": ["vmmlib/vector.hpp:Vector::find_abs_max_index", "vmmlib/math.hpp:abs_greater"]}
{"id": "C48", "title": "clamp limits every component", "statement": "After clamp(lo,hi) with lo<=hi every component is in [lo,hi], components already inside are unchanged, those below become lo and those above hi; clamping twice is clamping once.", "quantifier": "all dimensions, vectors, bounds", "why_tests_cant": "All contents and bounds.", "anchors": ["vmmlib/vector.hpp:Vector::clamp"]}
{"id": "C49", "title": "Homogeneous conversion round-trips", "statement": "Converting an n-vector to n+1 components appends 1; converting back divides by the last component; to-then-from is the identity, and scaling the homogeneous vector by any non-zero factor does not change the converted result.", "quantifier": "all n, all vectors, all non-zero factors", "why_tests_cant": "All dimensions and contents.", "anchors": ["vmmlib/vector.hpp:Vector::operator=(Vector<N>) N==M-1", "vmmlib/vector.hpp:Vector::operator=(Vector<N>) N==M+1"]}
{"id": "C50", "title": "Constructors and setters write exactly the named components", "statement": "The value constructors and set(...) overloads, iter_set, assignment from a C array, from a filler, from another vector and cast_from write exactly the components they name, in order, and leave every other component untouched; get_sub_vector denotes a window of the vector; self-assignment is harmless; an out-of-range at() throws with safe accessors.", "quantifier": "all dimensions, contents, range lengths, offsets", "why_tests_cant": "All dimensions and lengths; untouched components of partially initialised vectors are indeterminate.", "anchors": ["vmmlib/vector.hpp:Vector::Vector", "vmmlib/vector.hpp:Vector::set", "vmmlib/vector.hpp:Vector::iter_set", "vmmlib/vector.hpp:Vector::operator=", "vmmlib/vector.hpp:Vector::get_sub_vector", "vmmlib/vector.hpp:Vector::cast_from", "vmmlib/vector.hpp:Vector::at"]}
{"id": "C51", "title": "compute_plane returns the plane through three points with a unit normal", "statement": "For three non-collinear points compute_plane returns a plane (n,d) with |n| = 1, whose distance_to_plane is zero at the three points.", "quantifier": "all point triples", "why_tests_cant": "Continuous domain; the length of the normal is not checked by a point-on-plane test.", "anchors": ["vmmlib/vector.hpp:compute_plane"]}
{"id": "C52", "title": "Plane distance and projection", "statement": "For a plane with unit normal distance_to_plane is the signed Euclidean distance, and project_point_onto_plane returns the unique nearest point of the plane, at distance |distance_to_plane|.", "quantifier": "all planes with unit normal, all points", "why_tests_cant": "Optimality over all points of a plane.", "anchors": ["vmmlib/vector.hpp:Vector::distance_to_plane", "vmmlib/vector.hpp:Vector::project_point_onto_plane"]}
{"id": "C53", "title": "Sphere distance and projection", "statement": "distance_to_sphere is the signed distance to the surface (negative inside); project_point_onto_sphere of a point other than the centre lies on the sphere, on the ray from the centre, and for radius >= 0 no point of the sphere is nearer.", "quantifier": "all spheres, all points other than the centre", "why_tests_cant": "Optimality over all points of a sphere.", "anchors": ["vmmlib/vector.hpp:Vector::distance_to_sphere", "vmmlib/vector.hpp:Vector::project_point_onto_sphere"]}
{"id": "C54", "title": "Component predicates and folds", "statement": "is_unit_vector() is true exactly for the axis vectors (one component 1, all others 0); product() is the product of all components; util min/max are component-wise and manhattan is the sum of absolute values (a norm).", "quantifier": "all dimensions >= 1, all vectors", "why_tests_cant": "All dimensions and contents.", "anchors": ["vmmlib/vector.hpp:Vector::is_unit_vector", "vmmlib/vector.hpp:Vector::product", "vmmlib/util.hpp:min", "vmmlib/util.hpp:max", "vmmlib/util.hpp:manhattan"]}
{"id": "C55", "title": "reciprocal, reciprocal_safe and sqrt_elementwise", "statement": "reciprocal replaces each non-zero component by its inverse and is an involution; reciprocal_safe does the same but maps zero to the largest finite value and never divides by zero; sqrt_elementwise replaces each non-negative component by its root.", "quantifier": "all dimensions, all vectors", "why_tests_cant": "All positions of zeros.", "anchors": ["vmmlib/vector.hpp:Vector::reciprocal", "vmmlib/vector.hpp:Vector::reciprocal_safe", "vmmlib/vector.hpp:Vector::sqrt_elementwise"]}
{"id": "C56", "title": "Randomised fills stay in range and are reproducible", "statement": "set_random of a vector or matrix writes every component with a value in [-1,1] whatever rand() returns, consuming exactly one rand() per component, and equal seeds give equal contents; perturb moves every component by exactly plus or minus the perturbation.", "quantifier": "all sizes, all rand() sequences, all seeds", "why_tests_cant": "All rand() sequences.", "anchors": ["vmmlib/vector.hpp:Vector::set_random", "vmmlib/vector.hpp:Vector::perturb", "vmmlib/matrix.hpp:Matrix::set_random"]}
{"id": "C57", "title": "Quaternion multiplication is the Hamilton product", "statement": "operator* and operator*= compute the Hamilton product, also when a quaternion is multiplied by itself; it is associative, distributive, has IDENTITY as unit, satisfies i^2=j^2=k^2=ijk=-1 and abs(p*q) = abs(p)*abs(q).", "quantifier": "all quaternions, aliased operands", "why_tests_cant": "Polynomial identities over up to 12 unknowns.", "anchors": ["vmmlib/quaternion.hpp:Quaternion::operator*=", "vmmlib/quaternion.hpp:Quaternion::operator*"]}
{"id": "C58", "title": "Conjugate and inverse", "statement": "conjugation is an anti-automorphism; q*conj(q) = squared_abs; inverse() of a non-zero quaternion is its two-sided multiplicative inverse; conjugate() and get_conjugate() agree.", "quantifier": "all quaternions", "why_tests_cant": "Continuous domain.", "anchors": ["vmmlib/quaternion.hpp:Quaternion::conjugate", "vmmlib/quaternion.hpp:Quaternion::get_conjugate", "vmmlib/quaternion.hpp:Quaternion::inverse", "vmmlib/quaternion.hpp:Quaternion::squared_abs"]}
{"id": "C59", "title": "Quaternion normalisation and scalar operations", "statement": "normalize() of a non-zero quaternion leaves a unit quaternion with the same direction and reports the reciprocal of the old absolute value; zero is left unchanged and reported as 0; operator/ and /= by zero throw and otherwise multiply by the reciprocal; +,-,*,negation are component-wise and comparison is component-wise.", "quantifier": "all quaternions and scalars", "why_tests_cant": "Continuous domain, zero included.", "anchors": ["vmmlib/quaternion.hpp:Quaternion::normalize", "vmmlib/quaternion.hpp:Quaternion::operator/", "vmmlib/quaternion.hpp:Quaternion::operator/=", "vmmlib/quaternion.hpp:Quaternion::operator=="]}
{"id": "C60", "title": "The rotation matrix of a quaternion represents it", "statement": "For a unit quaternion get_rotation_matrix is orthogonal with determinant 1 and maps v to the vector part of q*v*conj(q); for any quaternions the matrix of p*q is the product of the matrices, and q and -q give the same matrix.", "quantifier": "all quaternions", "why_tests_cant": "Polynomial identities over eight unknowns.", "anchors": ["vmmlib/quaternion.hpp:Quaternion::get_rotation_matrix"]}
{"id": "C61", "title": "A quaternion built from a rotation matrix represents that rotation", "statement": "For every unit quaternion q, Quaternion(q.get_rotation_matrix()) is q or -q (so it represents the same rotation).", "quantifier": "all unit quaternions, i.e. all rotations", "why_tests_cant": "Half-turn rotations take branches that random tests practically never take.", "anchors": ["vmmlib/quaternion.hpp:Quaternion::set(Matrix)"]}
{"id": "C62", "title": "slerp interpolates between the normalised end points on the unit sphere", "statement": "For non-zero p,q slerp(0,p,q) is p normalised, slerp(1,p,q) is q normalised up to sign, and for every parameter in [0,1] (any parameter outside the small-angle branch) the result has absolute value 1 and makes angle a*theta with p; no division by zero occurs.", "quantifier": "all non-zero p,q, all parameters, all epsilons in (0,1)", "why_tests_cant": "Trigonometric identity over all inputs.", "anchors": ["vmmlib/quaternion.hpp:Quaternion::slerp"]}
{"id": "C63", "title": "Quaternion/vector operators +, -=, *= act on the vector part", "statement": "q+v and q-=v add/subtract v to/from the vector part and keep the scalar part, q*=v is the Hamilton product of q with the pure quaternion v, and the constructors and set() from a vector and a scalar put them into the vector and scalar part.", "quantifier": "all quaternions and vectors", "why_tests_cant": "One witness refutes; the proofs tell which of the six operators are right.", "anchors": ["vmmlib/quaternion.hpp:Quaternion::operator+(Vector)", "vmmlib/quaternion.hpp:Quaternion::operator-(Vector)", "vmmlib/quaternion.hpp:Quaternion::operator+=(Vector)", "vmmlib/quaternion.hpp:Quaternion::operator-=(Vector)", "vmmlib/quaternion.hpp:Quaternion::operator*(Vector)", "vmmlib/quaternion.hpp:Quaternion::operator*=(Vector)"]}
{"id": "C64", "title": "Merging points and boxes yields the smallest enclosing box", "statement": "Starting from a default-constructed box, after any sequence of merge(point) and merge(box) calls getMin()/getMax() are the component-wise minimum/maximum of everything merged; every merged point is inside, and any box containing everything merged contains the result; the order of merges does not matter; over the reals setEmpty() restores the empty box.", "quantifier": "all finite merge histories, all points and non-empty boxes", "why_tests_cant": "Unbounded histories and their permutations.", "anchors": ["vmmlib/aabb.hpp:AABB::merge", "vmmlib/aabb.hpp:AABB::AABB", "vmmlib/aabb.hpp:AABB::isIn", "vmmlib/aabb.hpp:AABB::setEmpty"]}
{"id": "C65", "title": "isIn is closed-box membership", "statement": "isIn(p) holds exactly when min <= p <= max in all three components, isIn2d when in x and y; it is monotone under merge; construction from centre and size contains exactly the points within size of the centre in every component.", "quantifier": "all boxes and points", "why_tests_cant": "Continuous domain.", "anchors": ["vmmlib/aabb.hpp:AABB::isIn", "vmmlib/aabb.hpp:AABB::isIn2d", "vmmlib/aabb.hpp:AABB::AABB(T,T,T,T)", "vmmlib/aabb.hpp:AABB::set"]}
{"id": "C66", "title": "isEmpty recognises boxes with an empty interior", "statement": "isEmpty() holds exactly when min >= max in at least one of the three components.", "quantifier": "all boxes", "why_tests_cant": "Only boxes with particular x/z extents expose it.", "anchors": ["vmmlib/aabb.hpp:AABB::isEmpty"]}
{"id": "C67", "title": "AABB scaling, shifting, centre and dimension", "statement": "operator+,-,*,/ and their assignment forms apply the scalar to both corners and getDimension is max-min, for every element type; over the reals getCenter is the midpoint, shifting moves the centre and keeps the dimension, scaling scales both; == compares both corners.", "quantifier": "all boxes and scalars, all element types", "why_tests_cant": "Integer element types are the failing case for the centre.", "anchors": ["vmmlib/aabb.hpp:AABB::operator+", "vmmlib/aabb.hpp:AABB::operator*=", "vmmlib/aabb.hpp:AABB::getCenter", "vmmlib/aabb.hpp:AABB::getDimension"]}
{"id": "C68", "title": "The perspective matrix maps the frustum onto the clip cube", "statement": "For l!=r, b!=t, n!=f the matrix of compute_matrix maps eye-space points so that after the perspective divide the frustum given by left..far at near distance is exactly the cube [-1,1]^3, near going to -1 and far to +1.", "quantifier": "all frusta, all points", "why_tests_cant": "Continuous domain.", "anchors": ["vmmlib/frustum.hpp:Frustum::compute_matrix"]}
{"id": "C69", "title": "The orthographic matrix maps the box onto the clip cube", "statement": "compute_ortho_matrix maps the box [left,right]x[bottom,top]x[-near,-far] affinely onto [-1,1]^3.", "quantifier": "all frusta, all points", "why_tests_cant": "Continuous domain.", "anchors": ["vmmlib/frustum.hpp:Frustum::compute_ortho_matrix"]}
{"id": "C70", "title": "adjust_near keeps the perspective pyramid", "statement": "adjust_near(n) with n != 0 and old near != 0 sets the near plane, keeps the far plane and scales the window so that the four side planes through the eye are unchanged; adjusting back restores the frustum; apply_jitter shifts the window and keeps its width and height.", "quantifier": "all frusta with non-zero near plane, all new near planes", "why_tests_cant": "Continuous domain.", "anchors": ["vmmlib/frustum.hpp:Frustum::adjust_near", "vmmlib/frustum.hpp:Frustum::apply_jitter"]}
{"id": "C71", "title": "set_perspective behaves like gluPerspective", "statement": "After set_perspective(fovy, aspect, near, far) the window at the near plane is centred, has aspect ratio aspect and subtends the vertical angle fovy at the eye: top = near*tan(fovy/2).", "quantifier": "all field-of-view angles, aspect ratios and near planes", "why_tests_cant": "Holds for a single near distance, so a test with that value passes.", "anchors": ["vmmlib/frustum.hpp:Frustum::set_perspective"]}
{"id": "C72", "title": "Sphere culling is sound", "statement": "After setup(projection*modelview), test_sphere returns NONE only if no point of the ball is strictly inside the clip volume and FULL only if every point of the ball is inside it; a ball with a point strictly inside is never culled.", "quantifier": "all non-degenerate 4x4 matrices, all spheres, all points of the ball", "why_tests_cant": "Quantifies over all points of a ball and all matrices.", "anchors": ["vmmlib/frustum_culler.hpp:FrustumCuller::setup", "vmmlib/frustum_culler.hpp:FrustumCuller::test_sphere"]}
{"id": "C73", "title": "Box culling is sound", "statement": "After setup(projection*modelview), test_aabb returns NONE only if no point of the box is strictly inside the clip volume and FULL only if every point of the box is inside it, for intervals given in either order.", "quantifier": "all non-degenerate 4x4 matrices, all boxes, all points of the box", "why_tests_cant": "Quantifies over all points of a box and all matrices.", "anchors": ["vmmlib/frustum_culler.hpp:FrustumCuller::setup", "vmmlib/frustum_culler.hpp:FrustumCuller::test_aabb"]}
{"id": "C74", "title": "Culling planes computed from the eight corners", "statement": "After setup(corners) of a perspective or orthographic frustum every plane contains its four corners, the interior lies on its positive side and sphere/box culling is sound for that frustum: NONE is reported only for objects outside and FULL only for objects inside.", "quantifier": "all frusta given by corners", "why_tests_cant": "Continuous domain.", "anchors": ["vmmlib/frustum_culler.hpp:FrustumCuller::setup(corners)", "vmmlib/vector.hpp:compute_plane"]}
{"id": "C75", "title": "Ray-sphere intersection is exact", "statement": "For a non-zero direction and any sphere with radius >= 0 test_sphere returns true exactly when the ray (parameter >= 0) meets the sphere, and then origin + t*direction is on the sphere with t >= 0, t being the first hit when the origin is outside and the exit point when inside.", "quantifier": "all rays and spheres", "why_tests_cant": "Continuous domain with tangent and inside cases.", "anchors": ["vmmlib/intersection.hpp:Intersection::test_sphere"]}
{"id": "C76", "title": "QR decomposition reproduces the matrix", "statement": "For M >= N and linearly independent columns qr_decompose_gram_schmidt yields Q with orthonormal first N columns (the rest zero) and an upper triangular R with positive diagonal such that Q(:,0..N)*R = A.", "quantifier": "all sizes M >= N, all matrices of full column rank", "why_tests_cant": "Unbounded sizes, induction over columns.", "anchors": ["vmmlib/qr_decomposition.hpp:qr_decompose_gram_schmidt"]}
{"id": "C77", "title": "The low-pass filter depends on exactly the last M values", "statement": "After any history of add and set_smooth_factor calls the value returned by add is determined by the current factor and the last M added values only, is the documented weighted blend of them, lies between their minimum and maximum for factors in [0,1], and equals the input once the input has been constant for M steps; get() returns what the last add returned.", "quantifier": "all histories, all window sizes M >= 1, all factors", "why_tests_cant": "Unbounded histories.", "anchors": ["vmmlib/lowpass_filter.hpp:LowpassFilter::add", "vmmlib/lowpass_filter.hpp:LowpassFilter::set_smooth_factor"]}
{"id": "C78", "title": "math helpers", "statement": "pythag(a,b) = sqrt(a^2+b^2) and never divides by zero, squared(a) = a^2, sign(a,b) = |a| with the sign of b.", "quantifier": "all reals", "why_tests_cant": "Continuous domain.", "anchors": ["vmmlib/math.hpp:pythag", "vmmlib/math.hpp:squared", "vmmlib/math.hpp:sign"]}
{"id": "C79", "title": "p_norm is the p-norm", "statement": "p_norm(p) is the p-th root of the sum of the p-th powers of the absolute values of the cells, for p >= 1.", "quantifier": "all shapes, contents, p", "why_tests_cant": "Negative cells with odd p are the failing case.", "anchors": ["vmmlib/matrix.hpp:Matrix::p_norm"]}
{"id": "C80", "title": "The boost.la traits address the same cells as the matrix", "statement": "matrix_traits::r<Row,Col>/ir(row,col) read and w<Row,Col>/iw(row,col) write the cell at(Row,Col), without leaving the storage.", "quantifier": "all shapes, all in-range indices", "why_tests_cant": "Only non-symmetric or non-square matrices expose it.", "anchors": ["vmmlib/matrix_traits.hpp:matrix_traits::r", "vmmlib/matrix_traits.hpp:matrix_traits::iw"]}
{"id": "C81", "title": "Rounding errors of dot products are bounded", "statement": "In IEEE double arithmetic, whatever the dimension, the computed dot product / matrix product cell differs from the exact one by at most the classical bound ((1+u)^n-1) * sum |a_i b_i| + n*eta in the absence of overflow.", "quantifier": "all dimensions, all finite double vectors without overflow", "why_tests_cant": "All double inputs of all dimensions.", "anchors": ["vmmlib/vector.hpp:Vector::dot", "vmmlib/matrix.hpp:Matrix::multiply"]}
{"id": "C82", "title": "Printing leaves the stream's format as it was", "statement": "operator<< for vectors and matrices restores the format flags and the precision of the stream.", "quantifier": "all vectors, matrices, element types, stream formats", "why_tests_cant": "All combinations of stream formats and contents; the failing case is any format other than right-adjusted.", "anchors": ["vmmlib/vector.hpp:operator<<", "vmmlib/matrix.hpp:operator<<"]}
{"id": "C83", "title": "Switching the checked accessors off changes nothing but the throws", "statement": "For every operation and every input: if the build with checked accessors (VMMLIB_SAFE_ACCESSORS) does not throw, the build without them has exactly the same outcome.", "quantifier": "all operations of the library, all arguments, all element types, both build configurations", "why_tests_cant": "A test suite is built in one configuration; the claim relates the two configurations on every input.", "anchors": ["vmmlib/vmmlib_config.hpp:VMMLIB_SAFE_ACCESSORS", "vmmlib/vector.hpp:at", "vmmlib/matrix.hpp:at", "vmmlib/matrix.hpp:operator()"]}
{"id": "C84", "title": "In-place calls: an output that is also an input", "statement": "Passing a matrix as its own output to transpose_to(), symmetric_covariance() or inverse(), or an element of the object as a reference parameter to threshold() or clamp(), gives the same result as passing an independent copy.", "quantifier": "all square sizes, all element types where noted, all contents, all aliased element positions", "why_tests_cant": "Whether aliasing matters depends on the order of every read and write and on the contents: symmetric test data hides the corruption.", "anchors": ["vmmlib/matrix.hpp:transpose_to", "vmmlib/matrix.hpp:symmetric_covariance", "vmmlib/matrix.hpp:inverse", "vmmlib/matrix.hpp:compute_inverse", "vmmlib/matrix.hpp:threshold", "vmmlib/vector.hpp:clamp"]}
{"id": "C85", "title": "The three ways to rotate agree", "statement": "Rotating a 3-vector about a unit axis by an angle gives the same vector whether it is done with vector::rotate, with the 4x4 matrix filled by matrix::rotate or with the quaternion built from the same axis and angle and its rotation matrix; and that rotation is the axis-angle rotation: it fixes the axis, preserves lengths and adds angles.", "quantifier": "all unit axes, all angles, all vectors, over the reals", "why_tests_cant": "Three independently written formulas must coincide on a continuum of axes and angles; a sign error vanishes on the axis-aligned cases tests use.", "anchors": ["vmmlib/vector.hpp:rotate", "vmmlib/matrix.hpp:rotate", "vmmlib/quaternion.hpp:Quaternion( angle, axis )", "vmmlib/quaternion.hpp:getRotationMatrix"]}
{"id": "C86", "title": "Named accessors address the documented components", "statement": "x()/y()/z()/w(), r()/g()/b()/a() of a vector and left()/right()/bottom()/top()/near/far of a frustum read and write exactly the documented component and leave every other one unchanged.", "quantifier": "all vector sizes that have the component, all element types, all contents", "why_tests_cant": "The claim is about every content of every size, including the components that must not change.", "anchors": ["vmmlib/vector.hpp:x", "vmmlib/vector.hpp:w", "vmmlib/frustum.hpp:left", "vmmlib/frustum.hpp:far_plane"]}
{"id": "C87", "title": "Static direction constants", "statement": "ZERO, ONE, UNIT_X/Y/Z, FORWARD, BACKWARD, UP, DOWN, LEFT, RIGHT have the documented components, opposite directions are negatives of each other, and RIGHT, UP, BACKWARD form a right-handed orthonormal frame.", "quantifier": "all vector sizes M with at least three components, all element types", "why_tests_cant": "The constants are templates over the size and element type; no test suite instantiates all of them.", "anchors": ["vmmlib/vector.hpp:FORWARD", "vmmlib/vector.hpp:UNIT_X", "vmmlib/vector.hpp:ZERO"]}
{"id": "C88", "title": "CSV files round-trip", "statement": "A matrix written with write_csv_file() and read back with read_csv_file() has the cells that were written, and the file contains every cell in row order.", "quantifier": "all matrix sizes, contents, directory and file names", "why_tests_cant": "Needs all contents and all path spellings.", "anchors": ["vmmlib/matrix.hpp:write_csv_file", "vmmlib/matrix.hpp:read_csv_file"]}
{"id": "C89", "title": "Quaternion::normal returns a normal", "statement": "q.normal( a, b, c ) returns a unit quaternion orthogonal to a - q, b - q and c - q, and q.normal( a, b, c, d ) stores such a quaternion for b - a, c - a, d - a in q: the result depends on the arguments.", "quantifier": "all quadruples of quaternions", "why_tests_cant": "Quantifies over all arguments.", "anchors": ["vmmlib/quaternion.hpp:normal"]}
{"id": "C90", "title": "scale_to maps the range onto the target type", "statement": "v.scale_to( result, min, max ) maps [min, max] affinely onto [0, MAX] of the target type: min goes to 0, max to MAX, everything between stays between.", "quantifier": "all sizes, contents, ranges min < max and target types, over the reals", "why_tests_cant": "A test samples one symmetric range; the claim is about all of them.", "anchors": ["vmmlib/vector.hpp:scale_to"]}
{"id": "C91", "title": "vector nnz counts the non-zeros", "statement": "nnz() of a vector is the number of components that differ from zero; it is 0 exactly for the zero vector and M exactly when no component is zero.", "quantifier": "all sizes, element types and contents", "why_tests_cant": "Quantifies over all sizes and contents.", "anchors": ["vmmlib/vector.hpp:nnz"]}
{"id": "C92", "title": "Laws of the inverse", "statement": "If inverse() succeeded for A and B then det(A^-1) = 1/det(A), (A^-1)^-1 = A, (A^T)^-1 = (A^-1)^T, (AB)^-1 = B^-1 A^-1 (whenever the tolerance admits the inversion) and A^-1 w is the one and only solution of A x = w.", "quantifier": "all invertible 2x2, 3x3 and 4x4 matrices, tolerances and right-hand sides, over the reals", "why_tests_cant": "Algebraic identities between three separately written closed forms, over a continuum.", "anchors": ["vmmlib/matrix.hpp:inverse", "vmmlib/matrix.hpp:det", "vmmlib/matrix.hpp:transpose_to"]}
{"id": "C93", "title": "frobenius_norm is a norm", "statement": "frobenius_norm() is non-negative, zero only for the zero matrix, homogeneous, satisfies the triangle inequality, is sub-multiplicative, invariant under transposition and under multiplication with an orthogonal matrix.", "quantifier": "all shapes and contents, over the reals", "why_tests_cant": "Inequalities over a continuum and over all shapes.", "anchors": ["vmmlib/matrix.hpp:frobenius_norm"]}
{"id": "C94", "title": "Laws of the Kronecker product", "statement": "(A kron B)(C kron D) = AC kron BD, (A kron B)^T = A^T kron B^T, 1 kron 1 = 1 and the norm of A kron B is the product of the norms, as computed by kronecker_product, operator*, transpose and frobenius_norm.", "quantifier": "all shapes, contents and previous contents of the result", "why_tests_cant": "Quantifies over six independent dimensions.", "anchors": ["vmmlib/matrix.hpp:kronecker_product"]}
{"id": "C95", "title": "The QR factorisation is the unique one", "statement": "If A = QU with orthonormal columns in Q and an upper triangular U with positive diagonal, qr_decompose returns this Q and U; an A with orthonormal columns is returned unchanged with U = 1, and a triangular A with positive diagonal gives Q = 1 and U = A.", "quantifier": "all shapes M >= N and all A of full rank, over the reals", "why_tests_cant": "Uniqueness quantifies over all factorisations.", "anchors": ["vmmlib/qr_decomposition.hpp:qr_decompose_gram_schmidt"]}
{"id": "C96", "title": "Integer element types compute the exact result", "statement": "With k-bit unsigned elements every vector, matrix and quaternion operation built from +, -, * returns the exact integer result modulo 2^k whatever wraps on the way, and with signed elements every component of the result is exact unless an overflow (undefined behaviour) happened in its computation; throws and accesses are those of exact arithmetic.", "quantifier": "all widths, shapes and contents", "why_tests_cant": "An overflow shows up only for particular contents; the claim is about all of them.", "anchors": ["vmmlib/vector.hpp:dot", "vmmlib/vector.hpp:cross", "vmmlib/matrix.hpp:operator*", "vmmlib/matrix.hpp:det", "vmmlib/matrix.hpp:get_cofactors", "vmmlib/quaternion.hpp:cross"]}
{"id": "C97", "title": "Matrix algebra with integer elements", "statement": "With unsigned elements, wrap-around included, the product is associative and distributive, (AB)^T = B^T A^T, det(AB) = det(A)det(B), det(A^T) = det(A) and A adj(A) = det(A) 1; with signed elements a determinant computed without overflow is the mathematical determinant.", "quantifier": "all widths, shapes and contents", "why_tests_cant": "Identities modulo 2^k over all contents.", "anchors": ["vmmlib/matrix.hpp:operator*", "vmmlib/matrix.hpp:det", "vmmlib/matrix.hpp:get_adjugate"]}
{"id": "C98", "title": "m[row][col] checks the row like at() does", "statement": "With safe accessors on, m[row][col] throws for every out-of-range row, as at(row,col) does.", "quantifier": "all shapes and indices", "why_tests_cant": "An off-by-one in the check shows only at row == M.", "anchors": ["vmmlib/matrix.hpp:Matrix::at", "vmmlib/matrix.hpp:operator[]"]}
{"id": "C99", "title": "get_max returns the largest cell", "statement": "get_max() returns the maximum of the cells: it bounds all cells and is attained by one.", "quantifier": "all shapes and contents", "why_tests_cant": "Quantifies over all contents.", "anchors": ["vmmlib/matrix.hpp:get_max"]}
{"id": "C100", "title": "Quantization never leaves the representable range", "statement": "quantize_to is defined and clamps for every unsigned target type, 64 bits included, and for cells however far outside [min,max].", "quantifier": "all contents, ranges and target widths", "why_tests_cant": "Overflow needs extreme values.", "anchors": ["vmmlib/matrix.hpp:quantize_to"]}
{"id": "C101", "title": "Stream round trip for every arithmetic element type", "statement": "read_from_stream restores what write_to_stream wrote for every arithmetic element type, bytes and floating point with the default precision included.", "quantifier": "all element types and contents", "why_tests_cant": "Only particular values lose digits or are skipped as blanks.", "anchors": ["vmmlib/matrix.hpp:write_to_stream", "vmmlib/vector.hpp:write_to_stream"]}
{"id": "C102", "title": "Exact comparison up to sign with floating-point cells", "statement": "matrix_equals_allow_inverted_rows accepts a pair of double matrices whose rows agree up to a sign per row.", "quantifier": "all double matrices", "why_tests_cant": "Needs particular zero patterns.", "anchors": ["vmmlib/matrix_functors.hpp:matrix_equals_allow_inverted_rows"]}
{"id": "C103", "title": "Vector::equals is reflexive and rejects NaN for every element type", "statement": "v.equals(v) holds for every integer vector with the default tolerance, and a vector with a NaN component equals no other vector.", "quantifier": "all vectors of integers and doubles", "why_tests_cant": "Quantifies over all contents.", "anchors": ["vmmlib/vector.hpp:equals"]}
{"id": "C104", "title": "setEmpty() makes an integer box empty", "statement": "After setEmpty() merging points into an AABB of integers gives the box of these points, as for a default-constructed box.", "quantifier": "all integer boxes and points", "why_tests_cant": "Shows only for particular points.", "anchors": ["vmmlib/aabb.hpp:setEmpty"]}
{"id": "C105", "title": "getCenter() of an integer box is its midpoint", "statement": "getCenter() of an AABB of integers is the (rounded) midpoint.", "quantifier": "all integer boxes", "why_tests_cant": "Quantifies over all boxes.", "anchors": ["vmmlib/aabb.hpp:getCenter"]}
{"id": "C106", "title": "Quaternion/vector operators -, *, += act on the vector part", "statement": "q-v and q+=v subtract/add v from/to the vector part and keep the scalar part; q*v is the Hamilton product of q with the pure quaternion v.", "quantifier": "all quaternions and vectors, over the reals", "why_tests_cant": "Quantifies over all operands.", "anchors": ["vmmlib/quaternion.hpp:operator-", "vmmlib/quaternion.hpp:operator*", "vmmlib/quaternion.hpp:operator+="]}
{"id": "C107", "title": "Corner-built culling planes store Euclidean distances", "statement": "After setup(corners) the value of a plane at a point is its Euclidean distance, so that a ball inside the frustum is reported as fully visible.", "quantifier": "all frusta and balls", "why_tests_cant": "Quantifies over all frusta.", "anchors": ["vmmlib/frustum_culler.hpp:setup", "vmmlib/vector.hpp:compute_plane"]}
{"id": "C108", "title": "set_random is the affine image of the random sequence", "statement": "set_random(seed) of a vector or matrix writes 2 r/RAND_MAX - 1 for consecutive rand() values r, one per component (matrices row by row): 0 becomes -1, RAND_MAX becomes 1, every value lies in [-1,1], and the result depends only on the sequence.", "quantifier": "all sizes, seeds, previous contents and random generators", "why_tests_cant": "The generator is arbitrary; a test sees one sequence.", "anchors": ["vmmlib/vector.hpp:set_random", "vmmlib/matrix.hpp:set_random"]}
{"id": "C109", "title": "A frustum holds the six values it was made from", "statement": "Default construction, construction from six numbers, from an array, by copy, assignment (also to itself) and set() store exactly the six given values under their names; DEFAULT is (-1,1,-1,1,0.1,100).", "quantifier": "all element types, values and previous contents", "why_tests_cant": "Quantifies over all values.", "anchors": ["vmmlib/frustum.hpp:Frustum", "vmmlib/frustum.hpp:set", "vmmlib/frustum.hpp:operator="]}
{"id": "C110", "title": "Comparison helpers and free functions", "statement": "abs_less/abs_greater order by absolute value, util equals compares with the float epsilon, and the free functions equals, factor*vector and dot agree with the members.", "quantifier": "all arguments, over the reals", "why_tests_cant": "Quantifies over all arguments.", "anchors": ["vmmlib/math.hpp:abs_less", "vmmlib/util.hpp:equals", "vmmlib/vector.hpp:dot"]}
{"id": "C111", "title": "Culling in world coordinates", "statement": "With setup(projection*modelview) for a perspective or orthographic projection and any invertible affine modelview matrix, a ball or box given in world coordinates is reported NONE only if the modelview matrix moves none of its points into the interior of the view volume, and FULL only (for boxes exactly) if it moves all of them into the view volume.", "quantifier": "all frusta, invertible affine matrices, balls and boxes, over the reals", "why_tests_cant": "Quantifies over all view matrices and all points of the object.", "anchors": ["vmmlib/frustum_culler.hpp:setup", "vmmlib/frustum_culler.hpp:test_sphere", "vmmlib/frustum_culler.hpp:test_aabb", "vmmlib/frustum.hpp:compute_matrix"]}
{"id": "C112", "title": "Every call on objects of the right sizes returns", "statement": "On objects of the sizes its template parameters demand, with in-range indices where it takes any, every modelled member or free function of vectors, matrices, quaternions, boxes, frusta, cullers, rays, the QR decomposition, the low-pass filter and the stream operators returns normally: it never reads or writes outside an array and throws no exception, whatever the elements are (NaN and infinities included), also when an operand is the object being written, in the checked and in the unchecked build; and the objects it leaves behind have the right sizes again.", "quantifier": "all sizes, all element types with a total division and square root (all element types for calls that use neither), all contents, both builds, operands that are other objects or the object itself", "why_tests_cant": "An out-of-bounds access inside nested loops may depend on the template sizes and on the data-dependent branches taken; tests run a few sizes and contents.", "anchors": ["vmmlib/vector.hpp", "vmmlib/matrix.hpp", "vmmlib/quaternion.hpp", "vmmlib/aabb.hpp", "vmmlib/frustum.hpp", "vmmlib/frustum_culler.hpp", "vmmlib/intersection.hpp", "vmmlib/qr_decomposition.hpp", "vmmlib/lowpass_filter.hpp"]}
{"id": "C113", "title": "With the checks on, a bad index is an exception and never memory corruption", "statement": "In the checked build at(), operator(), get_row/set_row, get_column/set_column (vector and out-parameter forms), get_sub_matrix and assignment from a std::vector return when their index, offset or length fits and throw when it does not; for no index or offset value, not even one for which offset + size wraps around in size_t, do they touch memory outside the objects.", "quantifier": "all sizes, all index and offset values representable in size_t, all contents", "why_tests_cant": "There are 2^64 offsets and infinitely many sizes; the wrap-around cases are single values.", "anchors": ["vmmlib/matrix.hpp: at, get_row, set_row, get_column, set_column, get_sub_matrix, operator=( const std::vector< T >& )", "vmmlib/vector.hpp: at"]}
{"id": "C114", "title": "A set_sub_matrix call that throws leaves the matrix as it was", "statement": "When set_sub_matrix is called with an offset at which the sub-matrix does not fit, the checked build throws and the matrix is unchanged.", "quantifier": "all sizes, offsets and contents", "why_tests_cant": "The state after an exception depends on where in the double loop it is thrown, for every size and offset.", "anchors": ["vmmlib/matrix.hpp: set_sub_matrix"]}
{"id": "C115", "title": "Reading malformed or truncated text", "statement": "When a vector or matrix is read from a stream whose text ends or stops being numeric after k numbers, exactly the first k elements (row by row for a matrix) take the values read, the elements after the k-th keep their old values and the stream is left in the fail state, so the caller can detect it; reading from a stream that had already failed changes nothing.", "quantifier": "all sizes, all k, all values, all malformed remainders", "why_tests_cant": "Malformed input can stop at any element and with any garbage.", "anchors": ["vmmlib/matrix.hpp: read_from_stream, operator>>", "vmmlib/vector.hpp: operator>>"]}
{"id": "C116", "title": "length() and normalize() are accurate in double precision", "statement": "For a vector of finite doubles whose components are at most 2^500 in magnitude, whose true Euclidean length is at least 2^-450 and whose dimension is at most 2^20, length() returns a finite double whose relative error is at most (n+1) 2^-52; normalize() returns that same length, leaves every component within a relative error of (n+3) 2^-52 (plus 2^-1075) of the true quotient, and the resulting vector's true length differs from 1 by at most (n+4) 2^-52.", "quantifier": "every dimension n <= 2^20 and every vector of finite IEEE-754 binary64 values in the stated range", "why_tests_cant": "The bound is over all 2^64n bit patterns and over all dimensions, with every intermediate rounding.", "anchors": ["vmmlib/vector.hpp: vector::length, vector::squared_length, vector::normalize, operator*=( scalar )"]}
{"id": "C117", "title": "normalize() yields a unit vector for every finite non-zero double vector", "statement": "After normalize() on any finite non-zero vector of doubles the vector has length 1 (up to rounding). This is false of the code: the squared length overflows or underflows, so (2^664,0,0) becomes the zero vector with reported length infinity and (2^-663,0,0) is left unchanged with reported length 0.", "quantifier": "every finite non-zero vector of doubles", "why_tests_cant": "The failing inputs are in the extremes of the exponent range, which tests with ordinary values never reach; a positive claim needs all of them.", "anchors": ["vmmlib/vector.hpp: vector::normalize, vector::length, vector::squared_length"]}
{"id": "C118", "title": "Double-precision results do not depend on the order of the operands", "statement": "For vectors and matrices of arbitrary doubles (infinities and NaNs included): u.dot(v) and v.dot(u), u.distance(v) and v.distance(u), u+v and v+u, element-wise products, matrix sums, and the transpose of a product versus the product of the transposes in reverse order are identical bit for bit (all NaNs counted as one).", "quantifier": "every dimension and every vector/matrix of IEEE-754 binary64 values", "why_tests_cant": "Floating-point addition is not associative, so identity to the last bit depends on the order of every operation and must hold for all bit patterns and sizes.", "anchors": ["vmmlib/vector.hpp: dot, distance, squared_distance, operator+, operator*", "vmmlib/matrix.hpp: operator*, transpose, operator+"]}
{"id": "C119", "title": "Changing signs changes signs exactly, in double precision", "statement": "For arbitrary doubles: negating a vector leaves length() and squared_length() unchanged bit for bit and negates every dot product exactly (as a number); a x b is exactly minus b x a in each component; a x a has components 0 (or NaN if a product overflowed).", "quantifier": "every dimension and all vectors of doubles", "why_tests_cant": "A statement about every bit pattern, including infinities, signed zeros and overflowing intermediate products.", "anchors": ["vmmlib/vector.hpp: operator-, negate, dot, length, cross"]}
{"id": "C120", "title": "Multiplying with IDENTITY changes no finite double", "statement": "For a matrix or vector of finite doubles, IDENTITY * m, m * IDENTITY and IDENTITY * v have exactly the numbers of m, m and v in every cell (negative zeros become zeros). If a cell is infinite or NaN, every other cell of its column becomes NaN.", "quantifier": "every size and all finite cells (first part); every non-finite cell (second part)", "why_tests_cant": "All cell values and all sizes; the exactness of sums with zeros depends on rounding.", "anchors": ["vmmlib/matrix.hpp: operator*( Matrix ), operator*( Vector ), IDENTITY"]}
{"id": "C121", "title": "length() is never NaN or negative and is monotone, in double precision", "statement": "For every vector of doubles without a NaN, squared_length() and length() are numbers >= 0 or +infinity; and if every component of v is at most the corresponding component of w in absolute value, then length(v) <= length(w) as computed.", "quantifier": "every dimension, all vectors of doubles (infinities included)", "why_tests_cant": "Monotonicity of the rounded result must hold for every pair of vectors.", "anchors": ["vmmlib/vector.hpp: length, squared_length"]}
{"id": "C122", "title": "The accuracy bounds and exact laws also hold for float vectors and matrices", "statement": "For T = float: finite dot products and matrix product cells have error at most ((1+2^-24)^n - 1) sum|x_i y_i| + n 2^-150 (1+2^-24)^n; length() has relative error at most (n+1) 2^-23 and normalize() gives every component to (n+3) 2^-23 relative (plus 2^-150) and a vector of length 1 up to (n+4) 2^-23, for components of at most 2^50, length at least 2^-50, n at most 1024; dot and distance are symmetric, sums commute, (AB)^T = B^T A^T, negation symmetries, a x b = -(b x a), length is never NaN or negative and is monotone, and IDENTITY changes no finite float - all exactly.", "quantifier": "every dimension (up to 1024 for length and normalize) and all float vectors and matrices in the stated range", "why_tests_cant": "Bounds and exact laws over all float inputs and sizes.", "anchors": ["vmmlib/vector.hpp: dot, length, normalize, cross, distance", "vmmlib/matrix.hpp: multiply, operator*, transpose, IDENTITY"]}
{"id": "C123", "title": "1.0 / x stored in a float is correctly rounded although it is rounded twice", "statement": "normalize() of a float vector, operator/ of a float quaternion and the culler's plane normalization divide the double 1.0 by a float and store the double quotient in a float. For every float x (zeros, infinities, NaN, subnormals) the result is the same bit pattern as the single-precision quotient 1.0f / x (NaNs identified), so normalize() on floats equals normalize() computed in single precision throughout.", "quantifier": "every float x; every float vector of every dimension", "why_tests_cant": "Double rounding is wrong for general operations; that it is innocuous here is a statement about all 2^32 inputs and depends on a number-theoretic gap argument.", "anchors": ["vmmlib/vector.hpp: normalize", "vmmlib/quaternion.hpp: operator/", "vmmlib/frustum_culler.hpp: _normalize_plane"]}
{"id": "C124", "title": "norm() of a float vector is accurate to 2^-23 whatever the dimension", "statement": "norm() returns a double: squares are float products, the sum and the root are double. For float vectors with components of at most 2^50, length at least 2^-50 and at most 1024 components the relative error of norm() is at most 2^-23, independent of the number of components (unlike length()).", "quantifier": "every float vector in the stated range", "why_tests_cant": "An error bound over all inputs.", "anchors": ["vmmlib/vector.hpp: norm"]}
{"id": "C125", "title": "Culling verdicts computed in double are right except within a rounding margin of a plane", "statement": "test_sphere and test_aabb of a double frustum_culler whose planes, centre, radius and spans are at most 2^400 in magnitude return normally, and: NONE implies some plane has the whole sphere (box) behind it up to a margin of 5 half-ulps of the terms of n.c+d (for the box: of the terms at the middle and of the extent); FULL implies every point of the sphere (box) is in front of every plane up to that margin; conversely a sphere (box) farther than the margin behind a plane is always reported NONE, and one farther than the margin in front of all planes always FULL. So nothing visible by more than the margin is culled.", "quantifier": "every sane double culler (not only ones made by setup), every sphere, every box", "why_tests_cant": "The verdict compares rounded quantities; a sweep of examples cannot bound the worst rounding over all planes and volumes.", "anchors": ["vmmlib/frustum_culler.hpp: test_sphere, test_aabb, _test_aabb"]}
{"id": "C126", "title": "What the output operators print, character by character", "statement": "operator<< of a vector prints '[ ', every element right-adjusted in a field of 10 with precision 5 and followed by a blank, and ']'; a matrix prints one line per row, '|', such fields, '|' and a newline; a frustum, a box, a quaternion and a Visibility print their documented shapes. When every element fits its field the columns of a printed matrix line up: line i is the 11N+3 characters from (11N+3)i on and element (i,j) is the ten characters from 11j+1 on; ints line up exactly if they have at most ten characters. write_csv_file puts exactly that text and one empty line into the file named by directory, one '/', name and '.csv' unless the name ends in 'csv'. The printed form of a vector cannot be read by read_from_stream.", "quantifier": "every element formatter, every size, every contents, every stream format (width 0 where stated)", "why_tests_cant": "Sample prints show a few shapes; the claim is about every size and every number, including those that just fill or just overflow a field.", "anchors": ["vmmlib/vector.hpp: operator<<", "vmmlib/matrix.hpp: operator<<, write_csv_file", "vmmlib/frustum.hpp: operator<<", "vmmlib/quaternion.hpp: operator<<", "vmmlib/aabb.hpp: operator<<", "vmmlib/frustum_culler.hpp: operator<<"]}
{"id": "C127", "title": "The double quaternion product is accurate, keeps lengths multiplicative, but is not exact for the identity", "statement": "For double quaternions with components of at most 2^400, p * q returns finite components, each within 70 half-ulps of |p||q| (plus 40 half minimal subnormals) of the exact Hamilton product; if |p||q| >= 2^-900 the length of the result differs from |p||q| by at most 141 half-ulps of it. Multiplying by Quaternion::IDENTITY returns the other quaternion unchanged.", "quantifier": "every pair of double quaternions in range", "why_tests_cant": "A rounding bound over all inputs; the eight-multiplication scheme cancels, so sampled errors look far smaller than the worst case.", "anchors": ["vmmlib/quaternion.hpp: operator*( const Quaternion& ), operator*=, IDENTITY"]}
{"id": "C128", "title": "Rotations accumulated with *= drift at most linearly", "statement": "Multiplying a double quaternion in place by n others (q *= r, n up to 2^40), where every factor and every exact partial product has length between 2^-300 and 2^300, ends within 282 n half-ulps of the exact product relative to its length; in particular n unit rotations leave |q| within 282 n 2^-53 of 1.", "quantifier": "every starting quaternion, every sequence of factors of every length", "why_tests_cant": "An induction over arbitrarily long histories of roundings.", "anchors": ["vmmlib/quaternion.hpp: operator*="]}
{"id": "C129", "title": "The double rotation matrix of a quaternion is accurate", "statement": "getRotationMatrix of a double quaternion with components of at most 2^400 has finite entries, each within 5 half-ulps of |q|^2 (plus 8 half minimal subnormals) of the matrix of v -> q v q*.", "quantifier": "every double quaternion in range", "why_tests_cant": "A rounding bound over all inputs.", "anchors": ["vmmlib/quaternion.hpp: get_rotation_matrix"]}
{"id": "C130", "title": "Frustum culling in double, from the matrix to the verdict", "statement": "For a double projection-modelview matrix with elements of at most 2^150 whose six exact clip faces have normals of length at least 2^-150, setup() succeeds and every stored plane component is the component of the exact unit face plane up to 15 half-ulps. For every sphere and every box of doubles up to 2^400, the verdict is then the exact one up to a margin of 21 (sphere) or 26 (box) half-ulps of the terms of the signed distance to the exact face: NONE implies the whole volume is behind one exact face up to the margin, FULL implies it is in front of all of them up to the margin, anything reaching into the exact clip volume by more than the margin is never culled, and volumes behind a face or in front of all faces by more than the margin are reported NONE and FULL.", "quantifier": "every double matrix, sphere and box in range", "why_tests_cant": "The verdict depends on every rounding in setup and test; only an analysis over all inputs bounds the worst case.", "anchors": ["vmmlib/frustum_culler.hpp: setup, _normalize_plane, test_sphere, test_aabb"]}
{"id": "C131", "title": "Raw files of elements whose size does not divide 2^31", "statement": "write_to_raw followed by read_from_raw restores the matrix for every element size. (False: when the matrix is larger than one chunk of 2^31 - sizeof(T) bytes and the first chunk is not a whole number of elements, the remaining length wraps below zero and every element is taken from the first few bytes of the file followed by the uninitialised buffer; the rest of the file is ignored.)", "quantifier": "every element type, matrix size, file and buffer contents", "why_tests_cant": "The failure needs a matrix of more than 2 GiB and an element size such as 12 bytes; no unit test allocates it.", "anchors": ["vmmlib/matrix.hpp: read_from_raw"]}
{"id": "C132", "title": "The version macros order versions", "statement": "VMMLIB_VERSION_GT/GE/LT/LE compare versions as the numbers with the components as digits compare, for every base larger than the components; GE and LE are the negations of LT and GT, both hold exactly for the same version.", "quantifier": "every library version, every version compared with", "why_tests_cant": "A nested boolean formula over six unbounded numbers; a test only sees the configured version.", "anchors": ["vmmlib/version.in.hpp: VMMLIB_VERSION_GT, VMMLIB_VERSION_GE, VMMLIB_VERSION_LT, VMMLIB_VERSION_LE"]}
{"id": "C133", "title": "Iterators, pointers and forwarding functions", "statement": "A loop from begin() to end() terminates and is the index loop over all elements in storage order, for every loop body (also one that throws midway); begin() + c*M + r is the element (r, c) for reading and writing; element k is the cell in row k mod M of column k / M; end() - begin() is rows times columns; the pointer conversion points to the same element. The free multiply() and equals(), the static dot() of quaternions and the OSG constructor do what the members do.", "quantifier": "every shape, contents, element type, loop body", "why_tests_cant": "The claim is about every shape and every loop body.", "anchors": ["vmmlib/matrix.hpp: begin, end, size, operator T*, get_number_of_rows, multiply, equals", "vmmlib/vector.hpp: begin, end, size, Vector( OSGVEC3 )", "vmmlib/quaternion.hpp: dot"]}
{"id": "C134", "title": "Tolerance comparisons in double", "statement": "equals( other, tol ) on double vectors and matrices is sound despite rounding: if it returns true, every exact difference is below the tolerance; if every exact difference is below (1 - 2^-53) tol, it returns true; the vector comparison is symmetric. A vector equals itself for every positive tolerance even if it holds NaN or infinities; a matrix equals itself exactly if all its cells are finite.", "quantifier": "every size, all finite doubles including subnormals and differences that overflow, every tolerance; for the comparison with itself also NaN and infinities", "why_tests_cant": "The boundary between near-equal and different values is one rounding error wide; a test cannot enumerate the pairs of doubles around it.", "anchors": ["vmmlib/vector.hpp: equals", "vmmlib/matrix.hpp: equals"]}
{"id": "C135", "title": "Box membership in double is exact and survives scaling", "statement": "AABB<double>::isIn decides exact closed membership for all coordinates other than NaN (infinities included). A point of a box stays in it when box and point are both scaled by the same non-negative factor or shifted by the same amount, although each coordinate is rounded and may overflow.", "quantifier": "every box, point and scalar of finite doubles (isIn: all except NaN)", "why_tests_cant": "Rounding could push a point over a face for some rare combination of coordinates; only monotonicity of rounding rules it out.", "anchors": ["vmmlib/aabb.hpp: isIn, operator*, operator+, operator-"]}
{"id": "C136", "title": "The centre of a box of doubles is in the box", "statement": "getCenter() of a box of finite doubles is in the box, and within 4 half-ulps of the midpoint; isIn rejects points that are not points (NaN). (False when an edge exceeds the largest double: the centre is infinite and outside; and a NaN point is in every box. True when the edges do not overflow.)", "quantifier": "every box of finite doubles", "why_tests_cant": "The failing boxes are the extreme ones; the containment for the others depends on every pair of rounded operations.", "anchors": ["vmmlib/aabb.hpp: getCenter, isIn"]}
{"id": "C137", "title": "Projection matrices in double are accurate", "statement": "Every entry of the perspective and orthographic projection matrix computed in double is within four half-ulps (relative 4*2^-53, plus 2^-1075 absolute) of the entry computed exactly from the same six numbers; in particular nothing overflows.", "quantifier": "every frustum with |l|,|r|,|b|,|t|,|n|,|f| <= 2^300 and differences, near and far at least 2^-300 in absolute value", "why_tests_cant": "A test compares a few frusta with a tolerance; the bound must hold for each.", "anchors": ["vmmlib/frustum.hpp: compute_matrix, compute_ortho_matrix"]}
{"id": "C138", "title": "Distances in double are accurate", "statement": "distance() and squared_distance() of double vectors of n components have relative error at most (n+2) 2^-52 and (n+3) 2^-52; the distance of a finite vector to itself is exactly 0.", "quantifier": "every n <= 2^20, components up to 2^499 in absolute value, distance at least 2^-449", "why_tests_cant": "The bound is for all dimensions and all component values.", "anchors": ["vmmlib/vector.hpp: distance, squared_distance"]}
{"id": "C139", "title": "Cross products in double are accurate and orthogonal", "statement": "Each component of cross( a, b ) in double is within 3*2^-53 of the exact one relative to the two products it subtracts, and the scalar products of the result with a and with b vanish up to the same relative error.", "quantifier": "all finite components up to 2^500 in absolute value, subnormals included", "why_tests_cant": "Cancellation makes the worst cases rare inputs.", "anchors": ["vmmlib/vector.hpp: cross"]}
{"id": "C140", "title": "The ray-sphere test in double decides correctly away from tangency", "statement": "For a ray and sphere of doubles (coordinates and radius up to 2^200, direction length between 2^-450 and 2^500) whose squared centre distance and squared line distance both differ from the squared radius by more than 64*2^-53 (D^2 + r^2) + 2^-1069, Intersection::test_sphere returns true exactly if the exact ray hits the exact sphere, and then t is within an explicit rounding bound of the distance of the first hit in front of the origin; on a miss t is left alone.", "quantifier": "every ray and sphere in the range and outside the margin", "why_tests_cant": "The decision compares rounded quantities that cancel; only an error analysis over all inputs shows how near to tangency the answer can be trusted.", "anchors": ["vmmlib/intersection.hpp: Intersection, test_sphere"]}
{"id": "C141", "title": "Numeric limits and the default tolerance", "statement": "max() and lowest() bound every finite double and float, epsilon() is the gap above 1 (no number lies between 1 and 1 + epsilon(), and 1 + epsilon() is one). Vector::equals with its default tolerance accepts only components closer than 2^-52, accepts equal components, and on components of absolute value at least 1 it is plain equality.", "quantifier": "every double and float; vectors of every size", "why_tests_cant": "The statements are about all doubles.", "anchors": ["vmmlib/vector.hpp: equals", "vmmlib/aabb.hpp: reset, setEmpty", "vmmlib/matrix.hpp: get_min"]}
{"id": "C142", "title": "Perspective camera to culling verdict in double", "statement": "For six doubles left, right, bottom, top, near, far of a perspective camera (near in 2^-40..2^40, the others and the extents within a factor 2^40 of near) the chain compute_matrix, frustum_culler::setup, test_sphere / test_aabb in double never fails, and judged against the exact frustum of the six numbers: VISIBILITY_NONE only if all of the sphere (box) is behind one exact side up to an explicit margin of 40 units in the 53rd bit times the aspect of that side; VISIBILITY_FULL only if all of it is in front of every side up to the margin; beyond the margin the verdict is the exact one; an object with a point deeper inside than the margins is never culled.", "quantifier": "every camera in the range and every sphere and box with coordinates up to 2^400", "why_tests_cant": "It is a claim about the accumulated rounding of a whole pipeline over all cameras and objects; a test sees a few cameras.", "anchors": ["vmmlib/frustum.hpp: compute_matrix", "vmmlib/frustum_culler.hpp: setup, test_sphere, test_aabb"]}
{"id": "C143", "title": "Orthographic camera to culling verdict in double", "statement": "The orthographic matrix of six doubles of at most 2^39 with extents of at least 2^-40 (near and far may be zero or negative) has every cell within 4 units in the 53rd bit of the exact cell; the chain compute_ortho_matrix, setup, test_sphere / test_aabb in double never fails and its verdict agrees with the exact box left <= x <= right, bottom <= y <= top, -far <= z <= -near up to 40 units in the 53rd bit of the coordinates involved, in the same five senses as C142.", "quantifier": "every orthographic camera in the range and every sphere and box with coordinates up to 2^400", "why_tests_cant": "As C142.", "anchors": ["vmmlib/frustum.hpp: compute_ortho_matrix", "vmmlib/frustum_culler.hpp: setup, test_sphere, test_aabb"]}
{"id": "C144", "title": "set_random() in double and float", "statement": "set_random( seed ) of a vector or matrix of doubles or floats stores finite numbers in [-1, 1]: a draw of 0 gives exactly -1, a draw of RAND_MAX exactly 1, larger draws never give smaller numbers, every cell is within 2^-50 (double) or 2^-23 (float) of the exact affine image of its draw, and different draws give different doubles. The k-th draw goes to the k-th component, row by row in a matrix, and exactly as many draws are consumed as there are cells.", "quantifier": "every sequence of rand() values in [0, RAND_MAX], every RAND_MAX below 2^31, every size and seed, all rounding errors", "why_tests_cant": "A test sees one sequence; that no draw leaves [-1,1] after three roundings must hold for each of 2^31 draws and every RAND_MAX.", "anchors": ["vmmlib/vector.hpp:set_random", "vmmlib/matrix.hpp:set_random"]}
{"id": "C145", "title": "Float matrices accumulate in double", "statement": "For matrices of floats: sum_elements() has relative error at most 2 MN 2^-53 (relative to the sum of absolute values) for any finite cells, and is exact if the cells are multiples of a common power of two whose multiples sum up to less than 2^53; frobenius_norm() has relative error at most 2^-23 whatever the size (up to 1024 cells, magnitudes up to 2^50); every cell of convolve() with a square kernel is within 2^-22 of the exact convolution relative to the convolution of absolute values (plus 2^-138).", "quantifier": "all float matrices and kernels of any size (bounds stated), all rounding errors", "why_tests_cant": "Error bounds range over all inputs; tests only compare a few results with a tolerance.", "anchors": ["vmmlib/matrix.hpp:sum_elements", "vmmlib/matrix.hpp:frobenius_norm", "vmmlib/matrix.hpp:convolve"]}
{"id": "C146", "title": "Determinants, cofactors and adjugates in double and float", "statement": "For 1x1 to 4x4 matrices of doubles with finite cells of at most 2^k, k <= 250 (floats: k <= 26), det() returns a finite number that differs from the determinant of the given cells by at most 1, 3, 6, 27 units of rounding (2^-53 resp. 2^-24) times the sum of the absolute values of all terms of the determinant, plus 2^(3k-1045) (2^(3k-120)). The cells of get_cofactors() and the transposed cells of get_adjugate() of 2x2 to 4x4 double matrices are the signed minors with the same kind of bound for the size below.", "quantifier": "all matrices of these sizes and magnitudes, all rounding and underflow errors, checks compiled in or not", "why_tests_cant": "The worst rounding over all cells is not reached by samples; a test with a fixed tolerance passes for well-scaled matrices whatever the order of the terms.", "anchors": ["vmmlib/matrix.hpp:compute_determinant", "vmmlib/matrix.hpp:det", "vmmlib/matrix.hpp:get_minor", "vmmlib/matrix.hpp:get_cofactors", "vmmlib/matrix.hpp:get_adjugate"]}
{"id": "C147", "title": "Inverses in double and float", "statement": "For 2x2 to 4x4 matrices with finite cells of at most 2^100 (floats: 2^20) and a finite tolerance: inverse() fails if the tolerance exceeds the absolute determinant D by more than 2^-49 P (2^-20 P) plus a negligible constant, where P is the sum of the absolute values of the terms of the determinant, and succeeds if D exceeds the tolerance by that much; and whenever it succeeds on a matrix with P <= 2^45 D and D >= 2^-300 (2^16, 2^-30), all cells of the result are finite and within 2^-48 (P/D)(P_ij/D) (2^-19) of the true inverse, P_ij being the sum of the absolute values of the terms of the corresponding minor.", "quantifier": "all matrices, previous output contents and tolerances in these ranges, all rounding and underflow errors", "why_tests_cant": "Which matrices are accepted near the tolerance and how far the cells drift for ill-conditioned ones is a statement about every input.", "anchors": ["vmmlib/matrix.hpp:compute_inverse", "vmmlib/matrix.hpp:inverse"]}
{"id": "C148", "title": "Chains of matrix products of any length in double", "statement": "Accumulating k products of n x n double matrices one after another, through operator* or through operator*=, gives the same cells, and if the final matrix has only finite cells then every matrix involved has, and each cell differs from the exact product of the given matrices by at most ((1+2^-53)^(nk) - 1) times the same cell of the product of the absolute values plus the accumulated underflow loss (at most n 2^-1075 per product, propagated through the remaining factors). The same holds for applying k matrices to a vector in turn. For nk <= 2^52 the factor is at most 2nk 2^-53: accuracy degrades linearly in the length of the chain.", "quantifier": "all sizes n, all chain lengths k, all cells including non-finite ones, checks compiled in or not", "why_tests_cant": "The length of the chain and the worst accumulation of rounding over all cells are unbounded; overflow anywhere inside the chain must be visible at the end.", "anchors": ["vmmlib/matrix.hpp:operator*", "vmmlib/matrix.hpp:operator*=", "vmmlib/matrix.hpp:multiply"]}
{"id": "C149", "title": "QR decomposition in double: backward error", "statement": "For every M x N double matrix A with N <= M, qr_decompose_gram_schmidt returns; R is upper triangular and the columns of Q beyond N are zero. If no cell of Q and R is infinite or NaN then A had only finite cells, the diagonal of R is positive, and every cell of Q R equals the cell of A up to ((1+2^-53)^(N+1) - 1) times (|A| + |Q||R|) in that cell plus a multiple of 2^-1075, independently of how ill-conditioned A is; and every column of Q whose diagonal cell of R lies in [2^-400, 2^400] has length 1 up to (M+3) 2^-52 (M <= 2^20).", "quantifier": "all shapes N <= M, all cells including non-finite ones, all rounding, underflow and overflow behaviour", "why_tests_cant": "The bound has to hold for the worst rounding over all matrices, including nearly dependent columns where every digit of the intermediate vectors is noise.", "anchors": ["vmmlib/qr_decomposition.hpp:qr_decompose_gram_schmidt"]}
{"id": "C150", "title": "QR decomposition in double: orthogonality", "statement": "The columns of Q computed in double are orthogonal up to rounding whenever the columns of A are linearly independent.", "quantifier": "all double matrices with linearly independent columns", "why_tests_cant": "Random well-conditioned matrices never show the loss of orthogonality.", "anchors": ["vmmlib/qr_decomposition.hpp:qr_decompose_gram_schmidt"]}
{"id": "C151", "title": "Homogeneous transforms in double", "statement": "Transforming an n-component point by an (n+1)x(n+1) double matrix: if all values are finite and at most 2^200, n <= 2^20, and the exact w of m*(v,1) is at least 2^-400 and at least twice its own rounding bound E_w, then every component of the result is finite and differs from the exact h_i/w by at most (1+2^-53) 2 (E_i + |h_i/w| E_w)/|w| + 2^-53 |h_i/w| + 2^-1075, where E_i = ((1+2^-53)^(n+1) - 1) times row i with absolute values, plus underflow. If the last row is (0,...,0,1) the division adds no error at all: every finite component is within E_i of the exact affine image, for all magnitudes.", "quantifier": "all n, matrices, points in range; all finite values for affine matrices", "why_tests_cant": "Small w and cancellation inside w make the error arbitrarily large; only a bound over all inputs says when the result can be trusted.", "anchors": ["vmmlib/matrix.hpp:operator*( Vector< O, T > )"]}
{"id": "C152", "title": "Low-pass filter in double and float", "statement": "For a filter of doubles, floats, double vectors or float vectors with window 0 < M <= 2^20: after any history of additions and factor changes, if the current factor is a float in [0,1] and the last M values are finite and at most B in magnitude, add() returns a finite value (and get() reports it) that differs from the exact weighted mean of the last M values by at most (10 M + 3 M^2) 2^-53 B in double, (3 M 2^-24 + 3 M^2 2^-53) B for float and (11 M 2^-24 + 3 M^2 2^-53) B for float vectors, whose weights are rounded to float as well. The exact mean lies between the smallest and the largest of those values.", "quantifier": "all windows, histories, factors in [0,1], values and vector dimensions; 2^-900 <= B <= 2^1000 (double), 2^-100 <= B <= 2^100 (float)", "why_tests_cant": "The error accumulates over the window with weights that depend on the factor; a test fixes one window, factor and history.", "anchors": ["vmmlib/lowpass_filter.hpp:LowpassFilter::add", "vmmlib/lowpass_filter.hpp:LowpassFilter::set_smooth_factor", "vmmlib/vector.hpp:operator*"]}
{"id": "C153", "title": "Culling verdicts computed in float are right except within a rounding margin of a plane", "statement": "test_sphere and test_aabb of a FrustumCuller<float> whose planes, centre, radius and spans are at most 2^60 in magnitude return normally, and: NONE implies some plane has the whole sphere (box) behind it up to a margin of 5 (box: 10) float half-ulps of the terms of n.c+d (for the box: at the middle and of the extent); FULL implies every point of the sphere (box) is in front of every plane up to that margin; a sphere (box) farther than the margin behind a plane is always reported NONE, and one farther than the margin in front of all planes always FULL. The box bound holds both when fabs(float) resolves to the float overload and when it resolves to the C double function.", "quantifier": "every sane float culler (not only ones made by setup), every sphere, every box, both readings of fabs", "why_tests_cant": "The verdict compares rounded quantities; a sweep of examples cannot bound the worst rounding over all planes and volumes.", "anchors": ["vmmlib/frustum_culler.hpp: FrustumCuller<float>::test_sphere, test_aabb, _test_aabb"]}
{"id": "C154", "title": "Frustum culling in float, from the matrix to the verdict", "statement": "For a float projection-modelview matrix with elements of at most 2^40 whose six exact clip faces have normals of length at least 2^-16, setup() succeeds and every stored plane component is the component of the exact unit face plane up to 15 float half-ulps. For every sphere and every box of floats up to 2^60, the verdict is then the exact one up to a margin of 21 (sphere) or 26 (box) float half-ulps of the terms of the signed distance to the exact face: NONE implies the whole volume is behind one exact face up to the margin, FULL implies it is in front of all of them up to the margin, anything reaching into the exact clip volume by more than the margin is never culled, and volumes behind a face or in front of all faces by more than the margin are reported NONE and FULL.", "quantifier": "every float matrix, sphere and box in range, both readings of fabs", "why_tests_cant": "The verdict depends on every rounding in setup and test, some of them in double; only an analysis over all inputs bounds the worst case.", "anchors": ["vmmlib/frustum_culler.hpp: FrustumCuller<float>::setup, _normalize_plane, test_sphere, test_aabb"]}
{"id": "C155", "title": "Projection matrices in float are accurate", "statement": "Every entry of the perspective and orthographic projection matrix computed by Frustum<float> (the entries with a literal 2.0 have a double numerator and quotient that is rounded to float when stored) is within four float half-ulps (relative 4*2^-24, plus 2^-150 absolute) of the entry computed exactly from the same six numbers; in particular nothing overflows.", "quantifier": "every frustum of floats with |l|,|r|,|b|,|t|,|n|,|f| <= 2^40 and differences, near and far at least 2^-40 in absolute value", "why_tests_cant": "A test compares a few frusta with a tolerance; the bound must hold for each.", "anchors": ["vmmlib/frustum.hpp: Frustum<float>::compute_matrix, compute_ortho_matrix"]}
{"id": "C156", "title": "Perspective camera to culling verdict in float", "statement": "For six floats left, right, bottom, top, near, far of a perspective camera (near in 2^-15..2^8, the others and the extents within a factor 2^15 of near) the chain compute_matrix, frustum_culler::setup, test_sphere / test_aabb in float never fails, and judged against the exact frustum of the six numbers: VISIBILITY_NONE only if all of the sphere (box) is behind one exact side up to an explicit margin of 40 units in the 24th bit times the aspect of that side; VISIBILITY_FULL only if all of it is in front of every side up to the margin; beyond the margin the verdict is the exact one; an object with a point deeper inside than the margins is never culled.", "quantifier": "every camera in the range and every sphere and box with coordinates up to 2^60, both readings of fabs", "why_tests_cant": "It is a claim about the accumulated rounding of a whole pipeline over all cameras and objects, in the precision used for rendering; a test sees a few cameras.", "anchors": ["vmmlib/frustum.hpp: Frustum<float>::compute_matrix", "vmmlib/frustum_culler.hpp: FrustumCuller<float>::setup, test_sphere, test_aabb"]}
{"id": "C157", "title": "Orthographic camera to culling verdict in float", "statement": "The orthographic matrix of six floats of at most 2^14 with extents of at least 2^-15 (near and far may be zero or negative) has every cell within 4 units in the 24th bit of the exact cell; the chain compute_ortho_matrix, setup, test_sphere / test_aabb in float never fails and its verdict agrees with the exact box left <= x <= right, bottom <= y <= top, -far <= z <= -near up to 40 units in the 24th bit of the coordinates involved, in the same five senses as C156.", "quantifier": "every orthographic camera in the range and every sphere and box with coordinates up to 2^60, both readings of fabs", "why_tests_cant": "As C156.", "anchors": ["vmmlib/frustum.hpp: Frustum<float>::compute_ortho_matrix", "vmmlib/frustum_culler.hpp: FrustumCuller<float>::setup, test_sphere, test_aabb"]}
{"id": "C158", "title": "Out-parameter forms of the projection matrices overwrite the target completely", "statement": "frustum.compute_matrix( M ) and frustum.compute_ortho_matrix( M ) leave in M exactly the matrix that compute_matrix() and compute_ortho_matrix() return, independently of what M held before.", "quantifier": "every frustum, every previous content of M, every element type (and Frustum<float> with its double quotients)", "why_tests_cant": "A test uses a fresh identity matrix as target, which hides a missing write; the claim is about every previous content.", "anchors": ["vmmlib/frustum.hpp: compute_matrix( Matrix& ), compute_ortho_matrix( Matrix& )"]}
{"id": "C159", "title": "Tolerance comparisons in float decide the exact differences up to one rounding", "statement": "Vector<M,float>::equals( o, tol ) and Matrix<M,N,float>::equals( o, tol ) on finite data return a verdict; true implies that all component differences are below tol as real numbers, and differences below (1 - 2^-24) tol give true. The vector comparison is symmetric, and a vector or a finite matrix equals itself for every positive tolerance.", "quantifier": "all sizes, all finite float data, every finite tolerance", "why_tests_cant": "The claim ties the rounded difference to the real one for every pair of floats.", "anchors": ["vmmlib/vector.hpp: equals", "vmmlib/matrix.hpp: equals"]}
{"id": "C160", "title": "Float boxes: isIn is the exact comparison and scaling keeps points inside", "statement": "AABB<float>::isIn( p ) is true exactly if every coordinate lies between the corners as extended reals, and a point inside a box stays inside after box and point are scaled by the same non-negative float or shifted by the same float, whatever rounding or overflow occurs.", "quantifier": "all float boxes and points without NaN (isIn), all finite boxes, points and scalars (scaling)", "why_tests_cant": "Monotonicity of rounding is needed for every pair of floats, including results that overflow.", "anchors": ["vmmlib/aabb.hpp: isIn, operator*, operator+, operator-"]}
{"id": "C161", "title": "The centre of a float box lies in the box", "statement": "AABB<float>::getCenter() returns a finite point that the box accepts, within 4/2^24 of the larger corner coordinate of the true midpoint.", "quantifier": "all finite float boxes whose edges do not exceed the largest float; false for longer edges", "why_tests_cant": "The claim covers every pair of float corners, including the limits of the range.", "anchors": ["vmmlib/aabb.hpp: getCenter, getSize, isIn"]}
{"id": "C162", "title": "Evaluating a float operation in double does not change it", "statement": "For float operands +, -, *, /, sqrt, fabs, negation and the comparisons give the same result whether they are evaluated in float or in double and rounded back, so dot products, lengths, distances, tolerance comparisons, matrix products, quaternion lengths and the ray-sphere test do not depend on which overload of sqrt/fabs is found, on a double literal in a single float operation, or on per-operation evaluation in double.", "quantifier": "every pair of floats including infinities and NaN; every size and content of the vectors and matrices; every ray and sphere", "why_tests_cant": "Double rounding is a property of all 2^64 operand pairs.", "anchors": ["vmmlib/vector.hpp: dot, length, squared_distance, distance, equals", "vmmlib/matrix.hpp: multiply", "vmmlib/quaternion.hpp: abs", "vmmlib/intersection.hpp: test_sphere"]}
{"id": "C163", "title": "Quaternion<double>::is_akin decides component differences against delta", "statement": "Quaternion<double>::is_akin( q, delta ) is true exactly if no component differs by more than delta. (It calls fabsf, so the comparison passes through float and the claim holds only up to 2^-23 relative plus 2^-149 and for delta up to 2^127.)", "quantifier": "all finite double quaternions and tolerances", "why_tests_cant": "The loss shows only for tolerances near the float precision or outside the float range.", "anchors": ["vmmlib/quaternion.hpp: is_akin"]}
{"id": "C164", "title": "Distances of float vectors are accurate", "statement": "Vector<M,float>::distance and squared_distance of vectors whose distance is at least 2^-49 are finite and within (M+2)/2^23 and (M+3)/2^23 relative of the true values; the distance of a finite vector to itself is exactly zero.", "quantifier": "all M up to 1024, all finite components up to 2^49 in magnitude", "why_tests_cant": "Cancellation in the differences has to be bounded for every pair of vectors.", "anchors": ["vmmlib/vector.hpp: distance, squared_distance"]}
{"id": "C165", "title": "Float cross products are accurate and nearly orthogonal", "statement": "Vector<3,float>::cross gives components within 3/2^24 of the sum of the magnitudes of the two products (plus 3/2^150), and the result is orthogonal to both operands up to the matching bound.", "quantifier": "all float triples with components up to 2^60 in magnitude", "why_tests_cant": "Rounding error bounds quantify over all float inputs.", "anchors": ["vmmlib/vector.hpp: cross"]}
{"id": "C166", "title": "The float ray-sphere test is right outside an explicit margin", "statement": "For a Ray<float> built from an origin and a direction and a sphere whose margins |D^2-r^2| and |h^2-r^2| (D the distance of the origin to the centre, h that of the line to the centre) exceed 64/2^24 (D^2+r^2) + 2^-144, test() answers whether the real ray meets the real sphere, leaves t alone on a miss, and on a hit stores a finite t within 24/2^24 (D+r) + 2m/sqrt(r^2-h^2) + 2^-147 of the first intersection.", "quantifier": "all float rays and spheres with coordinates up to 2^25, direction components up to 2^50 and length at least 2^-50", "why_tests_cant": "The bound must hold for every float ray and sphere outside the margin.", "anchors": ["vmmlib/intersection.hpp: Ray, test_sphere"]}
{"id": "C167", "title": "Quaternion<float> products are accurate relative to the product of the lengths", "statement": "Each component of p*q is within 70/2^24 |p||q| + 40/2^150 of the real product, and the length of the product is |p||q| within 141/2^24 relative; components that are small against the length are lost even against IDENTITY.", "quantifier": "all float quaternions with components up to 2^60 (length claim: |p||q| at least 2^-110)", "why_tests_cant": "Error of a cancelling scheme over all pairs of float quaternions.", "anchors": ["vmmlib/quaternion.hpp: operator*, operator*=, IDENTITY"]}
{"id": "C168", "title": "Accumulated Quaternion<float> rotations drift at most linearly", "statement": "After multiplying by n float quaternions the result is within 282 n/2^24 relative of the real product, so unit quaternions stay unit up to 282 n/2^24.", "quantifier": "every start, every chain of up to 2^12 factors, lengths of factors and partial products in 2^-30..2^30", "why_tests_cant": "The claim ranges over every history of multiplications.", "anchors": ["vmmlib/quaternion.hpp: operator*="]}
{"id": "C169", "title": "The rotation matrix of a Quaternion<float> is close to the conjugation map", "statement": "Every cell of get_rotation_matrix() is within 5/2^24 |q|^2 + 8/2^150 of the matrix of v -> q v q*.", "quantifier": "all float quaternions with components up to 2^60", "why_tests_cant": "Rounding error of every cell over all float quaternions.", "anchors": ["vmmlib/quaternion.hpp: get_rotation_matrix"]}
{"id": "C170", "title": "Chains of float matrix products have an explicit forward error", "statement": "A chain of k float matrix products (by * or by *=, which agree bit for bit) or of k matrix-vector products differs from the real chain by at most ((1+2^-24)^(nk)-1) times the chain of absolute values plus an explicit underflow term, whenever the result is finite; a finite result implies finite operands.", "quantifier": "every size n, every number of factors, every float content", "why_tests_cant": "The claim ranges over every history of products of every length.", "anchors": ["vmmlib/matrix.hpp: operator*, operator*=, multiply"]}
{"id": "C171", "title": "The QR decomposition of float matrices has a small backward error", "statement": "qr_decompose on float matrices with at least as many rows as columns returns; R is upper triangular and the surplus columns of Q are zero; if no result cell is infinite or NaN then the input was finite, the diagonal of R is positive, and every cell of A - Q R is at most ((1+2^-24)^(N+1)-1)(|A|+|Q||R|) plus an underflow term; columns of Q have length 1 within (M+3)/2^23 when the diagonal cell is within 2^-40..2^40 and M is at most 2^10. If every column of A is at most K times as long as the corresponding diagonal cell of R, two columns of Q have inner product at most (8M+5N^2+18) K (2NK)^(j-1)/2^23. Without such a K they need not be orthogonal: independent columns exist for which two of them enclose 60 degrees.", "quantifier": "all sizes N <= M, all float contents, all initial contents of Q and R", "why_tests_cant": "The bound must hold for every float matrix of every size, however ill-conditioned.", "anchors": ["vmmlib/qr_decomposition.hpp: qr_decompose_gram_schmidt"]}
{"id": "C172", "title": "Homogeneous float transforms are accurate unless w cancels", "statement": "matrix * point for float data: if the real w is at least 2^-40 and at least twice its own rounding bound, the result is finite and each coordinate is within an explicit bound of h_i/h_w; affine matrices divide by exactly 1 and add no further error.", "quantifier": "all n up to 2^10, all float matrices and points with cells up to 2^30 (affine: any magnitude, finite results)", "why_tests_cant": "Error of a quotient of rounded sums over all float matrices and points.", "anchors": ["vmmlib/matrix.hpp: operator*( const vector< O, T >& ) const (homogeneous)"]}
{"id": "C173", "title": "rotate( angle, axis ) on double matrices is close to the true rotation", "statement": "If the platform's sin and cos are finite and within d of the true values at every finite argument (d at most 1/100) and the axis has length 1 within e (at most 1/100), then Matrix<4,4,double>::rotate( angle, axis ) returns a finite matrix whose upper left block differs from the rotation by the angle about the direction of the axis (Rodrigues' formula) by at most 3d + 6e + 16/2^53 per cell, whatever the matrix contained before; the last row and column are exactly those of the identity.", "quantifier": "all sin/cos of accuracy d, all finite angles, all finite double axes of length 1 within e, all previous matrix contents", "why_tests_cant": "Every angle, every almost-unit axis and every libm of the given accuracy.", "anchors": ["vmmlib/matrix.hpp: rotate( const TT angle, const vector< M-1, T >& axis )"]}
{"id": "C174", "title": "Long chains of rotate_x/rotate_y/rotate_z on double matrices drift slowly", "statement": "After any sequence of n calls of rotate_x, rotate_y, rotate_z with finite angles on a double matrix, if the result has no infinity or NaN, each row differs (in length) from the exact product of the start with the exact rotations by at most ((1+K)^n - 1) times the length of that row plus an underflow term, with K = 2d + 4.2/2^53 and d the accuracy of sin and cos. With cells up to 2^1000 and 2nK <= 1 nothing overflows and the drift is at most 2nK per unit length. If the rows were orthonormal at the start, their scalar products stay within 2E + E^2 of 0 resp. 1, E being that drift.", "quantifier": "all sequences of axes and finite angles of any length, all double start matrices, all sin/cos of accuracy d", "why_tests_cant": "Unbounded sequences of rotations with arbitrary angles.", "anchors": ["vmmlib/matrix.hpp: rotate_x, rotate_y, rotate_z"]}
{"id": "C175", "title": "rotate( angle, axis ) on float matrices is close to the true rotation", "statement": "As C173 for float: per cell at most 3d + 6e + 16/2^24.", "quantifier": "all sinf/cosf of accuracy d, all finite angles, all finite float axes of length 1 within e, all previous contents", "why_tests_cant": "Every angle, every almost-unit axis and every libm of the given accuracy.", "anchors": ["vmmlib/matrix.hpp: rotate( const TT angle, const vector< M-1, T >& axis )"]}
{"id": "C176", "title": "Long chains of rotate_x/rotate_y/rotate_z on float matrices drift slowly", "statement": "As C174 for float: K = 2d + 4.2/2^24; no overflow for cells up to 2^110; orthonormal rows stay orthonormal within the drift.", "quantifier": "all sequences of axes and finite angles of any length, all float start matrices, all sinf/cosf of accuracy d", "why_tests_cant": "Unbounded sequences of rotations with arbitrary angles.", "anchors": ["vmmlib/matrix.hpp: rotate_x, rotate_y, rotate_z"]}
{"id": "C177", "title": "Length, normalisation and inverse of double quaternions are accurate", "statement": "For every double quaternion with finite components up to 2^500 and length at least 2^-450: abs() is within 5/2^52 of the exact length (relative), normalize() returns the reciprocal of the length within 6/2^52 and leaves (as get_normalized() returns) the exact unit quaternion within 7/2^52 per component (plus underflow), of length 1 within 8/2^52; inverse() is the conjugate over the squared length within 6/2^52 per component (plus underflow). For lengths between 2^-300 and 2^300 the product of a quaternion with its inverse is the identity within 88/2^52.", "quantifier": "all double quaternions in the stated range", "why_tests_cant": "All quadruples of doubles in the range; rounding errors of adversarial inputs.", "anchors": ["vmmlib/quaternion.hpp: abs, squared_abs, normalize, get_normalized, inverse, operator*, operator*=( T )"]}
{"id": "C178", "title": "Length, normalisation and inverse of float quaternions are accurate", "statement": "As C177 for float: components up to 2^50 and length at least 2^-50; 5, 6, 7, 8 and 6 times 1/2^23; the product of a quaternion of length between 2^-30 and 2^30 with its inverse (computed by the code with its double literal 2.0) is the identity within 88/2^23.", "quantifier": "all float quaternions in the stated range", "why_tests_cant": "All quadruples of floats in the range; rounding errors of adversarial inputs.", "anchors": ["vmmlib/quaternion.hpp: abs, squared_abs, normalize, get_normalized, inverse, operator*, operator*=( T )"]}
{"id": "C179", "title": "Quaternions from inexact rotation matrices in double", "statement": "If the upper left 3x3 block of a double matrix is within e of the rotation matrix of a unit quaternion (x,y,z,w), Quaternion( M ) / set( M ) is finite and, for 4w^2 >= 1.02e-5 and e + 4/2^53 <= w^2/100, within 2(e + 4/2^53)/w^2 per component of +-(x,y,z,w). For 4w^2 <= 9.8e-6 and e <= 5e-8 it is within 7(e + 4/2^53) of +-(x,y,z,w) when y dominates and of +-(x,y,z,-w), i.e. the inverse rotation, when x or z does (the defect of C61). get_rotation_matrix() followed by set() returns a quaternion q of length 1 within d up to sign and 2(3d + 16/2^53)/w^2.", "quantifier": "all unit quaternions, all double matrices (3x3 and larger) within e of their rotation, all error bounds e in the stated range", "why_tests_cant": "All rotations and all perturbations; the error grows like 1/w^2 and the branches near the trace threshold are hardly ever tested.", "anchors": ["vmmlib/quaternion.hpp: set( Matrix ), Quaternion( Matrix ), get_rotation_matrix"]}
{"id": "C180", "title": "Quaternions from inexact rotation matrices in float", "statement": "As C179 for float, where the code mixes double literals into float expressions: for e + 4/2^24 <= w^2/100 the result is within 2(e + 4/2^24)/w^2 of +-(x,y,z,w); for 4w^2 <= 6e-6 and e <= 1e-6 within 7(e + 4/2^24) of +-(x,y,z,w) or +-(x,y,z,-w) as in C179; round trip within 2(3d + 16/2^24)/w^2; all this whichever sqrt (float or double) the unqualified call finds.", "quantifier": "all unit quaternions, all float matrices within e of their rotation, both meanings of sqrt", "why_tests_cant": "All rotations and perturbations and the implicit conversions.", "anchors": ["vmmlib/quaternion.hpp: set( Matrix ), get_rotation_matrix"]}
{"id": "C181", "title": "Extremal searches and clamp in double with NaN and infinities", "statement": "find_min/find_max and their index forms return component 0 if that is NaN; otherwise NaN components are ignored and the first component that is least (greatest) among the numbers, infinities included, is returned. get_min/get_max/get_abs_min/get_abs_max ignore NaN cells and return the extremum of the numbers, except that get_min and get_abs_min return the largest finite double when every number is +infinity (or there is none) and get_max returns 0 when no number is >= 0. clamp( lo, hi ) with lo <= hi moves each number into [lo, hi] exactly and leaves NaN components bit for bit as they are.", "quantifier": "all dimensions, all double vectors and matrices, NaN and infinities anywhere", "why_tests_cant": "The result depends on where among the components the NaNs are.", "anchors": ["vmmlib/vector.hpp: find_min, find_max, find_min_index, find_max_index, clamp", "vmmlib/matrix.hpp: get_min, get_max, get_abs_min, get_abs_max"]}
{"id": "C182", "title": "Boxes of doubles never pick up NaN coordinates", "statement": "After any history of merge( point ) and merge( box ) calls on a default AABB< double >, every bound is a number: the least (greatest) of the merged coordinates that are numbers, or the initial bound if there is none or only the infinity the bound cannot represent. Merging one point into any box changes exactly the bounds its coordinates violate; a NaN coordinate changes nothing.", "quantifier": "all merge histories, all double coordinates including NaN and infinities", "why_tests_cant": "Unbounded histories.", "anchors": ["vmmlib/aabb.hpp: merge, AABB()"]}
{"id": "C183", "title": "Extremal searches and clamp in float with NaN and infinities", "statement": "C181 for float vectors and matrices.", "quantifier": "all dimensions, all float vectors and matrices, NaN and infinities anywhere", "why_tests_cant": "The result depends on where among the components the NaNs are.", "anchors": ["vmmlib/vector.hpp: find_min, find_max, find_min_index, find_max_index, clamp", "vmmlib/matrix.hpp: get_min, get_max, get_abs_min, get_abs_max"]}
{"id": "C184", "title": "Boxes of floats never pick up NaN coordinates", "statement": "C182 for AABB< float >.", "quantifier": "all merge histories, all float coordinates including NaN and infinities", "why_tests_cant": "Unbounded histories.", "anchors": ["vmmlib/aabb.hpp: merge, AABB()"]}
{"id": "C185", "title": "Reciprocals and square roots of double vectors", "statement": "reciprocal() maps NaN to NaN, infinities to 0, zeros to infinities, numbers x with |x| > 2^-1024 to a finite double within |1/x|/2^53 + 2^-1075 of 1/x, and the (subnormal) numbers with 0 < |x| <= 2^-1024 to the infinity of their sign; reciprocal_safe() differs only in mapping zeros to the largest double, so it still produces infinities from subnormal components. reciprocal() twice returns every x with 2^-1021 <= |x| <= 2^1021 within 3/2^53 |x|. sqrt_elementwise() is within sqrt(x)/2^53 for every finite x >= 0 (never overflowing), maps +infinity to itself and NaN, -infinity and negative numbers to NaN.", "quantifier": "all dimensions, all double components", "why_tests_cant": "All doubles, with the exact threshold of overflow.", "anchors": ["vmmlib/vector.hpp: reciprocal, reciprocal_safe, sqrt_elementwise"]}
{"id": "C186", "title": "Reciprocals and square roots of float vectors", "statement": "C185 for float: threshold 2^-128, error |1/x|/2^24 + 2^-150, round trip for 2^-125 <= |x| <= 2^125 within 3/2^24 |x|, square roots within sqrt(x)/2^24.", "quantifier": "all dimensions, all float components", "why_tests_cant": "All floats, with the exact threshold of overflow.", "anchors": ["vmmlib/vector.hpp: reciprocal, reciprocal_safe, sqrt_elementwise"]}
{"id": "C187", "title": "compute_normal in double is accurate up to the thinness of the triangle", "statement": "For a triangle (a,b,c) of double vertices with coordinates at most 2^240 in magnitude, with N = (b-a) x (c-a) not shorter than 2^-400 and X = |b-a||c-a|/|N| at most 2^40, compute_normal returns a finite vector within 30*2^-53*X of N/|N|, of length within 7*2^-52 of one, whose dot product with either edge is at most 30*2^-53*X times the length of that edge, and whose dot product with N is positive (counter-clockwise side). Calling compute_normal on an object that is itself one of the three vertices gives the same result.", "quantifier": "all double vertices in the stated range, both index-check configurations, any previous contents of the target, and the three self-aliasing call forms", "why_tests_cant": "the error depends on nine coordinates and on how thin the triangle is; tests sample a few well-conditioned triangles", "anchors": ["vmmlib/vector.hpp: Vector<M,T>::compute_normal, cross, normalize"]}
{"id": "C188", "title": "Degenerate triangles: compute_normal in double", "statement": "If two of the three vertices coincide (coordinates at most 2^500), compute_normal in double returns exactly the null vector. For three distinct points of one line it does not: there are such points for which it returns the unit vector (0,0,-1), because the rounded edges are not parallel.", "quantifier": "all triangles of finite double vertices of at most 2^500 with two equal vertices; the refuted half exhibits collinear points", "why_tests_cant": "the first half ranges over all coordinates; the second needs particular roundings that a random test rarely hits with exactly collinear points", "anchors": ["vmmlib/vector.hpp: Vector<M,T>::compute_normal, cross, normalize"]}
{"id": "C189", "title": "compute_normal in float is accurate up to the thinness of the triangle", "statement": "As C187 for float: coordinates at most 2^20, |N| at least 2^-40, X at most 2^15; the result is within 30*2^-24*X of the exact unit normal, of length within 7*2^-23 of one, orthogonal to the edges up to 30*2^-24*X relatively and on the counter-clockwise side, with 1.0/len computed in double as the code does.", "quantifier": "all float vertices in the stated range, both index-check configurations, any previous contents of the target, and the self-aliasing call forms", "why_tests_cant": "the error depends on nine coordinates and on how thin the triangle is; tests sample a few well-conditioned triangles", "anchors": ["vmmlib/vector.hpp: Vector<M,T>::compute_normal, cross, normalize"]}
{"id": "C190", "title": "Degenerate triangles: compute_normal in float", "statement": "If two of the three vertices coincide (coordinates at most 2^50), compute_normal in float returns exactly the null vector; three distinct collinear points can give the unit vector (0,0,-1).", "quantifier": "all triangles of finite float vertices of at most 2^50 with two equal vertices; the refuted half exhibits collinear points", "why_tests_cant": "the first half ranges over all coordinates; the second needs particular roundings", "anchors": ["vmmlib/vector.hpp: Vector<M,T>::compute_normal, cross, normalize"]}
{"id": "C191", "title": "Vector::rotate in double stays close to the exact rotation", "statement": "With sine and cosine accurate to d <= 1/100, rotating a double vector v (components at most 2^1000) by an angle about any axis of components at most 2^500 and length at least 2^-450 never overflows and returns a vector within (10 d + 268*2^-53)|v| + 7*2^-1075 of the exact (Rodrigues) rotation about the direction of the axis; the axis need not be normalised, and the length of v is preserved up to the same bound.", "quantifier": "all double vectors, angles and axes in the stated range, any sine/cosine of accuracy d, both index-check configurations", "why_tests_cant": "the error bound ranges over seven inputs and over every libm of the given accuracy; tests sample a few angles and axes", "anchors": ["vmmlib/vector.hpp: Vector<M,T>::rotate, normalize"]}
{"id": "C192", "title": "Vector::rotate in float stays close to the exact rotation", "statement": "As C191 for float: v at most 2^100, axis components at most 2^50 and length at least 2^-50; the result is finite and within (10 d + 268*2^-24)|v| + 7*2^-150 of the exact rotation, with 1.0/len of the axis computed in double as the code does.", "quantifier": "all float vectors, angles and axes in the stated range, any sine/cosine of accuracy d, both index-check configurations", "why_tests_cant": "the error bound ranges over seven inputs and over every libm of the given accuracy; tests sample a few angles and axes", "anchors": ["vmmlib/vector.hpp: Vector<M,T>::rotate, normalize"]}
{"id": "C193", "title": "Distance to and projection onto a plane in double", "statement": "For a plane (n,w) and a point p with components at most 2^500 (w at most 2^1000), distance_to_plane never overflows and is within 6*2^-53 (|n||p|+|w|) + 4*2^-1075 of n.p + w, so a point further than that from the plane is put on the right side. If |n| is 1 up to e <= 1/100, project_point_onto_plane returns a point within 17*2^-53 (|p|+|w|) + 13*2^-1075 of p - (n.p+w) n, which is off the plane by at most 2.01 e |n.p+w| + 18*2^-53 (|p|+|w|) + 14*2^-1075.", "quantifier": "all double planes and points in the stated range, both index-check configurations", "why_tests_cant": "the error bound ranges over seven coordinates including near-cancelling ones; tests sample a few planes, spheres and points", "anchors": ["vmmlib/vector.hpp: Vector<M,T>::distance_to_plane, project_point_onto_plane"]}
{"id": "C194", "title": "Distance to and projection onto a sphere in double", "statement": "For a sphere (c,w) and a point p with coordinates at most 2^500, distance_to_sphere is within 6*2^-53 |p-c| + 2^-53 |w| + 2^-535 of |p-c| - w, however close p is to the centre, so points further than that from the surface are classified correctly. If |p-c| is at least 2^-400 (coordinates at most 2^490), project_point_onto_sphere returns a finite point within B = 17*2^-53 |w| + 2^-53 |c| + 2(|w|+1)2^-1075 of c + w (p-c)/|p-c|, hence at distance |w| from c up to B. The centre itself is returned unchanged.", "quantifier": "all double spheres and points in the stated range, both index-check configurations", "why_tests_cant": "the error bound ranges over seven coordinates including near-cancelling ones; tests sample a few planes, spheres and points", "anchors": ["vmmlib/vector.hpp: Vector<M,T>::distance_to_sphere, project_point_onto_sphere, normalize, length"]}
{"id": "C195", "title": "Distance to and projection onto a plane in float", "statement": "As C193 with components at most 2^50 (w at most 2^100), 2^-24 for 2^-53 and 2^-150 for 2^-1075.", "quantifier": "all float planes and points in the stated range, both index-check configurations", "why_tests_cant": "the error bound ranges over seven coordinates including near-cancelling ones; tests sample a few planes, spheres and points", "anchors": ["vmmlib/vector.hpp: Vector<M,T>::distance_to_plane, project_point_onto_plane"]}
{"id": "C196", "title": "Distance to and projection onto a sphere in float", "statement": "As C194 with coordinates at most 2^50 (2^48 for the projection), w at most 2^100, |p-c| at least 2^-40, 2^-24 for 2^-53, 2^-73 for 2^-535 and 2^-150 for 2^-1075; the direction is normalised with 1.0/len in double as the code does.", "quantifier": "all float spheres and points in the stated range, both index-check configurations", "why_tests_cant": "the error bound ranges over seven coordinates including near-cancelling ones; tests sample a few planes, spheres and points", "anchors": ["vmmlib/vector.hpp: Vector<M,T>::distance_to_sphere, project_point_onto_sphere, normalize, length"]}
{"id": "C197", "title": "Quantisation of a double matrix to unsigned integers", "statement": "For b <= 49 unsigned bits and a range [mn,mx] of finite doubles of magnitude at most A <= 2^900 and width at least 2^-900: quantize_to of a matrix whose cells lie in [mn,mx] returns integers of [0, 2^b-1], and dequantize with the same range returns finite cells of [mn,mx] within half a step (mx-mn)/(2^b-1) plus 23*2^-53 A of the originals. Quantisation never reverses an order; mn and every cell below it go to 0, mx and every cell above it to 2^b-1 (cells at most 1024 widths from mn). quantize() reports a range that contains every cell, whose lower end is a cell and whose upper end is a cell or 0. A matrix whose cells are all the same non-negative number is not handled: quantize() divides 0 by 0 and converts NaN to long, undefined behaviour.", "quantifier": "all matrix sizes, finite cells and ranges in the stated bounds, 1 <= b <= 49, both index-check configurations", "why_tests_cant": "the bound must hold for every cell value and every range, including ranges a few ulps wide compared with their offset; tests sample a few matrices", "anchors": ["vmmlib/matrix.hpp: Matrix<M,N,T>::quantize_to, quantize, dequantize, get_min, get_max"]}
{"id": "C198", "title": "Quantisation of a double matrix to signed integers", "statement": "For b <= 49 signed bits, a range as in C197 and cells of [mn,mx] of magnitude at most half the range: quantize_to then dequantize moves a cell by at most one and a half steps plus 23*2^-53 A, half a step plus 23*2^-53 A if it is not negative (the conversion truncates towards zero after adding 0.5), and keeps the order of the cells.", "quantifier": "all matrix sizes, finite cells and ranges in the stated bounds, 1 <= b <= 49", "why_tests_cant": "the bound must hold for every cell value and every range, including ranges a few ulps wide compared with their offset; tests sample a few matrices", "anchors": ["vmmlib/matrix.hpp: Matrix<M,N,T>::quantize_to, quantize, dequantize, get_min, get_max"]}
{"id": "C199", "title": "Quantisation of a float matrix to unsigned integers", "statement": "As C197 for float with b <= 20, A at most 2^90, width at least 2^-90 and 2^-24 for 2^-53; the 0.5 is added in double as in the code.", "quantifier": "all matrix sizes, finite cells and ranges in the stated bounds, 1 <= b <= 20, both index-check configurations", "why_tests_cant": "the bound must hold for every cell value and every range, including ranges a few ulps wide compared with their offset; tests sample a few matrices", "anchors": ["vmmlib/matrix.hpp: Matrix<M,N,T>::quantize_to, quantize, dequantize, get_min, get_max"]}
{"id": "C200", "title": "Quantisation of a float matrix to signed integers", "statement": "As C198 for float with b <= 20, A at most 2^90, width at least 2^-90 and 2^-24 for 2^-53.", "quantifier": "all matrix sizes, finite cells and ranges in the stated bounds, 1 <= b <= 20", "why_tests_cant": "the bound must hold for every cell value and every range, including ranges a few ulps wide compared with their offset; tests sample a few matrices", "anchors": ["vmmlib/matrix.hpp: Matrix<M,N,T>::quantize_to, quantize, dequantize, get_min, get_max"]}
{"id": "C201", "title": "A history of adjust_near calls in double", "statement": "Frustum<double>: start with a window whose edges are 0 or of magnitude 2^-400..2^400 and a near plane in 2^-200..2^200, and call adjust_near k <= 2^50 times with near planes in 2^-200..2^200. The far plane is untouched, the near plane is exactly the last one asked for, and each edge is finite and is the first edge times (last near / first near) with a relative error of at most 3k/2^53: the viewing pyramid drifts by at most three roundings per call whatever the sequence. Asking for the near plane the frustum already has changes no bit.", "quantifier": "all frustums and all finite sequences of calls in the stated ranges", "why_tests_cant": "the error must not build up over any sequence of calls, and tests only replay a few short sequences", "anchors": ["vmmlib/frustum.hpp: Frustum<T>::adjust_near"]}
{"id": "C202", "title": "set_perspective in double", "statement": "Frustum<double>::set_perspective with a field of view of 2^-900..120 degrees and an aspect ratio of 2^-80..2^80, on a platform whose tan has relative error d <= 1/100 on [2^-1000, 1.048]: near and far are stored as given, bottom is exactly -top, left exactly -right, left < right and bottom < top, top is half the tangent of half the field of view with relative error at most 1.02d + 18/2^53 and right is that times the aspect ratio with relative error at most 1.04d + 20/2^53. (The code ignores near in the window, so this is the window at distance 1/2, not at the near plane; see C71.)", "quantifier": "all finite arguments in the stated ranges, every tangent function of the stated accuracy", "why_tests_cant": "the bound must hold for every angle and aspect ratio and for every C library tangent of the stated accuracy", "anchors": ["vmmlib/frustum.hpp: Frustum<T>::set_perspective", "vmmlib/math.hpp: M_PI"]}
{"id": "C203", "title": "A history of adjust_near calls in float", "statement": "As C201 for float: edges 0 or 2^-40..2^40, near planes in 2^-20..2^20, k <= 2^21 calls, relative error at most 3k/2^24.", "quantifier": "all frustums and all finite sequences of calls in the stated ranges", "why_tests_cant": "the error must not build up over any sequence of calls, and tests only replay a few short sequences", "anchors": ["vmmlib/frustum.hpp: Frustum<T>::adjust_near"]}
{"id": "C204", "title": "set_perspective in float", "statement": "As C202 for float: field of view 2^-60..120 degrees, aspect ratio 2^-40..2^40; the angle and the tangent are computed in double and rounded once when stored, so the errors are at most 1.03d + 1.02/2^24 for top and 1.05d + 2.06/2^24 for right.", "quantifier": "all finite arguments in the stated ranges, every double tangent function of the stated accuracy", "why_tests_cant": "the bound must hold for every angle and aspect ratio and for every C library tangent of the stated accuracy", "anchors": ["vmmlib/frustum.hpp: Frustum<T>::set_perspective", "vmmlib/math.hpp: M_PI"]}
{"id": "C205", "title": "slerp in double", "statement": "slerp(a, p, q, epsilon) for Quaternion<double>: for quaternions with components of magnitude up to 2^500 and length at least 2^-450, a = 0 or 2^-600 <= a <= 1, 0 <= epsilon <= 1/10, and sin and atan2 with relative error d <= 1/1000, the result r is finite and of length 1 within tol = 6d + 70/2^52. Let P = p/|p| and let Q be q/|q| or its negative, on the side of P (P.Q >= -17/2^52), and let th in [0, pi/2] have cos th = |P.Q|. Then r.P is cos(a th) and r.Q is cos((1-a) th), both within tol when cos th < 1 - epsilon - 20/2^52 and within tol + epsilon otherwise: r lies at the fraction a of the shorter arc from P to Q.", "quantifier": "all quaternions, fractions and thresholds in the stated ranges, every sin and atan2 of the stated accuracy", "why_tests_cant": "the bound must hold for every pair of rotations, every fraction, both branches up to their boundary, and every C library sin and atan2 of the stated accuracy", "anchors": ["vmmlib/quaternion.hpp: Quaternion<T>::slerp", "vmmlib/quaternion.hpp: Quaternion<T>::get_normalized", "vmmlib/quaternion.hpp: Quaternion<T>::dot"]}
{"id": "C206", "title": "slerp in float", "statement": "slerp(a, p, q, epsilon) for Quaternion<float>: for quaternions with components of magnitude up to 2^50 and length at least 2^-50, a = 0 or 2^-60 <= a <= 1, 0 <= epsilon <= 1/10, and sin and atan2 with relative error d <= 1/1000, the result r is finite and of length 1 within tol = 6d + 70/2^23. Let P = p/|p| and let Q be q/|q| or its negative, on the side of P (P.Q >= -17/2^23), and let th in [0, pi/2] have cos th = |P.Q|. Then r.P is cos(a th) and r.Q is cos((1-a) th), both within tol when cos th < 1 - epsilon - 20/2^23 and within tol + epsilon otherwise: r lies at the fraction a of the shorter arc from P to Q. The literals 1. and 1.0 of the code are doubles: sqrt( 1. - cosine * cosine ) and the first coefficient are evaluated in double and narrowed.", "quantifier": "all quaternions, fractions and thresholds in the stated ranges, every float sin and atan2 and double sin of the stated accuracy", "why_tests_cant": "the bound must hold for every pair of rotations, every fraction, both branches up to their boundary, and every C library sin and atan2 of the stated accuracy", "anchors": ["vmmlib/quaternion.hpp: Quaternion<T>::slerp", "vmmlib/quaternion.hpp: Quaternion<T>::get_normalized", "vmmlib/quaternion.hpp: Quaternion<T>::dot"]}
{"id": "C207", "title": "compute_plane in double", "statement": "compute_plane(a, b, c) for double points with coordinates up to 2^240. Let U = b-c, W = a-b, N = U x W and H = |(N, 1)|. The result (m, w) is finite; m differs from N / H by at most e = 32/2^53 |U||W|/H + 13/2^1075, and at each of the three points p the plane equation m.p + w is at most e |p-a| + 4/2^53 |m||a| + 4/2^1075: the plane contains the points up to rounding, for every triangle, however thin. If e H < |N|, m is on the side of N. FrustumCuller::setup with eight corners stores six such planes, each through three corners of its side. (The length of m is |N|/H, not 1; see C51.)", "quantifier": "all triples of finite points in the stated range", "why_tests_cant": "the bound must hold for every triangle, including arbitrarily thin, tiny and huge ones, and tests only sample a few", "anchors": ["vmmlib/vector.hpp: compute_plane", "vmmlib/vector.hpp: Vector<M,T>::normalize", "vmmlib/frustum_culler.hpp: FrustumCuller<T>::setup(a,...,h)"]}
{"id": "C208", "title": "compute_plane in float", "statement": "compute_plane(a, b, c) for float points with coordinates up to 2^20. Let U = b-c, W = a-b, N = U x W and H = |(N, 1)|. The result (m, w) is finite; m differs from N / H by at most e = 32/2^24 |U||W|/H + 13/2^150, and at each of the three points p the plane equation m.p + w is at most e |p-a| + 4/2^24 |m||a| + 4/2^150: the plane contains the points up to rounding, for every triangle, however thin. If e H < |N|, m is on the side of N. FrustumCuller::setup with eight corners stores six such planes, each through three corners of its side. (The length of m is |N|/H, not 1; see C51.) The reciprocal of the length is computed in double, as in the code.", "quantifier": "all triples of finite points in the stated range", "why_tests_cant": "the bound must hold for every triangle, including arbitrarily thin, tiny and huge ones, and tests only sample a few", "anchors": ["vmmlib/vector.hpp: compute_plane", "vmmlib/vector.hpp: Vector<M,T>::normalize", "vmmlib/frustum_culler.hpp: FrustumCuller<T>::setup(a,...,h)"]}
{"id": "C209", "title": "Sums, norms, products and convolutions of doubles", "statement": "For double matrices and vectors: sum_elements() and every entry of columnwise_sum() are finite and within 2n/2^53 of the exact sum relative to the sum of the magnitudes (n summands, magnitudes up to 2^1000, n up to 2^20), and sum_elements() is exact for multiples of a common power of two whose multiples sum up to less than 2^53 in magnitude; norm() of a vector equals length(), frobenius_norm() is the length of all cells, with relative error (n+1)/2^52 (lengths at least 2^-450, cells up to 2^500); product() of M components between 2^-k and 2^k in magnitude, M k <= 1000, has relative error at most 2(M-1)/2^53; every cell of convolve() with a u x u kernel is finite and within 2u^2/2^53 of the exact convolution with repeated borders, relative to the convolution of the magnitudes, plus 2u^2/2^1075.", "quantifier": "all double matrices, vectors, kernels and sizes in the stated ranges", "why_tests_cant": "error bounds over all inputs and all sizes: cancellation and overflow depend on values that tests sample only sparsely", "anchors": ["vmmlib/matrix.hpp: sum_elements", "vmmlib/matrix.hpp: columnwise_sum", "vmmlib/matrix.hpp: frobenius_norm", "vmmlib/matrix.hpp: convolve", "vmmlib/vector.hpp: norm, product"]}
{"id": "C210", "title": "Column sums and products of floats", "statement": "columnwise_sum() and product() work in the element type. For floats every column sum is finite and within 2M/2^24 of the exact one relative to the sum of the magnitudes (M up to 1024 rows, magnitudes up to 2^100), and product() of M components between 2^-k and 2^k, M k <= 120, has relative error at most 2(M-1)/2^24.", "quantifier": "all float matrices and vectors in the stated ranges", "why_tests_cant": "error bounds over all inputs and all sizes: cancellation and overflow depend on values that tests sample only sparsely", "anchors": ["vmmlib/matrix.hpp: columnwise_sum", "vmmlib/vector.hpp: norm, product"]}
{"id": "C211", "title": "set_dct in double and float is nearly orthonormal", "statement": "set_dct() for up to 2^20 rows and columns, with a cosine of absolute error at most d <= 1/100: every cell is finite and differs from cos((2 col + 1) row PI / (2 M)) times the weight of its row by at most e times the weight, e = 1.01 d + 14 N/2^53 for double and 2/2^24 more for float; the rows of a square one are orthonormal up to 5 e (scalar products of the stored values, evaluated exactly).", "quantifier": "all sizes up to 2^20, all cosines within the stated error, double and float", "why_tests_cant": "the angle and hence the error grow with the size, and no test covers every size and cosine implementation", "anchors": ["vmmlib/matrix.hpp: set_dct"]}
{"id": "C212", "title": "From set_perspective to the culling verdict in double", "statement": "Calling set_perspective(fov, aspect, near, far), compute_matrix() and FrustumCuller::setup() and then test_sphere() or test_aabb(), all in double, gives the verdict of the exact frustum with half-height tan(fov/2)/2 and half-width aspect * tan(fov/2)/2 at distance near, outside an explicit margin: the rounding margin of C142, doubled, plus 2(1.04 d + 20/2^53) times the distance from the eye, where d is the relative error of tan. NONE only if some half-space of the frustum is missed up to the margin, FULL only if all are met up to the margin, and objects clear of the margin get the exact verdict. (fov 2^-10 to 120 degrees, aspect 2^-10 to 2^10, near 2^-20 to 2^10.)", "quantifier": "all cameras, spheres and boxes in the stated range, and all tan within the stated error", "why_tests_cant": "it is a statement about every camera and every object, with the exact frustum, which no test computes, as the reference", "anchors": ["vmmlib/frustum.hpp: set_perspective, compute_matrix", "vmmlib/frustum_culler.hpp: setup, test_sphere, test_aabb"]}
{"id": "C213", "title": "From set_perspective to the culling verdict in float", "statement": "Calling set_perspective(fov, aspect, near, far), compute_matrix() and FrustumCuller::setup() and then test_sphere() or test_aabb(), all in float, gives the verdict of the exact frustum with half-height tan(fov/2)/2 and half-width aspect * tan(fov/2)/2 at distance near, outside an explicit margin: the rounding margin of C156, doubled, plus 2(1.05 d + 2.06/2^24) times the distance from the eye, where d is the relative error of tan. NONE only if some half-space of the frustum is missed up to the margin, FULL only if all are met up to the margin, and objects clear of the margin get the exact verdict. (fov 1 to 120 degrees, aspect 1/16 to 16, near 2^-9 to 8.)", "quantifier": "all cameras, spheres and boxes in the stated range, and all tan within the stated error", "why_tests_cant": "it is a statement about every camera and every object, with the exact frustum, which no test computes, as the reference", "anchors": ["vmmlib/frustum.hpp: set_perspective, compute_matrix", "vmmlib/frustum_culler.hpp: setup, test_sphere, test_aabb"]}
{"id": "C214", "title": "Histories of rotations from both sides in double", "statement": "Any sequence of n calls of rotate_x/y/z() and pre_rotate_x/y/z() on a 4x4 double matrix, in any order and with any finite angles, with sin and cos of absolute error at most d <= 1/100: with K = 2 d + 4.2/2^53 and 2 n K <= 1, and cells up to 2^1000, no cell overflows, and the result differs from the exact product (rotations through t from the right, through -t from the left) by at most 2 n K times the Frobenius norm of the start plus 24 n / 2^1075, in the Frobenius norm, which the exact product keeps. Orthonormal rows stay orthonormal up to 2 E + E^2 with E = 4 n K + 24 n / 2^1075.", "quantifier": "all matrices in range, all finite sequences of calls, all sin and cos within the stated error", "why_tests_cant": "the drift accumulates over the history, and no test covers every history", "anchors": ["vmmlib/matrix.hpp: rotate_x, rotate_y, rotate_z, pre_rotate_x, pre_rotate_y, pre_rotate_z"]}
{"id": "C215", "title": "Histories of rotations from both sides in float", "statement": "Any sequence of n calls of rotate_x/y/z() and pre_rotate_x/y/z() on a 4x4 float matrix, in any order and with any finite angles, with sin and cos of absolute error at most d <= 1/100: with K = 2 d + 4.2/2^24 and 2 n K <= 1, and cells up to 2^110, no cell overflows, and the result differs from the exact product (rotations through t from the right, through -t from the left) by at most 2 n K times the Frobenius norm of the start plus 24 n / 2^150, in the Frobenius norm, which the exact product keeps. Orthonormal rows stay orthonormal up to 2 E + E^2 with E = 4 n K + 24 n / 2^150.", "quantifier": "all matrices in range, all finite sequences of calls, all sin and cos within the stated error", "why_tests_cant": "the drift accumulates over the history, and no test covers every history", "anchors": ["vmmlib/matrix.hpp: rotate_x, rotate_y, rotate_z, pre_rotate_x, pre_rotate_y, pre_rotate_z"]}
{"id": "C216", "title": "From eight corners to the culling verdict in double", "statement": "FrustumCuller::setup() from eight corners and then test_sphere() or test_aabb(), all in double, for corners up to 2^140: the verdict is that of the exact planes through the corners (with the value at a point scaled by |N|/sqrt(|N|^2+1), as the code normalises (N,1)), outside an explicit margin. NONE only if some face is missed by every point of the object up to the margin, FULL only if every point of the object meets every face up to the margin; an object beyond some face by more than the margin gets NONE, one inside all faces by more than the margin gets FULL. The margin at q for the face through a, b, c is e |q-a| + (1+e)(15 u (r+|a|) + 80 t), with u = 2^-53, t = 2^-1075, r the reach of the object and e = 32 u |b-c||a-b|/sqrt(|N|^2+1) + 13 t: it is large only for thin triangles.", "quantifier": "all corners, spheres and boxes in the stated range, thin and degenerate frusta included", "why_tests_cant": "it is a statement about every frustum and every object, with the exact planes, which no test computes, as the reference", "anchors": ["vmmlib/frustum_culler.hpp: setup( a, ..., h ), test_sphere, test_aabb", "vmmlib/vector.hpp: compute_plane"]}
{"id": "C217", "title": "From eight corners to the culling verdict in float", "statement": "FrustumCuller::setup() from eight corners and then test_sphere() or test_aabb(), all in float, for corners up to 2^20: the verdict is that of the exact planes through the corners (with the value at a point scaled by |N|/sqrt(|N|^2+1), as the code normalises (N,1)), outside an explicit margin. NONE only if some face is missed by every point of the object up to the margin, FULL only if every point of the object meets every face up to the margin; an object beyond some face by more than the margin gets NONE, one inside all faces by more than the margin gets FULL. The margin at q for the face through a, b, c is e |q-a| + (1+e)(15 u (r+|a|) + 80 t), with u = 2^-24, t = 2^-150, r the reach of the object and e = 32 u |b-c||a-b|/sqrt(|N|^2+1) + 13 t: it is large only for thin triangles.", "quantifier": "all corners, spheres and boxes in the stated range, and both evaluation widths of the box test", "why_tests_cant": "it is a statement about every frustum and every object, with the exact planes, which no test computes, as the reference", "anchors": ["vmmlib/frustum_culler.hpp: setup( a, ..., h ), test_sphere, test_aabb", "vmmlib/vector.hpp: compute_plane"]}
{"id": "C218", "title": "Culling in world coordinates in double", "statement": "The usual program, culler.setup( projection * modelview ) followed by test_sphere() or test_aabb() in world coordinates, with the product, the setup and the test all in double: for two arbitrary matrices with elements up to 2^70 whose exact product has faces with normals of at least 2^-140 that cancel by a factor of at most 2^40, the verdict is that of the exact volume the product of the two given matrices clips against, outside an explicit margin. NONE only if some face is missed by every point of the object up to the margin, FULL only if every point of the object meets every face up to the margin; an object beyond some face by more than the margin gets NONE, one inside all faces by more than the margin gets FULL. The margin of a face with normal N is u (40 + 6 K) T/|N| + 2^-920 (|x|+|y|+|z|+40), u = 2^-53, where T is the face's distance formula with every product of elements replaced by its absolute value and taken at the reach of the object and K = (sum of the absolute terms of the normal)/|N|: an object seen from a camera far from the origin is culled as precisely as the size of its terms allows.", "quantifier": "all pairs of matrices, spheres and boxes in the stated range", "why_tests_cant": "it is a statement about every pair of matrices and every object, with the exact product as the reference, which no test computes", "anchors": ["vmmlib/matrix.hpp: operator*", "vmmlib/frustum_culler.hpp: setup( projModelView ), test_sphere, test_aabb"]}
{"id": "C219", "title": "Culling in world coordinates in float", "statement": "The usual program, culler.setup( projection * modelview ) followed by test_sphere() or test_aabb() in world coordinates, with the product, the setup and the test all in float: for two arbitrary matrices with elements up to 2^18 whose exact product has faces with normals of at least 2^-10 that cancel by a factor of at most 2^11, the verdict is that of the exact volume the product of the two given matrices clips against, outside an explicit margin. NONE only if some face is missed by every point of the object up to the margin, FULL only if every point of the object meets every face up to the margin; an object beyond some face by more than the margin gets NONE, one inside all faces by more than the margin gets FULL. The margin of a face with normal N is u (40 + 6 K) T/|N| + 2^-125 (|x|+|y|+|z|+40), u = 2^-24, where T is the face's distance formula with every product of elements replaced by its absolute value and taken at the reach of the object and K = (sum of the absolute terms of the normal)/|N|: an object seen from a camera far from the origin is culled as precisely as the size of its terms allows.", "quantifier": "all pairs of matrices, spheres and boxes in the stated range, and both evaluation widths of the box test", "why_tests_cant": "it is a statement about every pair of matrices and every object, with the exact product as the reference, which no test computes", "anchors": ["vmmlib/matrix.hpp: operator*", "vmmlib/frustum_culler.hpp: setup( projModelView ), test_sphere, test_aabb"]}
{"id": "C220", "title": "Histories of transformation calls in double", "statement": "Any history of n calls of rotate_x/y/z, pre_rotate_x/y/z, scale, scale_translation, set_translation, m = m * b and m = b * m on a 4x4 matrix of double, in any order and with any finite arguments, stays close to the matrix the same calls would produce exactly: the Frobenius norm of the difference is at most 2 n K B with K = 2 d + 4.3/2^53 (d the accuracy of sin and cos) as long as 2 n K <= 1, where B is the largest norm the matrix can have reached (each call multiplies it by at most max(1, largest scale) or max(1, |b|), set_translation adds |x|+|y|+|z|; B starts at |m| + 2^-1000) and B <= 2^1000; nothing overflows on the way.", "quantifier": "all start matrices, all finite histories with finite arguments, all libm with error at most d", "why_tests_cant": "histories of any length and order over a product of infinite argument spaces, against exact real transformations", "anchors": ["vmmlib/matrix.hpp: rotate_x/y/z, pre_rotate_x/y/z, scale, scale_translation, set_translation, operator*"]}
{"id": "C221", "title": "Histories of transformation calls in float", "statement": "Any history of n calls of rotate_x/y/z, pre_rotate_x/y/z, scale, scale_translation, set_translation, m = m * b and m = b * m on a 4x4 matrix of float, in any order and with any finite arguments, stays close to the matrix the same calls would produce exactly: the Frobenius norm of the difference is at most 2 n K B with K = 2 d + 4.3/2^24 (d the accuracy of sin and cos) as long as 2 n K <= 1, where B is the largest norm the matrix can have reached (each call multiplies it by at most max(1, largest scale) or max(1, |b|), set_translation adds |x|+|y|+|z|; B starts at |m| + 2^-110) and B <= 2^110; nothing overflows on the way.", "quantifier": "all start matrices, all finite histories with finite arguments, all libm with error at most d", "why_tests_cant": "histories of any length and order over a product of infinite argument spaces, against exact real transformations", "anchors": ["vmmlib/matrix.hpp: rotate_x/y/z, pre_rotate_x/y/z, scale, scale_translation, set_translation, operator*"]}
{"id": "C222", "title": "Culling after a history of camera moves, in double", "statement": "A user who moves a camera by any history of n transformation calls on a double view matrix, multiplies a projection matrix P with it and sets up a frustum_culler from the product gets verdicts that are right about the exact volume: the faces of the clip volume of exact P times the exact effect of the calls. With rho = |P| B / (length of the face's exact normal), B the largest norm the view matrix can have reached, e = 2 n (2 d + 4.3/2^53), u = 2^-53 and an object that reaches out to r from the origin, every face has the margin ((170 u + 3 e) rho + (330 u + 13 e) rho^2) (|r|_1 + 1) + 2^-920 (|r|_1 + 40): none means that the object lies outside some face up to its margin, full means that it lies inside all faces up to their margins, an object that reaches further into all faces than their margins is never reported as none, one further outside a face is none, one further inside all faces is full. Needs normals of at least 2^-139, rho <= 2^36, 200 e rho <= 1 and B <= 2^69; spheres and boxes with coordinates in range.", "quantifier": "all projection matrices, all start matrices, all finite histories, all spheres and boxes in range, all libm with error at most d", "why_tests_cant": "histories of any length over infinite argument spaces, composed with a product, six normalised planes and a test, against exact real geometry", "anchors": ["vmmlib/matrix.hpp: rotate_x/y/z, pre_rotate_x/y/z, scale, scale_translation, set_translation, operator*", "vmmlib/frustum_culler.hpp: setup, test_sphere, test_aabb"]}
{"id": "C223", "title": "Culling after a history of camera moves, in float", "statement": "A user who moves a camera by any history of n transformation calls on a float view matrix, multiplies a projection matrix P with it and sets up a frustum_culler from the product gets verdicts that are right about the exact volume: the faces of the clip volume of exact P times the exact effect of the calls. With rho = |P| B / (length of the face's exact normal), B the largest norm the view matrix can have reached, e = 2 n (2 d + 4.3/2^24), u = 2^-24 and an object that reaches out to r from the origin, every face has the margin ((170 u + 3 e) rho + (330 u + 13 e) rho^2) (|r|_1 + 1) + 2^-125 (|r|_1 + 40): none means that the object lies outside some face up to its margin, full means that it lies inside all faces up to their margins, an object that reaches further into all faces than their margins is never reported as none, one further outside a face is none, one further inside all faces is full. Needs normals of at least 2^-9, rho <= 2^7, 200 e rho <= 1 and B <= 2^17; spheres and boxes with coordinates in range.", "quantifier": "all projection matrices, all start matrices, all finite histories, all spheres and boxes in range, all libm with error at most d", "why_tests_cant": "histories of any length over infinite argument spaces, composed with a product, six normalised planes and a test, against exact real geometry", "anchors": ["vmmlib/matrix.hpp: rotate_x/y/z, pre_rotate_x/y/z, scale, scale_translation, set_translation, operator*", "vmmlib/frustum_culler.hpp: setup, test_sphere, test_aabb"]}
{"id": "C224", "title": "Screen positions after a history of camera moves, in double", "statement": "A double view matrix built by any history of n transformation calls is multiplied with a projection matrix P, and a point v is transformed with the product (with the division by w): every coordinate of the result differs from q = h_i / w, what the exact matrices give, by at most (4 e + 100 u) k (1 + |q|), with e = 2 n (2 d + 4.3 u), u = 2^-53, k = |P| B (|v|_1 + 1) / |w| and B the largest norm the view matrix can have reached; nothing overflows and the result is finite. Needs |w| >= 2^-390, (16 e + 320 u) k <= 1, entries of v up to 2^200, B <= 2^69 and |P| B <= 2^150.", "quantifier": "all projection matrices, all start matrices, all finite histories, all points in range whose w does not cancel, all libm with error at most d", "why_tests_cant": "histories of any length over infinite argument spaces, composed with a product and a homogeneous division, against exact real geometry", "anchors": ["vmmlib/matrix.hpp: rotate_x/y/z, pre_rotate_x/y/z, scale, scale_translation, set_translation, operator*( matrix ), operator*( Vector< O > ) with the division by w"]}
{"id": "C225", "title": "Screen positions after a history of camera moves, in float", "statement": "A float view matrix built by any history of n transformation calls is multiplied with a projection matrix P, and a point v is transformed with the product (with the division by w): every coordinate of the result differs from q = h_i / w, what the exact matrices give, by at most (4 e + 100 u) k (1 + |q|), with e = 2 n (2 d + 4.3 u), u = 2^-24, k = |P| B (|v|_1 + 1) / |w| and B the largest norm the view matrix can have reached; nothing overflows and the result is finite. Needs |w| >= 2^-38, (16 e + 320 u) k <= 1, entries of v up to 2^30, B <= 2^17 and |P| B <= 2^28.", "quantifier": "all projection matrices, all start matrices, all finite histories, all points in range whose w does not cancel, all libm with error at most d", "why_tests_cant": "histories of any length over infinite argument spaces, composed with a product and a homogeneous division, against exact real geometry", "anchors": ["vmmlib/matrix.hpp: rotate_x/y/z, pre_rotate_x/y/z, scale, scale_translation, set_translation, operator*( matrix ), operator*( Vector< O > ) with the division by w"]}
{"id": "C226", "title": "Undoing a history of camera moves, in double", "statement": "inverse() undoes a history: if V is what n transformation calls make of a double 4x4 matrix and Y is the exact inverse of what the calls make of it exactly, then, as soon as the determinant D of V clears the tolerance (tolerance + P/2^49 + 2^-700 < D, P <= 2^45 D, D >= 2^-300, P the sum of the absolute values of the terms of the determinant), inverse() succeeds, all cells of its result are finite and within 2 e B |Y|^2 + 2^-48 (P/D)(P_ij/D) + 2^-500 of Y, with e = 2 n (2 d + 4.3 u), B <= 2^99 the largest norm the matrix can have reached, P_ij the sum of the absolute values of the terms of the minor, and e B |Y| <= 1/2.", "quantifier": "all start matrices, all finite histories whose exact effect is invertible, all finite tolerances, all libm with error at most d", "why_tests_cant": "histories of any length over infinite argument spaces, composed with the inverse, against the exact inverse", "anchors": ["vmmlib/matrix.hpp: rotate_x/y/z, pre_rotate_x/y/z, scale, scale_translation, set_translation, operator*, inverse"]}
{"id": "C227", "title": "Undoing a history of camera moves, in float", "statement": "inverse() undoes a history: if V is what n transformation calls make of a float 4x4 matrix and Y is the exact inverse of what the calls make of it exactly, then, as soon as the determinant D of V clears the tolerance (tolerance + P/2^20 + 2^-70 < D, P <= 2^16 D, D >= 2^-30, P the sum of the absolute values of the terms of the determinant), inverse() succeeds, all cells of its result are finite and within 2 e B |Y|^2 + 2^-19 (P/D)(P_ij/D) + 2^-69 of Y, with e = 2 n (2 d + 4.3 u), B <= 2^19 the largest norm the matrix can have reached, P_ij the sum of the absolute values of the terms of the minor, and e B |Y| <= 1/2.", "quantifier": "all start matrices, all finite histories whose exact effect is invertible, all finite tolerances, all libm with error at most d", "why_tests_cant": "histories of any length over infinite argument spaces, composed with the inverse, against the exact inverse", "anchors": ["vmmlib/matrix.hpp: rotate_x/y/z, pre_rotate_x/y/z, scale, scale_translation, set_translation, operator*, inverse"]}
{"id": "C228", "title": "The last row of a transformation is exact, in double", "statement": "A finite double 4x4 matrix whose last row is (0, 0, 0, 1) has exactly that last row (no rounding error at all) after every history of rotations, pre-rotations, scalings, translations and products with matrices that have that last row, as long as the history stays in the range of C220: the result of every cell is finite and the last row is exact.", "quantifier": "all start matrices with last row (0, 0, 0, 1), all finite histories of calls with finite arguments, all libm with error at most d", "why_tests_cant": "histories of any length over infinite argument spaces; a single rounding in the last row would break the claim", "anchors": ["vmmlib/matrix.hpp: rotate_x/y/z, pre_rotate_x/y/z, scale, scale_translation, set_translation, operator*"]}
{"id": "C229", "title": "The last row of a transformation is exact, in float", "statement": "A finite float 4x4 matrix whose last row is (0, 0, 0, 1) has exactly that last row (no rounding error at all) after every history of rotations, pre-rotations, scalings, translations and products with matrices that have that last row, as long as the history stays in the range of C221: the result of every cell is finite and the last row is exact.", "quantifier": "all start matrices with last row (0, 0, 0, 1), all finite histories of calls with finite arguments, all libm with error at most d", "why_tests_cant": "histories of any length over infinite argument spaces; a single rounding in the last row would break the claim", "anchors": ["vmmlib/matrix.hpp: rotate_x/y/z, pre_rotate_x/y/z, scale, scale_translation, set_translation, operator*"]}
{"id": "C230", "title": "Affine matrices transform points without a division, in double", "statement": "In double, transforming a point v of n finite components by an (n+1)x(n+1) matrix whose last row is (0, ..., 0, 1) divides by exactly 1: operator*( Vector< n > ) returns, component by component, exactly the value operator*( Vector< n+1 > ) returns for (v, 1), wherever that is finite.", "quantifier": "all n, all finite matrices with that last row, all finite points", "why_tests_cant": "every size, matrix and point; a single unlucky rounding of the divisor would break the claim", "anchors": ["vmmlib/matrix.hpp: operator*( Vector< O, T > ), operator*( Vector< N, T > )"]}
{"id": "C231", "title": "Affine matrices transform points without a division, in float", "statement": "In float, transforming a point v of n finite components by an (n+1)x(n+1) matrix whose last row is (0, ..., 0, 1) divides by exactly 1: operator*( Vector< n > ) returns, component by component, exactly the value operator*( Vector< n+1 > ) returns for (v, 1), wherever that is finite.", "quantifier": "all n, all finite matrices with that last row, all finite points", "why_tests_cant": "every size, matrix and point; a single unlucky rounding of the divisor would break the claim", "anchors": ["vmmlib/matrix.hpp: operator*( Vector< O, T > ), operator*( Vector< N, T > )"]}
{"id": "C232", "title": "Where a history of calls moves points, in double", "statement": "After any history of n transformation calls on a finite double 4x4 matrix with last row (0, 0, 0, 1) (products only with matrices of that kind), the matrix moves every point v to where the exact matrix puts it: operator*( Vector< 3 > ) succeeds with finite components within (e + 40 u) B (|x|+|y|+|z|+1) of the exact ones, with e = 2 n (2 d + 4.3 u) <= 1, B <= 2^199 the largest norm the matrix can have reached and |components| <= 2^200; nothing but exactly 1 is divided by, so no lower bound on w is needed.", "quantifier": "all start matrices of the stated kind, all finite histories with finite arguments, all points in range, all libm with error at most d", "why_tests_cant": "histories of any length over infinite argument spaces, and every point (or pair of points)", "anchors": ["vmmlib/matrix.hpp: rotate_x/y/z, pre_rotate_x/y/z, scale, scale_translation, set_translation, operator*, operator*( Vector< O, T > )"]}
{"id": "C233", "title": "Where a history of calls moves points, in float", "statement": "After any history of n transformation calls on a finite float 4x4 matrix with last row (0, 0, 0, 1) (products only with matrices of that kind), the matrix moves every point v to where the exact matrix puts it: operator*( Vector< 3 > ) succeeds with finite components within (e + 40 u) B (|x|+|y|+|z|+1) of the exact ones, with e = 2 n (2 d + 4.3 u) <= 1, B <= 2^29 the largest norm the matrix can have reached and |components| <= 2^30; nothing but exactly 1 is divided by, so no lower bound on w is needed.", "quantifier": "all start matrices of the stated kind, all finite histories with finite arguments, all points in range, all libm with error at most d", "why_tests_cant": "histories of any length over infinite argument spaces, and every point (or pair of points)", "anchors": ["vmmlib/matrix.hpp: rotate_x/y/z, pre_rotate_x/y/z, scale, scale_translation, set_translation, operator*, operator*( Vector< O, T > )"]}
{"id": "C234", "title": "Rotations and translations keep distances, in double", "statement": "Rotations, pre-rotations, set_translation and scale_translation (which changes the translation only) keep distances, in double: if the start matrix keeps the length of every vector and has last row (0, 0, 0, 1), then after any history of such calls the computed images of any two points v, w are as far apart as v and w, up to 2 (e + 40 u) B (|v|_1 + |w|_1 + 2), with e and B as in C232.", "quantifier": "all start matrices of the stated kind, all finite histories with finite arguments, all points in range, all libm with error at most d", "why_tests_cant": "histories of any length over infinite argument spaces, and every point (or pair of points)", "anchors": ["vmmlib/matrix.hpp: rotate_x/y/z, pre_rotate_x/y/z, scale, scale_translation, set_translation, operator*, operator*( Vector< O, T > )"]}
{"id": "C235", "title": "Rotations and translations keep distances, in float", "statement": "Rotations, pre-rotations, set_translation and scale_translation (which changes the translation only) keep distances, in float: if the start matrix keeps the length of every vector and has last row (0, 0, 0, 1), then after any history of such calls the computed images of any two points v, w are as far apart as v and w, up to 2 (e + 40 u) B (|v|_1 + |w|_1 + 2), with e and B as in C233.", "quantifier": "all start matrices of the stated kind, all finite histories with finite arguments, all points in range, all libm with error at most d", "why_tests_cant": "histories of any length over infinite argument spaces, and every point (or pair of points)", "anchors": ["vmmlib/matrix.hpp: rotate_x/y/z, pre_rotate_x/y/z, scale, scale_translation, set_translation, operator*, operator*( Vector< O, T > )"]}
{"id": "C236", "title": "The bounding box of moved points, in double", "statement": "Transforming any non-empty list of points with the double matrix a history of calls (as in C232) made, and merging the results into a fresh AABB, gives a box with finite bounds; every exact image of a point lies in it after widening it by D = (e + 40 u) B N on all sides (N bounds |x|+|y|+|z|+1 of the points), and every face of it is within D of the exact image of some point.", "quantifier": "all start matrices, histories and libm as in C232, all non-empty finite lists of points in range", "why_tests_cant": "histories and point lists of any length over infinite argument spaces", "anchors": ["vmmlib/matrix.hpp: rotate_x/y/z, pre_rotate_x/y/z, scale, scale_translation, set_translation, operator*, operator*( Vector< O, T > )", "vmmlib/aabb.hpp: AABB(), merge( Vector< 3 > ), getMin, getMax"]}
{"id": "C237", "title": "The bounding box of moved points, in float", "statement": "Transforming any non-empty list of points with the float matrix a history of calls (as in C233) made, and merging the results into a fresh AABB, gives a box with finite bounds; every exact image of a point lies in it after widening it by D = (e + 40 u) B N on all sides (N bounds |x|+|y|+|z|+1 of the points), and every face of it is within D of the exact image of some point.", "quantifier": "all start matrices, histories and libm as in C233, all non-empty finite lists of points in range", "why_tests_cant": "histories and point lists of any length over infinite argument spaces", "anchors": ["vmmlib/matrix.hpp: rotate_x/y/z, pre_rotate_x/y/z, scale, scale_translation, set_translation, operator*, operator*( Vector< O, T > )", "vmmlib/aabb.hpp: AABB(), merge( Vector< 3 > ), getMin, getMax"]}
