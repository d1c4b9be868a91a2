{
 "_na": [],
 "C39": "False of the code: cross( a, b ) with an aliased operand computes a different vector (witness for every non-degenerate case in C39_cross_aliasing_refuted); the _partial theorem proves which aliasings are safe.",
 "C43": "False of the code for NaN components (C43_less_with_nan_refuted gives IEEE binary64 witnesses); without NaN it is proved.",
 "C47": "False of the code: find_abs_max_index uses max_element with abs_greater and returns the index of the smallest absolute value (vector.hpp:1496-1501). Proved instead (_partial): it returns the first index of smallest absolute value, hence the right answer exactly when all absolute values are equal.",
 "C51": "False of the code: compute_plane normalises the 4-vector including the homogeneous 1, so the normal is always shorter than 1; the _partial theorem proves that the plane contains the three points and that the normal has the right direction.",
 "C09": "False of the code when the destination is an operand (m.multiply( m, x ), m.multiply( x, m ), m *= m): C09_multiply_aliased_refuted computes the wrong cell for every size and operand.  The _partial theorem proves the product for distinct objects, for any element type.",
 "C11": "False of the code: negate() negates a default-constructed matrix, so the result is minus the identity (or zero) whatever m is; C11_negate_partial characterises exactly the matrices for which the claim holds.",
 "C19": "False of the code: pre_rotate_x/y/z( a ) multiply by the rotation of angle -a from the left (C19_pre_rotate_partial proves exactly that for every matrix and angle; C19_pre_rotate_refuted shows it differs from R(a) whenever sin a <> 0).",
 "C21": "False of the code: tensor(u,v) stores u(j)*v(i) in cell (i,j) (C21_tensor_transposed_refuted says exactly when that is still right) and reads outside a vector whenever M <> N (C21_tensor_nonsquare_refuted).  The _partial theorems prove what is computed for square matrices and for the 4x4 overload.",
 "C31": "Proved for square matrices with square kernels (C31_convolve_square_partial).  False otherwise: rows and columns are exchanged, so every rectangular matrix or kernel throws with safe accessors and, for more rows than columns, is accessed out of bounds without them.",
 "C33": "False of the code with the default limit -1e12 (C33_default_limit_refuted).  C33_is_positive_definite_partial proves what the function decides for every limit, that no positive definite matrix is rejected for limit <= 0 and that acceptance with limit > 0 implies positive definiteness (Sylvester's criterion is proved).  Only 3x3 compiles.",
 "C34": "Over the reals; == and equals for every element type.  See C102 for doubles.",
 "C80": "False of the code: the matrix traits exchange row and column (refuted for every non-symmetric entry and for non-square matrices).  The _partial theorem proves what they address for square matrices; the vector traits are right (C80_vector_traits).",
 "C61": "Refuted in part: for unit quaternions with 0 < 4w^2 <= 1e-5 whose y component does not dominate, set(M) returns the conjugate up to sign (the inverse rotation). Proved for all other unit quaternions.",
 "C66": "Refuted: the third comparison uses _max.x(). Proved for boxes with equal upper x and z, and for new/emptied boxes.",
 "C71": "Refuted: top is tan(fovy/2)/2 whatever the near plane is, so the requested angle holds only for near = 1/2. The partial theorem gives what holds (centred window, aspect ratio, depth range, exact condition for the angle).",
 "C26": "Unsigned targets of up to 63 bits; see C100 for wider ones.  An empty range divides by zero.",
 "C27": "False of the code: the offset of the range is never used for signed targets (range [10,20] maps 20 to 127 and back to 10), truncation towards zero is off by up to 1.5 steps for negative cells, and 64-bit targets overflow.  The _partial theorem proves 1.5 steps (half a step for non-negative cells) for all cells with |x| <= (max-min)/2.",
 "C29": "False of the code for every file name that does not end in raw (C29_raw_name_refuted: nothing is read back); for names that do, the paths agree and the round trip is proved end to end.",
 "C79": "False of the code for negative cells with odd or fractional p (no absolute value is taken); proved for non-negative cells or even p.",
 "C82": "False of the code unless the stream was already right-adjusted: the flags are restored with setf( flags ), which only adds bits.",
 "C84": "False of the code for transpose_to, symmetric_covariance, inverse and threshold: the exact in-place results are proved and the refuted theorems say precisely when they are right; clamp with its own elements is proved harmless.",
 "C88": "False of the code: read_csv_file opens the file and never reads it (the matrix is unchanged).  The _partial theorem proves the path and the contents of the written file.",
 "C89": "False of the code: the cross products computed by normal() are discarded, so the four-argument form only normalises *this and the three-argument form always returns the identity, whatever the arguments.",
 "C90": "False of the code: the offset is half the width of the range, not its lower end, so only ranges symmetric about zero are mapped onto [0, MAX] (_partial); the _refuted theorem gives the exact error for every other range.",
 "C98": "False of the code: the row proxy tests > instead of >= (matrix.hpp:401-444), so row == M is accepted and addresses the next column or memory past the end.  In-range m[row][col] is covered by C01. Proved instead (_partial): with safe accessors every row beyond M and every column out of range throws; row == M is the only miss.",
 "C99": "False of the code for all-negative matrices: the search starts from 0 (C99_get_max_refuted: 0 is returned).  The _partial theorem proves the claim when some cell is >= 0.",
 "C100": "False of the code: long( max ) is -1 for 64-bit targets, so everything is quantized to the maximum; and the conversion of a far-away scaled cell to long is undefined behaviour. Proved instead (_partial): for targets of at most 63 bits the call clamps to the range and is within half a step inside it, whenever the scaled cells plus one half fit a long.",
 "C101": "False of the code: any text form shared by two values loses one of them (default precision), and uint8_t cells are written as characters, blanks being skipped when read. Proved instead (_partial): bytes that are not blanks survive the text format.",
 "C102": "False of the code when a row contains a zero. Proved instead (_partial): finite doubles with no zero cell in the left matrix are compared as rows/columns up to sign.",
 "C103": "False of the code: the default tolerance of an integer type is 0 with a strict comparison, so no non-empty integer vector equals itself, and a NaN compares equal to everything because only 'difference >= tolerance' is tested. Proved instead (_partial): with a positive tolerance, signed vectors with representable differences and unsigned ones with u >= v componentwise compare correctly.",
 "C104": "False of the code: -max() is not the smallest signed integer and is 1 for unsigned types. Proved instead (_partial): after setEmpty() the box collects points and boxes like a new one as long as no upper corner has the least value (zero for unsigned types).",
 "C105": "False of the code: 0.5f is converted to 0 and the lower corner is returned, for every box. Proved instead (_partial): the result is the midpoint rounded down exactly for boxes with edges of length at most 1.",
 "C106": "False of the code: operator+= adds z to y, operator- and operator* return the scalar part first; the theorem gives the exact result and exactly when it is right.",
 "C107": "False of the code: compute_plane normalises the homogeneous 4-vector, so the stored normals are shorter than 1 and a ball strictly inside the frustum can be reported as not fully visible. Proved instead (_partial): a plane's value is the Euclidean distance times a constant factor strictly between 0 and 1.",
 "C30": "Every element type whose text is readable back, with decimal integers as instance.  See C101 for the others.",
 "C112": "322 per-function lemmas collected in three theorems. For division and square root the element type must deliver a value (true of IEEE doubles, shown); sizes and index ranges are the only other hypotheses. Not covered: calls whose own definition is UB for other reasons, kept out and treated in C98, C87, C28, C100 etc.",
 "C113": "Exact: returns iff the index fits, throws otherwise. m[r][c] (C98) and get_sub_vector (assert only) are the accessors that do not check.",
 "C114": "False of the code: rows written before the offending one stay written. The partial theorem gives the exact contents left behind for every offset.",
 "C115": "The element at which extraction fails may change (operator>> stores 0 or a limit there); nothing is claimed about it.",
 "C116": "Proved with Flocq's binary64 semantics of the model's own vec_length / vec_normalize (round-to-nearest-even at every step), for all components in the stated range.",
 "C117": "Refuted: two concrete vectors, evaluated on the model with Flocq's binary64; C116 gives the range where normalize() does work.",
 "C118": "All bit patterns; 'same' identifies all NaNs because the model does not fix NaN payloads.",
 "C119": "Signs of zero are ignored where the claim is 'exactly minus' (0 - 0 is +0 in both orders).",
 "C120": "The second theorem is the exact behaviour for non-finite cells.",
 "C121": "Follows the rounding of every step (Flocq binary64, round to nearest even).",
 "C122": "Binary32 instance of the model (InstF32); operations on two floats are float operations (FLT_EVAL_METHOD 0).",
 "C123": "Conversions modelled with Flocq's binary_normalize; innocuous double rounding from Flocq's Double_rounding.",
 "C124": "Mixed float/double model of norm() (MFloat).",
 "C125": "Binary64 model; per-operation error analysis (LErr), no overflow below 2^400.",
 "C126": "The formatting of one number is a parameter (any function of format and number), concrete for ints.",
 "C127": "Binary64 model of the eight-multiplication product; the identity claim is false (x = 2^-60 is lost), refuted by computation.",
 "C128": "Induction over the list of factors on top of C127.",
 "C129": "Binary64 model, per-operation error analysis.",
 "C130": "Binary64 model of setup composed with C125; exact clip faces of the matrix as reference.",
 "C131": "Found by a surviving mutant of the len_read subtraction (r625).",
 "C132": "Macro arguments are numbers (the macros do not parenthesise them).",
 "C133": "Iterator loops as an inductive relation, proved equal to the index loops the model uses.",
 "C134": "Includes differences that overflow: the comparison is then still right.",
 "C136": "Proved for boxes whose edges do not overflow (C136_center_partial); refuted for the box of all finite points and for NaN points.",
 "C137": "The range excludes overflow in the differences and products; near4 is the relative bound with one subnormal rounding.",
 "C140": "Near tangency (inside the margin) no claim is made: the exact and rounded decision may differ there.",
 "C141": "Added after a mutant that doubled epsilon() survived.",
 "C142": "Margins are in distance units; for the side planes the factor is 1 + max(|left|,|right|)/near, for the far plane far/near.",
 "C143": "Covers near = 0 and near < 0, which C137 leaves out.",
 "C144": "int to double conversion, three double roundings and (for float) the narrowing are modelled (MFloat2).",
 "C145": "Mixed-precision model MFloat2: float products, double sums, narrowing at the store.",
 "C146": "Rounding is analysed on the expressions the code computes, obtained by running the model on symbolic cells.",
 "C147": "Both the accept/reject decision and the accuracy of the accepted result, in double and float.",
 "C148": "Any size and any length; finite final cells imply finite cells throughout.",
 "C149": "Residual and column lengths for every shape and every condition number.",
 "C150": "False: the code projects the original column (classical Gram-Schmidt) although its header says stabilized; for a 4x3 matrix with independent columns two columns of Q enclose 60 degrees. Proved instead: if |A_c| <= K R_cc for every column c <= j then |Q_k . Q_j| <= (8M + 5N^2 + 18) K (2NK)^(j-1) 2^-52 for all k < j.",
 "C151": "General projective and affine matrices of any dimension.",
 "C152": "The float factor, the double weight and the conversions of each value type are modelled (MFilter).",
 "C153": "The float overload set is modelled explicitly (MCullF: wide = true for ::fabs(double)).",
 "C154": "1.0 / length is a double quotient rounded to float (MFloat.recip_via_double).",
 "C155": "The double literals of frustum.hpp:276-334 make those quotients double (MViewF).",
 "C156": "Built on C153, C154 and C155.",
 "C157": "Built on C153, C154 and C155.",
 "C161": "Proved for edges that do not exceed the largest float; refuted beyond (the centre of the box of all floats is infinite and not in the box), and isIn accepts NaN points.",
 "C163": "Refuted as stated for Quaternion<double> because is_akin calls fabsf; proved up to 2^-23 relative plus 2^-149 for delta up to 2^127.",
 "C188": "The claim that every triangle of zero area gives the null vector, as over the reals (C40), is false in floating point; proved for coincident vertices, refuted for collinear ones by a concrete triangle.",
 "C190": "The claim that every triangle of zero area gives the null vector, as over the reals (C40), is false in floating point; proved for coincident vertices, refuted for collinear ones by a concrete triangle.",
 "C197": "Round trip, order and range are proved; C197_constant_refuted and C197_point_range_refuted show the degenerate range (constant matrix) is undefined behaviour.",
 "C199": "Round trip, order and range are proved; C199_constant_refuted and C199_point_range_refuted show the degenerate range (constant matrix) is undefined behaviour."
}