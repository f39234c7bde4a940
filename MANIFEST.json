{
 "claims": [
  {
   "property": "C01",
   "status": "proved",
   "theorems": [
    "c01_reserve",
    "c01_room_created",
    "c01_room_grown"
   ],
   "note": "All lengths n up to 2^60; the double-precision product 1.15*n is modelled exactly."
  },
  {
   "property": "C02",
   "status": "proved",
   "theorems": [
    "c02_created_with_length"
   ],
   "note": "All lengths; the outcome of an allocation failure is included."
  },
  {
   "property": "C03",
   "status": "partial",
   "theorems": [
    "c03_push_back_appends_partial",
    "c03_push_back_limit_refuted"
   ],
   "note": "Partial: proved while the size at a growth step is at most 933500000; refuted beyond (capacity passes through an int)."
  },
  {
   "property": "C04",
   "status": "proved",
   "theorems": [
    "c04_read_checked",
    "c04_write_checked",
    "c04_write_rejected"
   ],
   "note": "Owning, borrowing and R-wrapping storage."
  },
  {
   "property": "C05",
   "status": "partial",
   "theorems": [
    "c05_histories_safe",
    "c05_resize_inside_refuted"
   ],
   "note": "All histories of the listed operations whose arguments respect op_pre; one condition of op_pre is shown necessary by the refuted theorem (growing within the capacity after a resize exposes uninitialised elements)."
  },
  {
   "property": "C06",
   "status": "partial",
   "theorems": [
    "c06_copy_partial",
    "c06_independent",
    "c06_shape_refuted",
    "c06_temporary_refuted"
   ],
   "note": "Partial: size, elements and independence are proved; the matrix shape is lost by the copy, and copying a vector built from a temporary gives a vector without memory."
  },
  {
   "property": "C07",
   "status": "partial",
   "theorems": [
    "c07_storage_assignment_partial",
    "c07_self",
    "c07_shorter_source_refuted"
   ],
   "note": "Partial: proved when the source is not shorter than the target; a shorter source throws after a partial overwrite."
  },
  {
   "property": "C08",
   "status": "partial",
   "theorems": [
    "c08_resize_partial",
    "c08_resize_zero",
    "c08_resize_refuted"
   ],
   "note": "Partial: growing within the reserved room exposes uninitialised elements."
  },
  {
   "property": "C09",
   "status": "partial",
   "theorems": [
    "c09_assignment_programs_partial",
    "c09_default_constructed_refuted"
   ],
   "note": "Partial: proved for every program over variables that were constructed with a length; a default constructed variable throws on its second vector assignment (refuted)."
  },
  {
   "property": "C10",
   "status": "proved",
   "theorems": [
    "c10_assignment_value"
   ],
   "note": "All expression trees, including those that mention the target; operands of length 0 are excluded by well-formedness."
  },
  {
   "property": "C11",
   "status": "proved",
   "theorems": [
    "c11_assignment_frame",
    "c11_foreign_memory"
   ],
   "note": "Frame of assignment for all other vectors, and for memory that belongs to no vector."
  },
  {
   "property": "C12",
   "status": "proved",
   "theorems": [
    "c12_failed_assignment"
   ],
   "note": "All expressions, target an owning vector."
  },
  {
   "property": "C13",
   "status": "proved",
   "theorems": [
    "c13_recycling",
    "c13_scalar"
   ],
   "note": "Lengths and recycling for arbitrary nesting."
  },
  {
   "property": "C14",
   "status": "proved",
   "theorems": [
    "c14_matrix_shape"
   ],
   "note": "Shape relation for equal shaped matrices, matrix with scalar, matrix with shorter vector, nested."
  },
  {
   "property": "C15",
   "status": "partial",
   "theorems": [
    "c15_functions_lose_shape_refuted"
   ],
   "note": "False of the code: unary operations do not hand on the shape; refuted for every matrix and function."
  },
  {
   "property": "C16",
   "status": "partial",
   "theorems": [
    "c16_plain_stays_plain_partial",
    "c16_matrix_shape_partial",
    "c16_stale_shape_refuted"
   ],
   "note": "Partial: holds for plain right-hand sides on plain targets and for matrix right-hand sides; a matrix target keeps its old shape when a plain value is assigned (refuted)."
  },
  {
   "property": "C17",
   "status": "proved",
   "theorems": [
    "c17_scalar_assignment"
   ],
   "note": "All scalars and owning targets."
  },
  {
   "property": "C18",
   "status": "proved",
   "theorems": [
    "c18_borrowed_end",
    "c18_borrowed_scalar",
    "c18_borrowed_assignment"
   ],
   "note": "Length at least the current length and at most the borrowed memory; shorter values are C20. The end of the vector leaves the borrowed memory alone (c18_borrowed_end)."
  },
  {
   "property": "C19",
   "status": "proved",
   "theorems": [
    "c19_borrowed_limit",
    "c19_borrowed_too_long",
    "c19_borrowed_resize"
   ],
   "note": "The limit set at construction, assignment and resize."
  },
  {
   "property": "C20",
   "status": "partial",
   "theorems": [
    "c20_borrowed_shorter_refuted",
    "c20_borrowed_shorter_throws"
   ],
   "note": "False of the code: every shorter assignment throws."
  },
  {
   "property": "C21",
   "status": "partial",
   "theorems": [
    "c21_end_partial",
    "c21_assignment_own_partial",
    "c21_own_end_partial",
    "c21_element_writes_partial",
    "c21_destroyed_partial",
    "c21_assignment_long_refuted",
    "c21_assignment_short_refuted"
   ],
   "note": "Element writes and the end of the vector leave R's memory alone; a wrapper with memory of its own is assigned to and ended correctly. Assignment to a wrapper that shows an R object frees R's memory, at once for longer values and at its end for shorter ones (refuted)."
  },
  {
   "property": "C22",
   "status": "partial",
   "theorems": [
    "c22_subset_reads_partial",
    "c22_too_many_positions_refuted"
   ],
   "note": "Partial: any base and any index argument, as long as there are not more positions than elements; beyond that the subset starts again (refuted). Elements read from an operation or another subset are converted to double ([read])."
  },
  {
   "property": "C23",
   "status": "partial",
   "theorems": [
    "c23_subset_assignment_partial",
    "c23_subset_scalar_partial",
    "c23_length_mismatch",
    "c23_too_many_positions_refuted"
   ],
   "note": "Partial: not more positions than elements; otherwise values land in wrong places (refuted). The length mismatch part is proved. c23_subset_scalar_partial: assigning one value to a subset writes it to every position and to no other."
  },
  {
   "property": "C24",
   "status": "proved",
   "theorems": [
    "c24_mask",
    "c24_true"
   ],
   "note": "Masks of every length >= 1, recycled; a mask without TRUE is rejected. The mask is a stored vector of bools or an expression the compiler types as bool; comparisons of doubles or ints are not (C88)."
  },
  {
   "property": "C25",
   "status": "partial",
   "theorems": [
    "c25_int_read",
    "c25_double_read",
    "c25_int_vector_read",
    "c25_write_throws_partial",
    "c25_write_changes_refuted",
    "c25_negative_double_refuted",
    "c25_computed_int_refuted"
   ],
   "note": "Partial: reads are rejected for ints, doubles and stored vectors of ints; writes throw, but earlier positions are already written (refuted); negative entries in a vector of doubles, and positions below 1 in a computed vector of ints, are undefined behaviour (refuted)."
  },
  {
   "property": "C26",
   "status": "partial",
   "theorems": [
    "c26_matrix_subset_partial",
    "c26_two_doubles_refuted",
    "c26_short_mask_refuted",
    "c26_operation_refuted",
    "c26_no_true",
    "c26_mask_positions_refuted"
   ],
   "note": "Partial: 35 of the 36 combinations of selectors; two doubles select a wrong element (refuted), short masks are not recycled (refuted); the shape is lost for rows by a mask with columns by positions and for (TRUE, TRUE) of an operation (refuted). No subset is made by a mask without TRUE (c26_no_true)."
  },
  {
   "property": "C27",
   "status": "partial",
   "theorems": [
    "c27_row_beyond_refuted",
    "c27_beyond_matrix_partial"
   ],
   "note": "False for rows (refuted); positions beyond the whole matrix, in particular columns beyond the last, throw."
  },
  {
   "property": "C28",
   "status": "partial",
   "theorems": [
    "c28_at_vector_partial",
    "c28_at_vector_write_partial",
    "c28_at_matrix_partial",
    "c28_at_matrix_write_partial",
    "c28_at_matrix_value_partial",
    "c28_at_value_refuted"
   ],
   "note": "Partial: vector and matrix variables and matrix values; on vector values positions count from 0 (refuted)."
  },
  {
   "property": "C29",
   "status": "proved",
   "theorems": [
    "c29_colon_integers",
    "c29_end_of_range_overflows"
   ],
   "note": "Scalars or vectors as ends, ints or one int and one bool; colon(a, INT_MAX) and colon(a, INT_MIN) proved undefined."
  },
  {
   "property": "C30",
   "status": "partial",
   "theorems": [
    "c30_colon_doubles_partial",
    "c30_colon_doubles_any_partial",
    "c30_throws_refuted",
    "c30_last_zero_refuted"
   ],
   "note": "Partial: ends on a common binary grid (all whole numbers and their halves, quarters, ... within 2^53 multiples); for arbitrary doubles what is computed is characterised; the property itself is refuted by 3.1:5.1 (throws) and 3.3:0.3 (last element 0)."
  },
  {
   "property": "C31",
   "status": "proved",
   "theorems": [
    "c31_rep"
   ],
   "note": "Scalars, vectors and expressions; times as number or vector."
  },
  {
   "property": "C32",
   "status": "proved",
   "theorems": [
    "c32_matrix",
    "c32_matrix_scalar",
    "c32_matrix_wrong_length"
   ],
   "note": "Vector, expression or scalar argument; a wrong length throws and leaves nothing behind."
  },
  {
   "property": "C33",
   "status": "proved",
   "theorems": [
    "c33_vector_zeros",
    "c33_vector_below_one",
    "c33_vector_length_vector"
   ],
   "note": "All three functions make vectors of doubles (createRVec)."
  },
  {
   "property": "C34",
   "status": "proved",
   "theorems": [
    "c34_coca"
   ],
   "note": "Any number of arguments; total below 2^31 (the code counts in an int)."
  },
  {
   "property": "C35",
   "status": "proved",
   "theorems": [
    "c35_size_validation",
    "c35_truncation",
    "c35_beyond_int_undefined",
    "c35_size_vector",
    "c35_size_vector_length"
   ],
   "note": "Numbers, and vectors of one element; doubles outside the range of int (NaN, infinities) proved undefined."
  },
  {
   "property": "C36",
   "status": "proved",
   "theorems": [
    "c36_isNA",
    "c36_isInf",
    "c36_scalar",
    "c36_empty_throws"
   ],
   "note": "Non-empty vectors and expressions of any type; scalars; empty vectors proved to throw."
  },
  {
   "property": "C37",
   "status": "proved",
   "theorems": [
    "c37_length",
    "c37_length_scalar",
    "c37_dim_matrix",
    "c37_dim_expression",
    "c37_dim_not_matrix",
    "c37_dim_scalar"
   ],
   "note": "length and dim of vectors, matrices and expressions."
  },
  {
   "property": "C38",
   "status": "partial",
   "theorems": [
    "c38_mixed",
    "c38_nan",
    "c38_order_partial",
    "c38_equal_partial",
    "c38_difference_partial",
    "c38_equal_reflexive_partial",
    "c38_equal_symmetric_partial",
    "c38_unequal_partial",
    "c38_neither_refuted",
    "c38_not_transitive",
    "c38_integers",
    "c38_integers_overflow"
   ],
   "note": "Order operators exact for all finite doubles, ints and logicals, on any two expressions with recycling; == characterised (computed difference below 1e-3), reflexive, symmetric. Refuted: != is not the negation of == when the difference is exactly 1e-3 or NaN; == is not transitive; comparing distant ints with == overflows. c38_mixed: any mixture of element types; c38_nan: every comparison with NaN is false."
  },
  {
   "property": "C39",
   "status": "partial",
   "theorems": [
    "c39_integer_arithmetic_partial",
    "c39_logical_refuted",
    "c39_overflow"
   ],
   "note": "Exact for int with int or logical operands whenever the result fits in int, on any two expressions with recycling; overflow is undefined. Refuted for two logical operands: the result is converted back to bool."
  },
  {
   "property": "C40",
   "status": "partial",
   "theorems": [
    "c40_before",
    "c40_after",
    "c40_knots_partial",
    "c40_lengths",
    "c40_last_but_one_refuted"
   ],
   "note": "Proved with binary64 arithmetic: first value before, last value after, exact value at every data point except the last but one (any length from 4 up), length checks. At the last but one point the code's behaviour is undefined (c40_last_but_one_refuted). pow is assumed exact at zero, as C requires."
  },
  {
   "property": "C41",
   "status": "partial",
   "theorems": [
    "c41_reads_partial",
    "c41_last_interval_refuted",
    "c41_spare_refuted"
   ],
   "note": "For every time point outside the last interval cmr returns without undefined reads. Refuted: in the last interval back() reads one element past the end (out of bounds, or an unwritten spare element)."
  },
  {
   "property": "C42",
   "status": "partial",
   "theorems": [
    "c42_variable_refuted",
    "c42_other_refuted",
    "c42_never_refuted",
    "c42_operation_refuted"
   ],
   "note": "Refuted: li of variables always throws (reads timeVec[size]); r-values and subsets are refused; for operations it returns the first value for every time."
  },
  {
   "property": "C43",
   "status": "partial",
   "theorems": [
    "c43_forward_partial",
    "c43_derivative_partial",
    "c43_two_inputs_refuted",
    "c43_two_comparisons_refuted",
    "c43_conditions",
    "c43_recycling_refuted",
    "c43_own_length_refuted"
   ],
   "note": "Every program of assignments to Buffer variables over Buffer, Borrow and BorrowSEXP variables with common lengths or length one (sums, differences, products, comparisons, quotients by constants): forward derivatives by the calculus rules in doubles, asked in any order, and the mathematical derivative when the arithmetic is exact and no comparison changes its truth value there. Refuted: nested recycling makes value and derivative inconsistent; a target that is shorter than its own result throws; of two inputs with the number of the independent variable the one asked first is taken. The sum of two comparisons is a bool (TRUE + TRUE is 1). A sine of a comparison is left out. c43_conditions: sums, differences and products of comparisons have the derivative 0 in every state where it is defined."
  },
  {
   "property": "C44",
   "status": "partial",
   "theorems": [
    "c44_quotient_partial",
    "c44_quotient_refuted",
    "c44_value_refuted"
   ],
   "note": "Refuted: the code divides by pow(r', 2) instead of r^2; for every divisor independent of the variable the result is not finite. Partial: where pow(r',2) = r*r the quotient rule holds."
  },
  {
   "property": "C45",
   "status": "partial",
   "theorems": [
    "c45_sine_partial",
    "c45_factor_refuted",
    "c45_argument_refuted"
   ],
   "note": "Refuted: for a variable the factor e' is missing, for any other argument cos(e') is stored. Partial: right where e' = 1."
  },
  {
   "property": "C46",
   "status": "partial",
   "theorems": [
    "c46_seed_partial",
    "c46_borrow_undefined_refuted",
    "c46_borrow_written_refuted",
    "c46_sexp_refuted"
   ],
   "note": "Buffer variables: all lengths and histories. Refuted for Borrow and BorrowSEXP variables: the constant is written to varBuffer (undefined behaviour or the wrong variable), memory of R is deleted, and IndepVarTypeIdx is ignored."
  },
  {
   "property": "C47",
   "status": "partial",
   "theorems": [
    "c47_density_partial",
    "c47_density_refuted",
    "c47_probability_partial",
    "c47_quantile_partial",
    "c47_probability_refuted",
    "c47_quantile_refuted",
    "c47_uniform_draws_partial",
    "c47_single_draw_partial",
    "c47_draws_refuted",
    "c47_draw_length_refuted"
   ],
   "note": "True for arguments of length one and for runif(n, min, max). Refuted for every longer argument: Vec<BaseType> res(max) with a size_t is a vector of length one holding the number (Constructors.hpp 106), so one element comes back; rnorm, rlnorm, rgamma with a number above one write behind it, and the exception destroys a locked mutex. R's own functions are arbitrary parameters."
  },
  {
   "property": "C48",
   "status": "partial",
   "theorems": [
    "c48_pairs_partial",
    "c48_fetch_only_refuted",
    "c48_shared_mutex_partial",
    "c48_threads_refuted"
   ],
   "note": "Every finished call does lock, fetch, store, unlock in rounds, and with one shared mutex any number of threads would be kept apart. In the code the mutex is a local variable of each call: any two threads can be between fetch and store at once (refuted), and rnorm and the like with a number above one fetch without storing (refuted)."
  },
  {
   "property": "C49",
   "status": "partial",
   "theorems": [
    "c49_vector",
    "c49_matrix",
    "c49_mismatch",
    "c49_logical",
    "c49_logical_refuted",
    "c49_functions_lose_shape_refuted",
    "c49_long_refuted"
   ],
   "note": "Proved for all vector and matrix expressions up to 2^31 - 1 elements, and the mismatch throws; a Vec<bool> gives 0 and 1 (c49_logical). Refuted beyond that (int loop variable overflows), for functions of matrices, whose im() is false (UnaryCalculations.hpp 16-22), and for logicals: the elements of an expression of type bool go into R's int memory unconverted, so -v gives a logical object with the element -1 (c49_logical_refuted). PROTECT/UNPROTECT: C89. Failure of R's allocator is not modelled."
  },
  {
   "property": "C50",
   "status": "partial",
   "theorems": [
    "c50_stream",
    "c50_vector",
    "c50_matrix",
    "c50_functions_refuted"
   ],
   "note": "Proved for vectors and for matrix expressions, and operator<< shows the elements in order (c50_stream); functions of a matrix print on one line (refuted). Elements of operations and subsets are shown as doubles. The characters written are C94."
  },
  {
   "property": "C51",
   "status": "partial",
   "theorems": [
    "c51_iteration_partial",
    "c51_subset_refuted"
   ],
   "note": "Partial: proved for vectors; iterating over a subset walks the parent's first elements (refuted)."
  },
  {
   "property": "C52",
   "status": "partial",
   "theorems": [
    "c52_from_temporary_partial",
    "c52_push_back_refuted"
   ],
   "note": "Partial: elements and shape are taken over without leak; push_back on the result loses the value, because the capacity is not taken over."
  },
  {
   "property": "C53",
   "status": "partial",
   "theorems": [
    "c53_push_back_partial",
    "c53_constructors_partial",
    "c53_resize_refuted",
    "c53_assignment_refuted"
   ],
   "note": "Partial: push_back and constructors are safe; resize leaves a dangling pointer that is freed again."
  },
  {
   "property": "C54",
   "status": "partial",
   "theorems": [
    "c54_large_assignment_refuted"
   ],
   "note": "False of the code for every length from 2^31 on; refuted for all such lengths the allocator can serve."
  },
  {
   "property": "C55",
   "status": "proved",
   "theorems": [
    "c55_evaluation_pure",
    "c55_iteration_pure"
   ],
   "note": "All expressions, any world."
  },
  {
   "property": "C56",
   "status": "partial",
   "theorems": [
    "c56_sorted_partial",
    "c56_one_exchange_partial",
    "c56_otherwise_refuted",
    "c56_single_refuted",
    "c56_empty_refuted"
   ],
   "note": "bs of examples/bubblesort.cpp, run to its end for every vector of doubles: it finishes with arr sorted exactly for the vectors of two or more elements that are in order already or become so by one exchange of neighbours (c56_sorted_partial, c56_one_exchange_partial). For every other vector the claim is false: c56_otherwise_refuted (the second `temp = arr(i)` throws \"try to delete nullptr\"), c56_single_refuted (colon(1, 0) counts down and arr(2) throws), c56_empty_refuted (remainder modulo 0)."
  },
  {
   "property": "C57",
   "status": "partial",
   "theorems": [
    "c57_assign_partial",
    "c57_construct",
    "c57_missing_refuted",
    "c57_shape_refuted",
    "c57_type_refuted"
   ],
   "note": "Proved for assignments of the vector's own type with ordinary elements (R's logicals are the ints 0 and 1, read as false and true), and for construction of storage. Refuted: a missing logical becomes TRUE (c57_missing_refuted); a vector that was a matrix keeps its old dimensions when a plain R vector is assigned (c57_shape_refuted); an object of another type is refused after the memory was deleted, and the next access goes through a null pointer (c57_type_refuted)."
  },
  {
   "property": "C58",
   "status": "proved",
   "theorems": [
    "c58_wrap",
    "c58_writes",
    "c58_wrong_type",
    "c58_scalar"
   ],
   "note": "Proved: elements, shape, no allocation, any sequence of writes, refusal of other types. Objects of R that are freed while they are wrapped: C89."
  },
  {
   "property": "C59",
   "status": "partial",
   "theorems": [
    "c59_copy_partial",
    "c59_independent_partial",
    "c59_empty_refuted"
   ],
   "note": "Proved for nonempty wrappers, with independence of later element writes. Refuted for empty ones, whose copy throws."
  },
  {
   "property": "C60",
   "status": "partial",
   "theorems": [
    "c60_rebind_partial",
    "c60_wrapping_refuted"
   ],
   "note": "Proved for wrappers that own their memory or have none. Refuted for wrappers that show an R object: operator=(SEXP) deletes R's memory."
  },
  {
   "property": "C61",
   "status": "partial",
   "theorems": [
    "c61_push_back_partial",
    "c61_wrapping_refuted"
   ],
   "note": "Proved for wrappers that own their memory or have none, below the int limit of realloc. Refuted for wrappers that show an R object: realloc deletes R's memory."
  },
  {
   "property": "C62",
   "status": "proved",
   "theorems": [
    "c62_copy",
    "c62_shared",
    "c62_move"
   ],
   "note": "Proved: copy, sharing of writes in both directions, move."
  },
  {
   "property": "C63",
   "status": "partial",
   "theorems": [
    "c63_vector_partial",
    "c63_matrix_partial",
    "c63_empty_refuted",
    "c63_borrow_refuted"
   ],
   "note": "Proved for vectors and matrices with at least one element, for Buffer storage; Borrow with a length is C20. Refuted: no elements throws; Borrow with dimensions ignores the pointer and gives an empty vector that claims to be r x c."
  },
  {
   "property": "C64",
   "status": "partial",
   "theorems": [
    "c64_assign_partial",
    "c64_construct_partial",
    "c64_borrow_partial",
    "c64_borrow_long",
    "c64_empty_refuted",
    "c64_wrapper_refuted"
   ],
   "note": "Proved for nonempty foreign objects and owning or borrowing vectors; a longer one is refused by borrowing vectors. Refuted: empty foreign objects throw; a wrapper of an R object with fewer elements deletes R's memory."
  },
  {
   "property": "C65",
   "status": "partial",
   "theorems": [
    "c65_vector",
    "c65_matrix_partial",
    "c65_not_matrix",
    "c65_unary_refuted",
    "c65_round_trip"
   ],
   "note": "Proved for vectors of any expression, matrices up to 2^31 - 1 elements, refusal of non-matrices, and the round trip. Refuted: functions of a matrix are refused (UnaryCalculations.hpp 16-22)."
  },
  {
   "property": "C66",
   "status": "proved",
   "theorems": [
    "c66_programs",
    "c66_rounds",
    "c66_all_released"
   ],
   "note": "Refinement theorem by induction on the program, with inner inductions for while and for: c66_programs. c66_rounds: the bound on the rounds of while loops in the model is no restriction. c66_all_released: whole programs. The meaning (SpecStmt.v) is defined for programs whose expressions are wf_expr, whose subsets have not more positions than the vector has elements and which stay within the memory limit; the exceptions outside of these are the subject of C09, C22, C23, C53."
  },
  {
   "property": "C67",
   "status": "proved",
   "theorems": [
    "c67_fibonacci",
    "c67_exact",
    "c67_unique",
    "c67_sharp"
   ],
   "note": "The example file calls `vector` and `subassign`, which the library does not define; they are read as vector_numeric and subset. c67_fibonacci for every n >= 3, c67_exact, c67_unique, c67_sharp (the 79th element is not exact)."
  },
  {
   "property": "C68",
   "status": "proved",
   "theorems": [
    "c68_construction",
    "c68_empty",
    "c68_failure",
    "c68_filled_matrix"
   ],
   "note": "c68_construction: elements, memory and shape. c68_empty: an empty expression is refused. c68_failure: after an exception during the construction no memory is left and the other objects are unchanged. c68_filled_matrix: Vec(value, rows, cols)."
  },
  {
   "property": "C69",
   "status": "partial",
   "theorems": [
    "c69_shape_assigned",
    "c69_shape_total",
    "c69_shape_fits_refuted"
   ],
   "note": "c69_shape_assigned and c69_shape_total hold for every expression. c69_shape_fits_refuted: a 2x3 matrix with a 3x2 one gives six elements and the shape 3x3."
  },
  {
   "property": "C70",
   "status": "proved",
   "theorems": [
    "c70_scalar_first",
    "c70_scalar_variable"
   ],
   "note": "c70_scalar_first: the first element of any expression with a meaning on lists; c70_scalar_variable: for a variable. The value of an operation or a subset is converted to double first."
  },
  {
   "property": "C71",
   "status": "partial",
   "theorems": [
    "c71_fill_partial",
    "c71_length_mismatch",
    "c71_capacity_refuted",
    "c71_borrow_refuted"
   ],
   "note": "Partial: c71_fill_partial and c71_length_mismatch hold; the capacity of the temporary is not taken over, so a later resize within the stale capacity reaches beyond the memory (c71_capacity_refuted); fill of borrowed memory frees memory it does not own (c71_borrow_refuted)."
  },
  {
   "property": "C72",
   "status": "partial",
   "theorems": [
    "c72_back_refuted",
    "c72_vector_refuted"
   ],
   "note": "Refuted for every storage kind: back() reads the cell after the last element; without reserve that is out of bounds, with reserve it is whatever is there."
  },
  {
   "property": "C73",
   "status": "partial",
   "theorems": [
    "c73_borrow_rebinds",
    "c73_sexp_copies_partial",
    "c73_wrapping_refuted",
    "c73_sexp_self",
    "c73_borrow_set"
   ],
   "note": "c73_sexp_copies_partial is for a target that owns its memory or has none; a target that shows an R object with less room frees R's memory (c73_wrapping_refuted)."
  },
  {
   "property": "C74",
   "status": "partial",
   "theorems": [
    "c74_rounded",
    "c74_closest",
    "c74_error",
    "c74_exact",
    "c74_division_by_zero",
    "c74_nan",
    "c74_negate_partial",
    "c74_negate_refuted"
   ],
   "note": "c74_rounded over the whole range of doubles; c74_closest, c74_error, c74_exact say what nearest means; c74_division_by_zero, c74_nan. Partial: the negation of the int -2^31 overflows (c74_negate_refuted)."
  },
  {
   "property": "C75",
   "status": "proved",
   "theorems": [
    "c75_functions",
    "c75_power",
    "c75_power_int"
   ],
   "note": "The functions of the C library are an arbitrary parameter. c75_power_int: a result out of the range of int is undefined."
  },
  {
   "property": "C76",
   "status": "partial",
   "theorems": [
    "c76_addresses",
    "c76_memory_safe_partial",
    "c76_all_released",
    "c76_subset_of_subset_refuted"
   ],
   "note": "Undefined behaviour of arithmetic (int overflow, conversion of a double out of range, a modulus by the size of an empty operand) is allowed by the theorem; a history ends when memory runs out. c76_addresses covers all statements of SpecSafe.scmd; only the claim about unwritten elements excludes x(p) = y(q) with a subset of a variable on the right, for which it is false (c76_subset_of_subset_refuted). Vectors may own their memory, borrow an array of the caller or wrap an R object; wrappers must not be assigned as a whole or enlarged (cmd_keeps; c21_assignment_*_refuted show why), borrowed arrays must have an element (c86_empty_refuted)."
  },
  {
   "property": "C77",
   "status": "partial",
   "theorems": [
    "c77_scalar",
    "c77_coca",
    "c77_colon_integers",
    "c77_colon_overflows",
    "c77_colon_doubles_partial",
    "c77_vector_partial",
    "c77_vector_unwritten_refuted",
    "c77_vector_stale_refuted"
   ],
   "note": "scalarDeriv, coca and colon on ints in full; colon on doubles for ends on a common binary grid (as C30). vector_numeric<k> etc. only resize: they leave stale or unwritten elements when the constant had enough room (refuted). Not modelled: an argument of type size_t."
  },
  {
   "property": "C78",
   "status": "partial",
   "theorems": [
    "c78_load_partial",
    "c78_borrow_refuted",
    "c78_too_many_refuted",
    "c78_shape_refuted",
    "c78_derivative_refuted"
   ],
   "note": "initBuffer and initBorrowSEXP: any number of owning arguments. Refuted: initBorrow throws for every argument; more arguments than variables are written behind the array; the shape of matrices is lost; a = a * a on a freshly loaded independent variable stores zero derivatives."
  },
  {
   "property": "C79",
   "status": "partial",
   "theorems": [
    "c79_false_vector",
    "c79_not_a_matrix",
    "c79_false_matrix",
    "c79_too_long",
    "c79_any_mask_partial",
    "c79_long_mask_refuted"
   ],
   "note": "FALSE and non-matrices are rejected for all arguments; beside a single row or column too long masks are rejected and short ones recycled. Refuted for the other pairs: a longer mask is not rejected but wraps around, a shorter one is not recycled (c26_short_mask_refuted)."
  },
  {
   "property": "C80",
   "status": "proved",
   "theorems": [
    "c80_addresses",
    "c80_elements",
    "c80_all_released",
    "c80_programs"
   ],
   "note": "Programs are nested statements of LangModel.lstmt (all statements of ProgModel and more). A program that runs out of memory is terminated (no claim about its state then; with unwinding it would release memory twice, c80_no_memory_ex). Vectors may own, borrow or wrap, as in C76 (keeps)."
  },
  {
   "property": "C81",
   "status": "proved",
   "theorems": [
    "c81_programs",
    "c81_rounds",
    "c81_determined",
    "c81_all_released"
   ],
   "note": "Refinement theorem by induction on the program (c81_programs); c81_rounds: the bound on the rounds of while loops is no restriction; c81_determined: the meaning is a function; c81_all_released: whole programs. The meaning (SpecMat.v) covers programs whose expressions are wf_expr, which select not more positions than the vector has elements and stay within the memory limit. resize has no meaning here (what it leaves depends on the capacity, C05 and C08); memory safety of programs with it is C80."
  },
  {
   "property": "C82",
   "status": "proved",
   "theorems": [
    "c82_transpose",
    "c82_matmul",
    "c82_exact"
   ],
   "note": "c82_transpose and c82_matmul for all sizes below 2^30 that fit in memory, by loop invariants on top of C81; c82_exact for whole numbers."
  },
  {
   "property": "C83",
   "status": "proved",
   "theorems": [
    "c83_call",
    "c83_wrong_type",
    "c83_arguments_kept",
    "c83_rounds",
    "c83_round_trip"
   ],
   "note": "c83_call by induction on parameters and body over C81, C49 (cpp2R) and C57 (initSEXP); c83_wrong_type for any position of the wrong argument; c83_arguments_kept without any hypothesis on the function, even up to undefined behaviour; c83_rounds. c83_round_trip: a function that returns its argument gives a new object with the same type, elements and dimensions. The value of NA in a logical argument is true (c57_missing_refuted). Return, break and continue inside loops and blocks: C91."
  },
  {
   "property": "C84",
   "status": "proved",
   "theorems": [
    "c84_transpose",
    "c84_matmul",
    "c84_twice",
    "c84_product_transposed"
   ],
   "note": "c84_transpose and c84_matmul on top of C83 and C82; c84_twice and c84_product_transposed compose calls, the results of which are arguments of further calls."
  },
  {
   "property": "C85",
   "status": "proved",
   "theorems": [
    "c85_safe",
    "c85_written",
    "c85_session",
    "c85_session_written"
   ],
   "note": "By induction on the body (CallSafe.frun_ends, on top of LangProofs.lrun_ends), the parameters (call_ends) and the session (session_safe). cpp2R gives Rf_allocMatrix the extents as int; extents_agree shows that the number of elements allocated is the number written. The returned expression is not itself a subset (a local vector can hold one): the model does not limit the number of positions of a subset by the memory. Out of memory (BadAlloc) ends the session in the model."
  },
  {
   "property": "C86",
   "status": "partial",
   "theorems": [
    "c86_foreign_kept",
    "c86_programs_keep",
    "c86_borrow_again",
    "c86_wrap_again",
    "c86_empty_refuted"
   ],
   "note": "For histories and for nested programs, on top of C76 and C80 with one more block to watch (lenders). Cells that some vector reaches may change, the others may not; aliases are allowed. Partial because an array of no elements cannot be lent safely (c86_empty_refuted)."
  },
  {
   "property": "C87",
   "status": "partial",
   "theorems": [
    "c87_full_expression",
    "c87_assignment",
    "c87_named_partial",
    "c87_programs_partial",
    "c87_temporaries_refuted"
   ],
   "note": "Expressions as objects with references (LifeModel), related to the trees of VecModel by induction on the objects. Full expressions: no condition. Variables declared with auto: exactly the expressions whose operands have names work (c87_programs_partial); any other reads an object whose lifetime is over (c87_temporaries_refuted, for all such expressions). Vectors named by an expression are assumed to stay in scope."
  },
  {
   "property": "C88",
   "status": "partial",
   "theorems": [
    "c88_types_kept",
    "c88_static_type",
    "c88_subscript_type",
    "c88_element_type",
    "c88_access_type",
    "c88_one_type",
    "c88_made_type",
    "c88_comparison_double",
    "c88_comparison_read",
    "c88_comparison_int",
    "c88_comparison_bool",
    "c88_comparison_refuted",
    "c88_quotient_refuted",
    "c88_coca",
    "c88_argument_type",
    "c88_program"
   ],
   "note": "All programs of LangModel.lstmt, all storage classes. Positive: types are kept, static types are those of the objects, the numbers computed have the type SpecStatic.rtyp; in whole programs every statement started (SpecReach.reach) states types the vectors then have (c88_program). Refuted: a comparison of doubles used as a subscript is read as positions (c88_comparison_double, _read, _int tell exactly what happens, c88_comparison_bool when it works); rep and matrix of a quotient of ints truncate it (coca does not: c88_coca)."
  },
  {
   "property": "C89",
   "status": "partial",
   "theorems": [
    "c89_vector",
    "c89_matrix",
    "c89_mismatch",
    "c89_number",
    "c89_kept",
    "c89_model",
    "c89_exception_refuted",
    "c89_wrapped_refuted",
    "c89_second_refuted"
   ],
   "note": "R's protection stack and a collector that may free, at each allocation, any R memory R does not have to keep (RgcModel). Positive: for every collector the result is complete, the stack is as before and what R keeps survives (c89_vector, c89_matrix, c89_number, c89_kept), and without collections this is cpp2R of C49 (c89_model). Refuted: an exception in the loop leaves the stack one longer (c89_exception_refuted); a wrapped R object is not kept by the library (c89_wrapped_refuted); a returned object is not protected when a second one is made (c89_second_refuted). Strings and cpp2R() are not modelled."
  },
  {
   "property": "C90",
   "status": "partial",
   "theorems": [
    "c90_defined",
    "c90_model",
    "c90_size",
    "c90_value",
    "c90_sine_of_comparison_refuted",
    "c90_divisor_refuted"
   ],
   "note": "walkTD as a function on types and the static members of the types it makes (WalkModel). Positive: a derivative type exists exactly for the expressions made of operands of the AllVars object by + - * / comparisons and sin (c90_defined); what it computes is what the derivative programs of C43..C46 use (c90_model); its size is that of the longest operand and of the expression (c90_size); its elements (c90_value). Refuted: a divisor that is a constant of colon or vector, or a sum of constants, is not seen as a constant, and every derivative is infinite or NaN (c90_divisor_refuted). The value of the sine of a comparison is TRUE or FALSE instead of the sine of 1 or 0 (c90_sine_of_comparison_refuted)."
  },
  {
   "property": "C91",
   "status": "proved",
   "theorems": [
    "c91_call",
    "c91_safe",
    "c91_written",
    "c91_rounds",
    "c91_functions",
    "c91_first",
    "c91_sum"
   ],
   "note": "JumpModel.jrun gives every statement a flow (next, break, continue, result, still running); jscope destroys the vector of a scope whichever way it is left. c91_call by induction on parameters and body (JumpThms.jrun_follows, on top of C81 and C49) against SpecJump.jsem; c91_safe and c91_written by JumpProofs.jrun_ends, without any assumption on the values; c91_rounds; c91_functions: the functions of C83 are the ones that return at their end. c91_first and c91_sum use c91_call for two functions with a return in a scope in a loop, and with break and continue, for all R vectors. goto, switch, exceptions other than those of the library and functions that call each other are not modelled."
  },
  {
   "property": "C92",
   "status": "partial",
   "theorems": [
    "c92_call",
    "c92_balanced",
    "c92_stack_refuted",
    "c92_means",
    "c92_program",
    "c92_safe",
    "c92_written"
   ],
   "note": "GcCallModel.jcall_g is C91's function call over a world with R's protection stack and a freely chosen collector that runs at every allocation of R (C89); rprog are programs in R: calls, vectors R makes itself, branching on the elements of an object, forgetting objects. Positive: for every collector a call ends as without one, the result is intact and only objects R need not keep are gone (c92_call, c92_means); functions without catch leave the stack as it was (c92_balanced); an R program that uses only what it has not forgotten cannot tell which collector it runs with (c92_program) and is memory safe (c92_safe, c92_written). Proof: BlindProofs shows that no operation of the library looks at memory no vector points to (two runs side by side), GcCallProofs.step follows both runs. Refuted: with a catch a function can return and leave an object on the stack (c92_stack_refuted). Wrapped parameters (Vec(SEXP)): see C96."
  },
  {
   "property": "C93",
   "status": "partial",
   "theorems": [
    "c93_safe_partial",
    "c93_written_partial",
    "c93_objects_partial",
    "c93_session_partial",
    "c93_session_written_partial",
    "c93_unwrapped",
    "c93_copies",
    "c93_alias",
    "c93_assign_refuted",
    "c93_empty_refuted"
   ],
   "note": "WrapCallModel.wcall is C91's call with a choice per parameter: a copy (Vec<t> x; x = r) or a wrapper of R's memory (Vec<double, BorrowSEXP<double>> x(r)). Positive: c93_safe_partial and c93_written_partial (WrapCallProofs.wcall_ends, by induction on the parameters; the invariant `sound_at` in a mode that knows the wrapped vectors and the lent blocks), c93_objects_partial (element types are kept in R's memory too: WrapTypes.wcall_typed over StaticProofs with the types of R's blocks fixed), sessions of calls by induction (c93_session_partial, c93_session_written_partial), c93_unwrapped (objects no call wraps stay as they are), c93_copies (C91 is the case without wrappers), c93_alias (two parameters that wrap one vector, for all vectors, positions and values). Refuted: without `keeps_j` (c93_assign_refuted: x = e on a wrapping parameter gives R's memory to delete[]) and for empty wrapped objects (c93_empty_refuted). BorrowSEXP's operator=(SEXP) inside a body is not modelled here; the collector is added in C96."
  },
  {
   "property": "C94",
   "status": "partial",
   "theorems": [
    "c94_vector",
    "c94_matrix",
    "c94_integers",
    "c94_integer_matrix",
    "c94_faithful",
    "c94_interrupted",
    "c94_variable",
    "c94_shape",
    "c94_session",
    "c94_history",
    "c94_logical_refuted",
    "c94_zero_one_refuted"
   ],
   "note": "TextModel.v has the stream: text so far, the sticky flag std::boolalpha, and the world. SpecText.v states the text from the reader's side: a decimal reader (`number`: canonical, no leading zeros), a splitter (`cut`, `table`) and the relation `says`. Positive: c94_vector, c94_matrix, c94_integers and c94_integer_matrix (the text reads back as the numbers, all lengths and values), c94_faithful (equal text, equal elements), c94_interrupted (what is on the stream when element k throws), c94_session (any sequence of prints, by induction), c94_history, c94_variable (print(inp, av) of a variable of an AllVars object writes what print of its vector does; needs as many elements as the shape says, c94_variable_ex), c94_shape (operator<< of MatrixParameter reads back). Refuted: how a logical matrix is written depends on what was written before (c94_logical_refuted), and with the flag off it looks like an integer matrix (c94_zero_one_refuted). The text of a double is an argument that has no blanks, tabulators or newlines; stream errors and flushing are not modelled."
  },
  {
   "property": "C95",
   "status": "proved",
   "theorems": [
    "c95_conversion",
    "c95_always",
    "c95_size",
    "c95_assign",
    "c95_back",
    "c95_round_trip",
    "c95_condition"
   ],
   "note": "SpecConv.v says what C++ asks of every conversion in terms of integers and real numbers (truncation towards zero, exact doubles, everything but zero is true). c95_conversion covers every value and pair of types, including when the behaviour is undefined; c95_assign lifts it to x = y for vectors of any types and lengths, c95_round_trip and c95_back: nothing is lost on the way to a wider type and back; c95_condition: what if and while do with the value of a condition; c95_size: doubles as lengths and positions."
  },
  {
   "property": "C96",
   "status": "partial",
   "theorems": [
    "c96_call",
    "c96_balanced",
    "c96_copies",
    "c96_reached_refuted",
    "c96_program_partial",
    "c96_safe_partial",
    "c96_written_partial"
   ],
   "note": "GcWrapModel.wcall_g is C93's call over the world of C92 (protection stack, freely chosen collector at every allocation of R); wprog are R programs whose functions copy or wrap each argument. Positive: c96_call and c96_balanced, for all function bodies without restriction, given that R reaches the wrapped objects (as .Call guarantees for arguments); c96_copies (C92 is the case without wrappers); c96_program_partial, c96_safe_partial, c96_written_partial for whole programs whose functions keep to C93's rules (no whole-vector assignment to a wrapper, wrapped objects not empty: refuted otherwise by C93). Proof: the relation of GcCallProofs between the runs with and without collector, with a set of blocks that the library uses meanwhile (gsim_acquire, gsim_release), and the safety lemmas of WrapCallProofs. Refuted: without R reaching the object the collector frees it under the wrapper (c96_reached_refuted)."
  },
  {
   "property": "C97",
   "status": "proved",
   "theorems": [
    "c97_safe",
    "c97_defined",
    "c97_ask"
   ],
   "note": "All programs of DerivModel.drun whose targets are Buffer variables inside varBuffer, without the restrictions of C43 to C46 on operators, lengths, memory and constants. c97_safe: the end state is sound, all elements written, nothing leaked, inputs unchanged; the only undefined behaviour possible is i % 0. c97_defined excludes that when every variable read has elements (needed: c97_unassigned_ex). c97_ask: get and get_derivs afterwards. Proof: an invariant between statements (every object full of doubles; a variable has as many derivatives as values, or none yet) and one inside a statement (half), where the target's derivatives may shrink back to the old length while its new ones are written. Assigning to a number outside varBuffer is undefined (c97_number_ex). Not claimed: the state after std::bad_alloc (the destructor then frees twice: C80, PropStore.v). Going on after an exception was caught: C100."
  },
  {
   "property": "C98",
   "status": "proved",
   "theorems": [
    "c98_program",
    "c98_call",
    "c98_function",
    "c98_derivatives",
    "c98_asked",
    "c98_unique",
    "c98_least",
    "c98_least_call",
    "c98_safe"
   ],
   "note": "Proved for lrun (c98_program), wcall (c98_call; jcall is the case without wrapping, c93_copies), call (c98_function), drun and get_derivs (c98_derivatives, c98_asked). Nothing is assumed about the starting state, so undefined behaviour of the smaller run is not compared: while std::bad_alloc unwinds, an unsound state may run into undefined behaviour the larger run does not meet. c98_unique and c98_least are consequences; c98_safe carries C91 over to every limit. The limit bounds a single request, as everywhere in the model; an allocator that fails because of the sum of the requests is not modelled."
  },
  {
   "property": "C99",
   "status": "partial",
   "theorems": [
    "c99_left",
    "c99_element",
    "c99_ring_partial",
    "c99_programs_partial",
    "c99_two_inputs_refuted",
    "c99_constant_refuted",
    "c99_safe",
    "c99_defined"
   ],
   "note": "OrderModel.v runs the evaluator and the derivative programs with a schedule, an order of the arguments for every expression, index and state; each_once says that every argument is evaluated exactly once. c99_left: the order of the other model files is one of them. c99_element: values of elements (only which failure is met may differ, c99_element_ex). c99_ring_partial, c99_programs_partial: derivative programs under the conditions of C43. c99_safe, c99_defined: C97 in every order, without those conditions. Missing to the full property, and false: two inputs of different kinds with the number of the independent variable (c99_two_inputs_refuted) and one constant number used twice in a statement (c99_constant_refuted)."
  },
  {
   "property": "C100",
   "status": "partial",
   "theorems": [
    "c100_safe",
    "c100_ask",
    "c100_fails",
    "c100_ends",
    "c100_plain",
    "c100_meaning",
    "c100_derivs_refuted",
    "c100_memory_refuted"
   ],
   "note": "TryModel.v adds try blocks (catching what ass throws, not std::bad_alloc) to the programs of DerivModel.v. DerivCatch.v shows which steps can throw at all: making a constant without elements, and writing a derivative beyond the end when the target is on its own right-hand side and longer operands make the result longer (VarPointer::getDeriv shrinks the derivatives back to the old length); in both cases the invariant of C97 holds in the state left behind. c100_safe, c100_ask: programs with handlers. c100_fails: values of all variables kept, and the two causes. c100_ends: without the two causes a program ends or runs out of memory. c100_plain: without handlers these are the programs of C97. c100_meaning: the interpreter agrees with an inductive big-step semantics given in SpecTry.v. c100_derivs_refuted: the derivatives of the target are partly the new ones next to the old values, so a failing assignment is not all or nothing. c100_memory_refuted: after std::bad_alloc the program cannot go on. Not claimed: programs that read variables without elements (undefined: C97)."
  },
  {
   "property": "C101",
   "status": "proved",
   "theorems": [
    "c101_program",
    "c101_call",
    "c101_function",
    "c101_result",
    "c101_derivatives",
    "c101_asked"
   ],
   "note": "Proved for lrun (c101_program), functions called from R with copying and wrapping parameters (c101_call, c101_result; c101_function for the bodies of C83), derivative programs with and without handlers (c101_derivatives) and the values and derivatives asked for afterwards (c101_asked). `placed pi w w'` says that w' holds everything w holds, at addresses pi chooses injectively, next to any other memory, and has any other next address; nothing else is assumed, so the endings agree also where they are undefined behaviour, and other_kept is the frame: memory of w' that is not that of w is untouched. The model's allocator gives out addresses in order and never gives one out twice; the theorem removes the dependence on the numbers and on earlier history, not the assumption that a freed address is not given out again, which could only be seen by a program that uses a freed address (excluded by the safety theorems C80, C91, C97)."
  },
  {
   "property": "C102",
   "status": "proved",
   "theorems": [
    "c102_steady",
    "c102_function",
    "c102_no_memory",
    "c102_once",
    "c102_refills",
    "c102_ready",
    "c102_appends"
   ],
   "note": "SpecCost.v defines room, steady states, the fragment (in_place) and what it means that the blocks of the heap stay the same. c102_steady: programs of LangModel.v with assignments, scalar and element assignments, fill, resize up to n, if, while, try; for every outcome, undefined behaviour included, and every limit of the allocator. c102_function: function bodies with break and continue. c102_no_memory: with C98, what a steady program does with no memory left it does with any. c102_once: one block per assignment, none when the reserve has room; the memory in use becomes the reserve. c102_refills: two blocks for any number of assignments of k elements. c102_ready: these lead to a steady state. c102_appends: exact number of requests of push_back. subset() is left out of the fragment because the index store of a subset is memory in the code and a list in the model; memory of exception objects and of R is not counted."
  },
  {
   "property": "C103",
   "status": "partial",
   "theorems": [
    "c103_any_order",
    "c103_only_sets",
    "c103_unused",
    "c103_unroll",
    "c103_laws",
    "c103_rewrites",
    "c103_function",
    "c103_overwrite_partial",
    "c103_copy_partial",
    "c103_overwrite_refuted",
    "c103_copy_refuted"
   ],
   "note": "SpecRewrite.v: touches P Q p reads off the text of a statement what it mentions (P) and what it changes (Q); parts, independence. RewriteProofs.v: meanings (SpecMat.lsem) depend on the vectors mentioned only and change those assigned to only, by induction over expressions and statements; carried over to the execution in memory by C81. c103_any_order: every permutation of any number of pairwise independent statements, for runs that end normally. c103_only_sets, c103_unused: also for runs that end by an exception. c103_unroll, c103_laws: equalities of executions, same memory block by block, without any hypothesis on the state (undefined behaviour included). c103_rewrites: any number of such steps (SpecRewrite.step) in both directions anywhere in a program, inside loops, scopes and handlers; the number of extra rounds is bounded by the number of steps. c103_function: function bodies with break, continue and return (JumpModel.v). c103_overwrite_refuted: leaving out an overwritten assignment changes whether at(x, i, j) throws, because x keeps the shape of the value that was overwritten; c103_overwrite_partial: the elements and the shapes of all other vectors agree. c103_copy_partial and c103_copy_refuted: the same for reading from x what was just assigned to it (for vectors of one element type). Missing: resize (no meaning on lists) in the theorems that go through C81; the names of local vectors count as changed, so two statements with a local vector of the same name are not independent."
  },
  {
   "property": "C104",
   "status": "proved",
   "theorems": [
    "c104_sound",
    "c104_complete",
    "c104_frame",
    "c104_both",
    "c104_gcd",
    "c104_gcd_only",
    "c104_sum",
    "c104_divide",
    "c104_checked"
   ],
   "note": "SpecHoare.v: achieves (total correctness of lrun in memory: one outcome for every large enough bound on rounds, exceptions with their own assertion, no leak, all vectors in scope represented), proves (the rules: conditions and operands may throw, the while rule has an invariant indexed by the variant, the for rule one indexed by the elements still to come), and the programs euclid, divide, gauss and checked. HoareProofs.v: soundness by induction over derivations on the list meaning SpecMat.lsem, the while rule by well-founded induction on the variant; carried over to memory by C81. c104_complete: a triple is derivable if and only if the list meaning has it, for any assertions (by induction over programs; the invariants are read off the run). A statement that is one library call is a leaf whose premise is its list meaning; resize has no list meaning and so no rule (its contents depend on the capacity, C05, C08); completeness is relative to the list meaning, which covers the runs C81 covers. c104_gcd, c104_divide, c104_sum and c104_checked are proved with the rules, for all numbers; conditions go through the double conversion of operation results (RetType), int arithmetic through the overflow check. 65535 is the largest n whose sum is an int. c104_frame joins the rules with C103 (what a statement's text assigns to); c104_gcd_only is its use. c104_both: the run in memory determines the lists, so two facts about one program hold of the same end."
  }
 ]
}