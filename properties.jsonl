{"id": "C01", "title": "Reserved room covers the requested length", "statement": "Whenever a vector is created with, or grown to, n elements, the memory block it asks the allocator for has room for at least n elements, although the room is computed in double precision as trunc(1.15*n).", "quantifier": "every length n from 1 up to 2^60 (all lengths any allocator can serve), including those above 2^53 that a double cannot represent", "why_tests_cant": "a rounding error would only show at particular huge lengths; no test can try all lengths", "anchors": ["include/etr_bits/Core/BaseStore.hpp:BaseStore(size_t)", "include/etr_bits/Core/BaseStore.hpp:init", "include/etr_bits/Core/BaseStore.hpp:resize"]}
{"id": "C02", "title": "A vector created with a length is a zero vector of that length", "statement": "Creating a vector of length n gives a vector whose size is n, whose every element reads back as zero, which owns memory no other vector owns and which is not a matrix; a length of 0 is rejected with an exception and leaks nothing.", "quantifier": "every length n, every element type and every prior state of the heap and of the other vectors", "why_tests_cant": "tests check a few small lengths in an otherwise empty program", "anchors": ["include/etr_bits/Core/BaseStore.hpp:BaseStore(size_t)", "include/etr_bits/Core/BaseStore.hpp:BaseStore(int)", "include/etr_bits/Core/Utils.hpp:SI"]}
{"id": "C03", "title": "push_back appends", "statement": "After any sequence of push_back calls starting from an empty vector, reading the elements back in order gives exactly the pushed values in order, and the size is the number of pushes; no push is lost and no earlier element changes, whatever growth steps happened in between.", "quantifier": "every finite sequence of pushed values", "why_tests_cant": "growth happens at doubling boundaries, so a slip shows only at particular lengths", "anchors": ["include/etr_bits/Core/BaseStore.hpp:push_back", "include/etr_bits/Core/BaseStore.hpp:realloc"]}
{"id": "C04", "title": "Element access is bounds checked", "statement": "Reading or writing element i of a live vector either accesses exactly element i (when i < size) or throws; it never touches memory outside the vector and never changes another element or another vector.", "quantifier": "every live vector, every 64-bit index", "why_tests_cant": "tests probe a handful of indices; an out-of-bounds access may silently succeed", "anchors": ["include/etr_bits/Core/BaseStore.hpp:operator[]", "include/etr_bits/Core/Borrow.hpp:operator[]"]}
{"id": "C05", "title": "No history of vector operations corrupts memory", "statement": "Starting from no vectors, after any sequence of constructing, copying, resizing, filling, pushing, element writing, copy-assigning, swapping with a scratch buffer and destroying vectors, no memory was freed twice, used after being freed, accessed out of bounds or read before being initialised; and when all vectors are destroyed all memory has been returned.", "quantifier": "every finite sequence of storage operations on any number of vectors (with the preconditions listed in the theorem)", "why_tests_cant": "ownership bugs depend on particular orders of operations; the space of histories is infinite", "anchors": ["include/etr_bits/Core/BaseStore.hpp:BaseStore", "include/etr_bits/Core/BaseStore.hpp:~BaseStore", "include/etr_bits/Core/BaseStore.hpp:moveit", "include/etr_bits/Core/BaseStore.hpp:operator="]}
{"id": "C06", "title": "Copying a vector gives an equal, independent vector", "statement": "After `b = copy of a` (copy construction) b has the size, elements and matrix shape of a, and later writes to either do not show in the other.", "quantifier": "every live vector a, however it was produced, and every later element write", "why_tests_cant": "whether the copy is sound depends on how the source was produced (which constructor, which moves happened)", "anchors": ["include/etr_bits/Core/BaseStore.hpp:BaseStore(const BaseStore&)", "include/etr_bits/Vector/Constructors.hpp:Vec(Vec<T2, R2, Trait2> &&other_vec)"]}
{"id": "C07", "title": "Storage copy-assignment makes the target equal to the source", "statement": "After the storage assignment `a = b` at buffer level, a has the size and the elements of b and b is unchanged.", "quantifier": "every pair of live buffers, including a itself", "why_tests_cant": "depends on the relation of the two sizes and on spare capacity", "anchors": ["include/etr_bits/Core/BaseStore.hpp:operator="]}
{"id": "C08", "title": "resize sets the size and never exposes garbage", "statement": "After resize(n) with n >= 1 the size is n and every element can be read without undefined behaviour; n = 0 is rejected and leaves the vector unchanged.", "quantifier": "every live vector, every n", "why_tests_cant": "garbage only shows when growing inside spare capacity", "anchors": ["include/etr_bits/Core/BaseStore.hpp:resize"]}
{"id": "C09", "title": "A vector can be assigned again and again", "statement": "Assigning a vector expression of length at least 1 to a vector variable succeeds however often and in whatever order the variable was assigned before.", "quantifier": "every vector variable however constructed, every finite sequence of assignments", "why_tests_cant": "needs sequences of assignments; single assignments in tests succeed", "anchors": ["include/etr_bits/Vector/AssignmentOperator.hpp:operator=", "include/etr_bits/Core/BaseStore.hpp:moveit", "include/etr_bits/Core/BaseStore.hpp:resize"]}
{"id": "C10", "title": "Assignment stores the value of the right-hand side as it was before the assignment", "statement": "After `x = e`, x has length equal to the length of e and element i of x is the value element i of e had before the assignment, where e is any tree of arithmetic, comparison and mathematical operations over vectors, scalars and subsets, each operation recycling its shorter operand; this also holds when x itself occurs anywhere in e.", "quantifier": "every expression tree of any depth, every content and length of the vectors in it, every aliasing between target and operands", "why_tests_cant": "trees, lengths and aliasing patterns are unbounded", "anchors": ["include/etr_bits/Vector/AssignmentOperator.hpp:operator=", "include/etr_bits/BinaryCalculations.hpp:BinaryOperation::operator[]", "include/etr_bits/UnaryCalculations.hpp:UnaryOperation::operator[]"]}
{"id": "C11", "title": "Assignment changes nothing but its target", "statement": "`x = e` leaves the size, elements and matrix shape of every other vector, and all borrowed memory, unchanged.", "quantifier": "every expression, every set of other vectors sharing no memory with x", "why_tests_cant": "an interference would need the unlucky combination of other live vectors", "anchors": ["include/etr_bits/Vector/AssignmentOperator.hpp:operator="]}
{"id": "C12", "title": "A failing assignment leaves the target as it was", "statement": "If evaluating `x = e` for an owning vector x throws, then x still has its former size, elements and shape.", "quantifier": "every expression, every way in which its evaluation can throw, including out-of-memory", "why_tests_cant": "requires the failure at every possible element of every expression", "anchors": ["include/etr_bits/Vector/AssignmentOperator.hpp:operator="]}
{"id": "C13", "title": "Length and recycling of element-wise operations", "statement": "The length of `l op r` is the larger of the two lengths and its element i is op applied to element (i mod length l) of l and element (i mod length r) of r; a scalar operand is combined with every element. Operands of length 0 are outside the contract.", "quantifier": "every operator, all operand lengths >= 1", "why_tests_cant": "all pairs of lengths", "anchors": ["include/etr_bits/BinaryCalculations.hpp:BinaryOperation::size", "include/etr_bits/BinaryCalculations.hpp:BinaryOperation::operator[]"]}
{"id": "C14", "title": "Matrix shape of element-wise operations", "statement": "The result of an element-wise operation on two matrices of equal shape, or on a matrix and a scalar or on a matrix and a vector not longer than it, is a matrix of that shape with rows*cols equal to its length.", "quantifier": "all shapes, all operators, all expression trees built this way", "why_tests_cant": "all shapes and nesting depths", "anchors": ["include/etr_bits/BinaryCalculations.hpp:im", "include/etr_bits/BinaryCalculations.hpp:nr", "include/etr_bits/BinaryCalculations.hpp:nc", "include/etr_bits/Core/MatrixParameter.hpp:defineMatrix"]}
{"id": "C15", "title": "Mathematical functions keep the matrix shape", "statement": "Applying -, sin, cos, exp, log, sqrt, ... to a matrix and assigning the result to a fresh variable gives a matrix of the same shape.", "quantifier": "all shapes, all unary functions", "why_tests_cant": "tests do not look at the shape after a unary function", "anchors": ["include/etr_bits/UnaryCalculations.hpp:UnaryOperation::im"]}
{"id": "C16", "title": "Shape of the target after assignment", "statement": "After `x = e`, x is a matrix exactly when e is one, and then with e's rows and columns.", "quantifier": "all previous shapes of x, all expressions", "why_tests_cant": "depends on the history of the target", "anchors": ["include/etr_bits/Vector/AssignmentOperator.hpp:setMatrix"]}
{"id": "C17", "title": "Assigning a scalar gives a vector of length one", "statement": "After `x = s` for a scalar s and an owning vector x, x has length 1, its element is s converted to x's element type, and other vectors are unchanged.", "quantifier": "every owning vector and every scalar", "why_tests_cant": "depends on the prior capacity/state of the vector", "anchors": ["include/etr_bits/Vector/AssignmentOperator.hpp:operator=(const TD)"]}
{"id": "C18", "title": "A borrowing vector writes through to exactly the borrowed elements", "statement": "Assigning an expression of length n, at least the current length and at most the borrowed memory, to a vector that borrows memory writes the n values to the first n borrowed elements, leaves all other memory (including borrowed elements beyond n) unchanged, keeps borrowing the same memory and never frees it. A number assigned to it becomes the first borrowed element, the vector has length one and all else is unchanged.", "quantifier": "all expressions, all borrowed lengths, all contents", "why_tests_cant": "tests cannot observe writes to unrelated memory for all shapes of input", "anchors": ["include/etr_bits/Vector/AssignmentOperator.hpp:isBorrow branch", "include/etr_bits/Core/Borrow.hpp"]}
{"id": "C19", "title": "A borrowing vector cannot outgrow the borrowed memory", "statement": "Assigning more values than the borrowed memory can hold throws and leaves the borrowed memory untouched; resize beyond it throws as well.", "quantifier": "all lengths, all contents", "why_tests_cant": "overruns may silently succeed in a test", "anchors": ["include/etr_bits/Vector/AssignmentOperator.hpp:isBorrow branch", "include/etr_bits/Core/Borrow.hpp:resize"]}
{"id": "C20", "title": "A borrowing vector accepts shorter values", "statement": "Assigning an expression that is shorter than the current length of a borrowing vector shortens the vector.", "quantifier": "all lengths", "why_tests_cant": "depends on the sequence of lengths assigned", "anchors": ["include/etr_bits/Vector/AssignmentOperator.hpp:isBorrow branch"]}
{"id": "C21", "title": "Memory owned by R is never freed by a wrapping vector", "statement": "A vector wrapping an R object never frees the R object's memory, whatever is assigned to it.", "quantifier": "all wrapped lengths and all assignments", "why_tests_cant": "freeing foreign memory may go unnoticed in a test", "anchors": ["include/etr_bits/Core/BorrowSEXP.hpp:moveit", "include/etr_bits/Core/BorrowSEXP.hpp:resize", "include/etr_bits/Vector/AssignmentOperator.hpp:isBorrowSEXP branch"]}
{"id": "C22", "title": "Subsetting a vector by position reads the selected elements", "statement": "v(idx) for a vector of positions idx has length(idx) elements and its element k is element idx[k] (1-based) of v; a scalar index gives a single element.", "quantifier": "all vectors, all index vectors with entries in 1..length(v)", "why_tests_cant": "all index vectors", "anchors": ["include/etr_bits/Subsetting/VectorSubsetting.hpp:calcIndVector", "include/etr_bits/Core/SubsetClass.hpp:operator[]"]}
{"id": "C23", "title": "Assigning to a subset changes exactly the selected elements", "statement": "After v(idx) = e with length(e) = length(idx), element idx[k] of v is element k of the value e had before (the last one wins for repeated positions), all other elements of v and all other vectors are unchanged, and the size of v is unchanged; a length mismatch throws and changes nothing.", "quantifier": "all vectors, all index vectors, all expressions e including ones reading v", "why_tests_cant": "all index vectors and aliasing", "anchors": ["include/etr_bits/Vector/AssignmentOperator.hpp:isSubset branch", "include/etr_bits/Core/SubsetClass.hpp:operator[]"]}
{"id": "C24", "title": "Logical subsetting selects the TRUE positions", "statement": "v(mask) for a logical vector mask selects, in increasing order, the positions i for which mask[i mod length(mask)] is TRUE; v(TRUE) selects everything; a mask that selects nothing is rejected.", "quantifier": "all vectors and masks with at least one selected position", "why_tests_cant": "all masks and recycling lengths", "anchors": ["include/etr_bits/Subsetting/VectorSubsetting.hpp:calcIndVector"]}
{"id": "C25", "title": "Positions outside the vector are rejected", "statement": "Reading or writing through a subset with a position that is 0, negative or larger than the length throws and changes nothing.", "quantifier": "all vectors, all index values", "why_tests_cant": "wrap-around on conversion to unsigned depends on the value", "anchors": ["include/etr_bits/Subsetting/VectorSubsetting.hpp:calcIndVector", "include/etr_bits/Subsetting/UtilsSubsetting.hpp:convertSizeSubsetting", "include/etr_bits/Core/SubsetClass.hpp:operator[]"]}
{"id": "C26", "title": "Matrix subsetting is column-major", "statement": "m(R, C) for row and column selectors (TRUE, a number, a logical vector, a vector of positions) gives the matrix elements at the selected rows and columns in column-major order; unless a single row or column is selected the result is a matrix with those rows and columns.", "quantifier": "all matrix shapes, all selectors in range, every combination of selector kinds", "why_tests_cant": "sixteen and more selector combinations times all shapes", "anchors": ["include/etr_bits/Subsetting/MatrixSubsetting.hpp:calcIndMatrix"]}
{"id": "C27", "title": "Matrix indices are checked per dimension", "statement": "Selecting a row greater than the number of rows or a column greater than the number of columns throws.", "quantifier": "all shapes and indices", "why_tests_cant": "an index out of range in one dimension may hit another existing element", "anchors": ["include/etr_bits/Subsetting/MatrixSubsetting.hpp:calcIndMatrix", "include/etr_bits/Subsetting/at.hpp"]}
{"id": "C28", "title": "at() gives the element at a 1-based position", "statement": "at(v, i) is element i of v counted from 1, and at(m, r, c) the element in row r and column c; writes through at change exactly that element.", "quantifier": "all vectors, matrices, positions in range, and r-values as well as variables", "why_tests_cant": "all positions and kinds of operands", "anchors": ["include/etr_bits/Subsetting/at.hpp:at"]}
{"id": "C29", "title": "a:b on integers", "statement": "colon(a, b) for integers a and b is a, a+1, ..., b when a <= b and a, a-1, ..., b otherwise; it has |a-b|+1 elements.", "quantifier": "all pairs of ints with |a-b| below 2^31-1 and end point below INT_MAX (resp. above INT_MIN)", "why_tests_cant": "2^64 pairs", "anchors": ["include/etr_bits/Allocation/Colon.hpp:colonInternal"]}
{"id": "C30", "title": "a:b on doubles", "statement": "colon(a, b) for doubles has trunc(|a-b|)+1 elements, starting with a and going in steps of one towards b without passing it.", "quantifier": "all finite doubles", "why_tests_cant": "rounding only shows for particular values", "anchors": ["include/etr_bits/Allocation/Colon.hpp:colonInternal"]}
{"id": "C31", "title": "rep repeats", "statement": "rep(x, n) has length(x)*n elements and element i is element (i mod length(x)) of x.", "quantifier": "all non-empty x and n >= 1", "why_tests_cant": "all lengths and contents", "anchors": ["include/etr_bits/Allocation/Rep.hpp:repInternal"]}
{"id": "C32", "title": "matrix() builds a column-major matrix", "statement": "matrix(x, r, c) is a matrix with r rows and c columns holding x in column-major order (a scalar x in every cell) and throws when length(x) differs from r*c.", "quantifier": "all x, r >= 1, c >= 1", "why_tests_cant": "all shapes", "anchors": ["include/etr_bits/Allocation/Matrix.hpp:matrix"]}
{"id": "C33", "title": "vector() makes zero vectors", "statement": "vector_numeric(n), vector_integer(n) and vector_logical(n) have n zero elements; n < 1 throws.", "quantifier": "all n of magnitude below 2^31, given as int, bool, double or vector of length one", "why_tests_cant": "all lengths", "anchors": ["include/etr_bits/Allocation/Vector.hpp", "include/etr_bits/Allocation/AllocationUtils.hpp:createRVec"]}
{"id": "C34", "title": "coca concatenates", "statement": "coca(x1, ..., xk) holds the elements of x1, then those of x2 and so on, each converted to the common element type; its length is the sum of the lengths.", "quantifier": "any number of arguments of any lengths with a non-zero total below 2^31", "why_tests_cant": "all argument lists", "anchors": ["include/etr_bits/Coca.hpp:coca"]}
{"id": "C35", "title": "Sizes given as numbers are validated", "statement": "A size given as a number is accepted exactly when it is at least 1, and a fractional size is truncated.", "quantifier": "all ints and all finite doubles of magnitude below 2^31", "why_tests_cant": "all doubles", "anchors": ["include/etr_bits/Allocation/AllocationUtils.hpp:convertSize", "include/etr_bits/Core/Utils.hpp:isDoubleInt"]}
{"id": "C36", "title": "isNA and isInf test element-wise", "statement": "isNA(x) (isInf(x)) is a logical vector of the length of x whose element i is TRUE exactly when element i of x is NaN (infinite).", "quantifier": "all non-empty vectors, all values", "why_tests_cant": "all contents", "anchors": ["include/etr_bits/Helper.hpp:isNA", "include/etr_bits/Helper.hpp:isInf"]}
{"id": "C37", "title": "length and dim report the shape", "statement": "length(x) is the number of elements; dim(x) is (rows, columns) for a matrix and throws otherwise.", "quantifier": "all vectors below 2^31 elements, all shapes", "why_tests_cant": "all shapes", "anchors": ["include/etr_bits/Helper.hpp:length", "include/etr_bits/Helper.hpp:dim"]}
{"id": "C38", "title": "Comparison operators", "statement": "For finite doubles <, <=, >, >= agree with the order of the numbers, == holds exactly when the computed difference is below 1e-3 in magnitude, == is reflexive and symmetric, and != is the negation of ==.", "quantifier": "all doubles", "why_tests_cant": "all pairs of doubles", "anchors": ["include/etr_bits/Core/Traits.hpp:EqualTrait", "include/etr_bits/Core/Traits.hpp:UnEqualTrait"]}
{"id": "C39", "title": "Arithmetic on integer and logical vectors", "statement": "Adding, subtracting and multiplying integer vectors gives the mathematical results whenever they fit in an int; logical vectors count as 0 and 1.", "quantifier": "all element values", "why_tests_cant": "all values", "anchors": ["include/etr_bits/Core/Traits.hpp:PlusTrait", "include/etr_bits/Core/Traits.hpp:TimesTrait"]}
{"id": "C40", "title": "cmr interpolates through the data", "statement": "cmr(t, times, values) returns values[0] before the first time, values[last] after the last time, and exactly values[i] at times[i] for every interior knot; it needs equally long inputs of at least 4 points and throws otherwise.", "quantifier": "all strictly increasing time vectors of any length, all values (exact arithmetic)", "why_tests_cant": "all data sets", "anchors": ["include/etr_bits/Interpolation.hpp:cmrInternal"]}
{"id": "C41", "title": "cmr reads only the given data", "statement": "cmr never reads outside the given time and value vectors.", "quantifier": "all inputs of at least 4 points, all t", "why_tests_cant": "an out-of-bounds read of one element usually goes unnoticed", "anchors": ["include/etr_bits/Interpolation.hpp:cmrInternal", "include/etr_bits/Core/BaseStore.hpp:back"]}
{"id": "C42", "title": "li interpolates linearly", "statement": "li(t, times, values) returns the linear interpolation of the values at t.", "quantifier": "all data sets", "why_tests_cant": "all data sets", "anchors": ["include/etr_bits/Interpolation.hpp:li"]}
{"id": "C43", "title": "Forward derivatives of sums, products and constant quotients", "statement": "After an assignment in derivative mode the stored derivative of the target is the mathematical derivative of the right-hand side with respect to the chosen variable, for right-hand sides built from variables, constants, +, -, * and division by a constant, and through any sequence of such assignments to Buffer variables, over Buffer, Borrow and BorrowSEXP variables.", "quantifier": "all such expressions, all values, all lengths, all programs (sequences of assignments), all orders of asking for derivatives", "why_tests_cant": "all expressions and programs", "anchors": ["include/etr_bits/Vector/DerivativeCalc.hpp:walkTD", "include/etr_bits/Derivatives/DerivTypes.hpp", "include/etr_bits/Core/Traits.hpp:TimesDerivTrait"]}
{"id": "C44", "title": "Derivative of a quotient", "statement": "The stored derivative of l / r is (l' r - l r') / r^2.", "quantifier": "all values with r <> 0", "why_tests_cant": "all values", "anchors": ["include/etr_bits/Core/Traits.hpp:DivideDerivTrait"]}
{"id": "C45", "title": "Derivative of sine", "statement": "The stored derivative of sinus(e) is cos(e) e'.", "quantifier": "all arguments e", "why_tests_cant": "tests use e = the independent variable, where e' = 1", "anchors": ["include/etr_bits/Derivatives/DerivTypes.hpp:UnaryType"]}
{"id": "C46", "title": "Seeds of derivatives", "statement": "Assigning a constant vector to a variable sets all its derivatives to 1 if it is the independent variable and to 0 otherwise, and the derivative vector gets the length of the value vector.", "quantifier": "all lengths, all histories of the variable", "why_tests_cant": "all lengths and histories", "anchors": ["include/etr_bits/Vector/AssignmentOperator.hpp:isVariableType branch", "include/etr_bits/Derivatives/AllVars.hpp:resizeDerivs"]}
{"id": "C47", "title": "Distribution functions are vectorised", "statement": "dnorm, pnorm, qnorm, dunif, ... applied to vectors return a vector as long as the longest argument, each element computed from the recycled arguments.", "quantifier": "all argument lengths", "why_tests_cant": "all argument lengths", "anchors": ["include/etr_bits/Distri.hpp"]}
{"id": "C48", "title": "The random number state is never used by two threads at once", "statement": "Between fetching and storing R's random number state no other thread fetches it, and every fetch is followed by a store.", "quantifier": "all interleavings of any number of threads", "why_tests_cant": "schedules", "anchors": ["include/etr_bits/Distri.hpp:rnorm", "include/etr_bits/Distri.hpp:runif"]}
{"id": "C49", "title": "Conversion to R copies elements and shape", "statement": "Converting a vector to an R object gives an object with the same elements in the same order and, for a matrix, the same dimensions; a matrix whose rows*cols differs from its length throws.", "quantifier": "all vectors and matrices", "why_tests_cant": "all shapes", "anchors": ["include/etr_bits/SEXPConversions.hpp:cpp2R"]}
{"id": "C50", "title": "print shows every element once, matrices row by row", "statement": "print(x) of a vector shows its elements in order; print of an r x c matrix shows r lines of c elements, line i holding row i.", "quantifier": "all vectors and matrices", "why_tests_cant": "all shapes", "anchors": ["include/etr_bits/Printing.hpp:print"]}
{"id": "C51", "title": "Range iteration visits the elements in order", "statement": "A range-based for over a vector, or over a subset of one, visits exactly its elements in order.", "quantifier": "all vectors and subsets", "why_tests_cant": "all contents and index sets", "anchors": ["include/etr_bits/Vector/VectorClass.hpp:begin", "include/etr_bits/Vector/VectorClass.hpp:end"]}
{"id": "C52", "title": "Construction from a temporary takes over its elements", "statement": "Constructing a vector from a temporary of the same element type gives a vector with the temporary's elements and shape, without leaking or double freeing memory, and the result supports the same operations as any other vector.", "quantifier": "all temporaries, all later operations", "why_tests_cant": "depends on the operations that follow", "anchors": ["include/etr_bits/Vector/Constructors.hpp:Vec(Vec<T2, R2, Trait2> &&other_vec)"]}
{"id": "C53", "title": "Running out of memory is survivable", "statement": "If the allocator fails during resize, push_back or assignment, the exception leaves all vectors in a state in which they can be destroyed without freeing memory twice or touching freed memory.", "quantifier": "every operation and every point at which an allocation can fail", "why_tests_cant": "tests do not inject allocation failures", "anchors": ["include/etr_bits/Core/BaseStore.hpp:resize", "include/etr_bits/Core/BaseStore.hpp:realloc", "include/etr_bits/Core/BaseStore.hpp:init"]}
{"id": "C54", "title": "Vectors of 2^31 and more elements keep their size", "statement": "Assignment of a vector with 2^31 or more elements keeps its length.", "quantifier": "all lengths below 2^60", "why_tests_cant": "such tests need gigabytes of memory", "anchors": ["include/etr_bits/Core/BaseStore.hpp:moveit"]}
{"id": "C55", "title": "Reading does not modify", "statement": "Evaluating any expression, reading elements, sizes and shapes, leaves all vectors and all memory unchanged.", "quantifier": "all expressions and states", "why_tests_cant": "all expressions", "anchors": ["include/etr_bits/BinaryCalculations.hpp:operator[]", "include/etr_bits/UnaryCalculations.hpp:operator[]", "include/etr_bits/Core/SubsetClass.hpp:operator[] const"]}
{"id": "C56", "title": "The bubble sort example sorts", "statement": "The example function bs of the repository returns for every vector of doubles, and afterwards the argument has its old elements in ascending order.", "quantifier": "all vectors of doubles below 2^31 elements, every number of rounds", "why_tests_cant": "The example ships with one run on one short vector; the failure depends on how many exchanges an input needs.", "anchors": ["examples/bubblesort.cpp:4-21", "include/etr_bits/Vector/AssignmentOperator.hpp:51-60", "include/etr_bits/Core/BaseStore.hpp:259-279"]}
{"id": "C57", "title": "Assigning an R object copies its elements and shape", "statement": "Assigning an R object to a vector, or making storage of one, gives the vector the object's elements, converted to its element type, and the object's shape; an object of another type is refused and the vector stays usable.", "quantifier": "all vectors and R objects", "why_tests_cant": "depends on the contents, on the shape the vector had before, and on what happens after the exception", "anchors": ["include/etr_bits/Core/BaseStore.hpp:initSEXP", "include/etr_bits/Core/BaseStore.hpp:BaseStore(SEXP s)", "include/etr_bits/Vector/AssignmentOperator.hpp:operator=(SEXP s)"]}
{"id": "C58", "title": "Wrapping an R object shares its memory", "statement": "A vector made from a numeric R object shows its elements and shape without allocating or copying; element writes go to the R object and nowhere else, as does a number assigned to the vector; objects of other types are refused.", "quantifier": "all R objects and all sequences of element writes", "why_tests_cant": "all sequences of writes", "anchors": ["include/etr_bits/Core/BorrowSEXP.hpp:BorrowSEXP(SEXP inp)", "include/etr_bits/Vector/Constructors.hpp:Vec(SEXP inp)"]}
{"id": "C59", "title": "A copy of a wrapper is independent", "statement": "Copying a vector that wraps an R object gives a vector with the same elements and shape in memory of its own; later writes to one are not seen through the other.", "quantifier": "all wrappers", "why_tests_cant": "all lengths including zero, all later writes", "anchors": ["include/etr_bits/Core/BorrowSEXP.hpp:BorrowSEXP(const BorrowSEXP<T> &other)"]}
{"id": "C60", "title": "A wrapper can be bound to another R object", "statement": "Assigning an R object to a wrapper makes it show that object, frees memory the wrapper owned, and leaves the R object shown before alone.", "quantifier": "all wrappers and R objects", "why_tests_cant": "depends on who owns the memory shown before", "anchors": ["include/etr_bits/Core/BorrowSEXP.hpp:operator=(SEXP inp)"]}
{"id": "C61", "title": "push_back on a wrapper", "statement": "push_back on a wrapper appends the element and leaves R's memory alone.", "quantifier": "all wrappers and elements", "why_tests_cant": "depends on who owns the memory and on the capacity", "anchors": ["include/etr_bits/Core/BorrowSEXP.hpp:push_back", "include/etr_bits/Core/BorrowSEXP.hpp:realloc"]}
{"id": "C62", "title": "Copies and moves of borrowing vectors", "statement": "A copy of a borrowing vector refers to the same user memory with the same elements and shape, and each sees the other's writes; moving leaves the source empty.", "quantifier": "all borrowing vectors, all writes", "why_tests_cant": "all histories of writes", "anchors": ["include/etr_bits/Core/Borrow.hpp:Borrow(const Borrow<T> &other)", "include/etr_bits/Core/Borrow.hpp:Borrow(Borrow<T> &&other)"]}
{"id": "C63", "title": "Construction from a pointer", "statement": "A vector made of a pointer and a length, or a pointer and dimensions, has the pointed-to elements and that shape.", "quantifier": "all lengths and dimensions, all storage kinds", "why_tests_cant": "all lengths including zero", "anchors": ["include/etr_bits/Vector/Constructors.hpp:Vec(BaseType *ptr, std::size_t size)", "include/etr_bits/Vector/Constructors.hpp:Vec(BaseType *ptr, std::size_t rows, std::size_t cols)"]}
{"id": "C64", "title": "Assigning Rcpp and Armadillo objects", "statement": "Assigning an Rcpp or Armadillo vector or matrix, or constructing from one, copies elements and shape; borrowed memory is written only within the borrowed length and R's memory is never freed.", "quantifier": "all foreign objects, all storage kinds", "why_tests_cant": "all lengths including zero, all storage kinds", "anchors": ["include/etr_bits/Vector/VectorClass.hpp:operator=(Rcpp::NumericVector &otherVec)", "include/etr_bits/Vector/VectorClass.hpp:Vec(arma::mat otherVec)"]}
{"id": "C65", "title": "Conversion to Rcpp and Armadillo", "statement": "Converting an expression to an Rcpp or Armadillo vector or matrix gives its elements as doubles and its shape; converting back gives the same vector; what is not a matrix is refused by the matrix conversions.", "quantifier": "all expressions", "why_tests_cant": "all expressions and lengths", "anchors": ["include/etr_bits/Vector/VectorClass.hpp:operator Rcpp::NumericMatrix", "include/etr_bits/Vector/VectorClass.hpp:operator arma::mat"]}
{"id": "C66", "title": "Structured programs do what they say", "statement": "A program of local vectors, assignments to vectors, subsets and elements, if, while and range-based for loops over vectors the library makes ends as its meaning on lists says (normally, or by the same exception); every vector in scope then holds the elements of that meaning, vectors of scopes that were left are gone, and nothing leaks. A whole program releases all memory it took.", "quantifier": "all programs with a defined meaning on lists, all states, any number of rounds", "why_tests_cant": "all programs and all nestings of statements", "anchors": ["examples/fibonacci.cpp:4-14", "include/etr_bits/Vector/AssignmentOperator.hpp:operator=", "include/etr_bits/Core/SubsetClass.hpp:operator=", "include/etr_bits/Vector/VectorClass.hpp:operator RetType"]}
{"id": "C67", "title": "The Fibonacci example", "statement": "The example computes the first n Fibonacci numbers: every element from the third on is the rounded sum of its two predecessors, and the elements are exact as long as the numbers are at most 2^53, which are the first 78.", "quantifier": "all n from 3 to 2^30, all states", "why_tests_cant": "one run with n = 20 does not show where the elements stop being exact", "anchors": ["examples/fibonacci.cpp:4-14", "include/etr_bits/Allocation/Colon.hpp:colon"]}
{"id": "C68", "title": "Construction from an expression", "statement": "A vector declared with an expression holds the elements the expression has on lists, converted to the vector's element type, in memory of its own, with the shape of the expression; an empty expression is refused; if the evaluation or the allocation ends in an exception nothing is left behind. A matrix made of rows, columns and a value is filled with the value.", "quantifier": "all expressions, all states", "why_tests_cant": "depends on the lengths, on the allocator and on where the evaluation fails", "anchors": ["include/etr_bits/Vector/Constructors.hpp:Vec(BinaryOperation)", "include/etr_bits/Vector/Constructors.hpp:Vec(UnaryOperation)", "include/etr_bits/Vector/Constructors.hpp:Vec(value, rows, cols)"]}
{"id": "C69", "title": "Shape of expressions", "statement": "The shape an expression hands to the vector it is assigned to is the largest number of rows and the largest number of columns of the matrices in it; computing it never fails; the shape fits the number of elements.", "quantifier": "all expressions, all states", "why_tests_cant": "depends on the shapes of all operands", "anchors": ["include/etr_bits/BinaryCalculations.hpp:32-87", "include/etr_bits/UnaryCalculations.hpp:16-37", "include/etr_bits/Vector/AssignmentOperator.hpp:106-108"]}
{"id": "C70", "title": "Conversion of a vector to a scalar", "statement": "Using a vector, subset or expression where a number or a truth value is expected gives its first element.", "quantifier": "all expressions with at least one element", "why_tests_cant": "depends on the length and on the kind of operand", "anchors": ["include/etr_bits/Vector/VectorClass.hpp:43-54"]}
{"id": "C71", "title": "fill from a temporary of the same type", "statement": "fill copies or takes over the elements of a temporary of the same length; other lengths are refused; afterwards every later operation stays within the memory taken over, and borrowed memory is never freed.", "quantifier": "all storage objects of equal element type", "why_tests_cant": "the tests only fill vectors of double with vectors of int, which never take over the pointer; the overrun needs a later resize", "anchors": ["include/etr_bits/Core/BaseStore.hpp:158-184", "include/etr_bits/Core/Borrow.hpp:95-111"]}
{"id": "C72", "title": "back is the last element", "statement": "back() of a non-empty vector gives its last element.", "quantifier": "all non-empty vectors of every storage kind", "why_tests_cant": "a read one past the end often happens to succeed because of the reserve", "anchors": ["include/etr_bits/Vector/VectorClass.hpp:86", "include/etr_bits/Core/BaseStore.hpp:310", "include/etr_bits/Core/Borrow.hpp:157", "include/etr_bits/Core/BorrowSEXP.hpp:216"]}
{"id": "C73", "title": "Assignment between borrowing storage objects", "statement": "Assigning a Borrow to a Borrow makes both refer to the same memory and changes no element; assigning a wrapper of an R object to another copies the elements, self-assignment does nothing; set writes one element of the borrowed memory.", "quantifier": "all borrowing storage objects", "why_tests_cant": "depends on who owns the memory and on later writes through either object", "anchors": ["include/etr_bits/Core/Borrow.hpp:75-82", "include/etr_bits/Core/Borrow.hpp:134-138", "include/etr_bits/Core/BorrowSEXP.hpp:86-94"]}
{"id": "C74", "title": "Arithmetic on doubles and mixed vectors", "statement": "+, -, * of vectors of which one holds doubles, and / of any vectors, give at every position the double nearest to the real result (ties to even), an infinity of the right sign if that is out of range; division by zero gives infinities or NaN, NaN propagates; unary minus is exact.", "quantifier": "all expressions, all logicals, ints and doubles, all lengths with recycling", "why_tests_cant": "all pairs of doubles", "anchors": ["include/etr_bits/Core/Traits.hpp:235-270", "include/etr_bits/BinaryCalculations.hpp:97-107", "include/etr_bits/UnaryCalculations.hpp:45-52"]}
{"id": "C75", "title": "Mathematical functions and powers of vectors", "statement": "sin, exp, sqrt and the others apply the C library's function to every element, ints and logicals converted exactly; the power of two vectors is the library's pow of the elements, truncated to an int if both hold ints.", "quantifier": "all expressions, every C library", "why_tests_cant": "all elements and all mathematics libraries", "anchors": ["include/etr_bits/Core/Traits.hpp:271-276", "include/etr_bits/Core/Traits.hpp:340-378"]}
{"id": "C76", "title": "Memory safety of histories of statements", "statement": "Whatever declarations, assignments, element and subset writes, reads, loops and ends of scope a program performs on vectors that own their memory, with exceptions caught after every statement, it never reads or writes outside a live block, reads an element that was never written, frees a block twice or leaks one.", "quantifier": "all sequences of statements, all sizes and positions, every element type, every allocation limit below 2^31", "why_tests_cant": "all interleavings of failing and succeeding statements", "anchors": ["include/etr_bits/Core/BaseStore.hpp:20-310", "include/etr_bits/Vector/Constructors.hpp:9-184", "include/etr_bits/Vector/AssignmentOperator.hpp:15-171", "include/etr_bits/Vector/VectorClass.hpp:40-130"]}
{"id": "C77", "title": "Constants of derivative programs", "statement": "scalarDeriv<k>, coca<k> and colon<k> put exactly the elements the function without AllVars would give (as doubles) into constant k, whatever it held before, and change nothing else; vector_numeric<k>(av, n) and its relatives give n zeros.", "quantifier": "all arguments, all previous contents of the constant, every allocation limit", "why_tests_cant": "the constants are reused in every round of a loop, so the result depends on the history", "anchors": ["include/etr_bits/Allocation/ScalarForDeriv.hpp:8-17", "include/etr_bits/Coca.hpp:133-182", "include/etr_bits/Allocation/Colon.hpp:248-478", "include/etr_bits/Allocation/Vector.hpp:104-256"]}
{"id": "C78", "title": "Loading the variables of a derivative program", "statement": "initBuffer, initBorrow and initBorrowSEXP give variable i the elements (as doubles) and the shape of argument i, leave the arguments and everything else unchanged and leak nothing; afterwards derivatives are those of C43.", "quantifier": "all numbers of arguments, all argument lengths and element types, every allocation limit", "why_tests_cant": "no test calls these functions; the number of arguments is unbounded", "anchors": ["include/etr_bits/Derivatives/AllVars.hpp:39-68", "include/etr_bits/Vector/AssignmentOperator.hpp:44-109"]}
{"id": "C79", "title": "Logical matrix and vector indices", "statement": "FALSE as an index is rejected; indexing something that is not a matrix with two indices is rejected; a logical row or column index is recycled when it is shorter than the dimension and rejected when it is longer.", "quantifier": "all matrices, all logical indices of any length, every other index beside them", "why_tests_cant": "the length of the mask, of the dimension and the kind of the other index are all free", "anchors": ["include/etr_bits/Subsetting/VectorSubsetting.hpp:16-69", "include/etr_bits/Subsetting/MatrixSubsetting.hpp:38-573"]}
{"id": "C80", "title": "Memory safety of nested programs", "statement": "A program over owning vectors and matrices (nested scopes, if, while, range-based for, try/catch, declarations from calls and expressions, assignments, vector and matrix subsets, at, fill, resize) never reads or writes outside a live block, never frees twice and never leaks: its only undefined behaviour is that of arithmetic and, after resize or x(p) = y(q), of reading an unwritten element. When a whole program ends, also by an exception it does not catch, nothing is allocated.", "quantifier": "all programs, all subscripts, lengths and values, all numbers of rounds, every allocation limit below 2^31", "why_tests_cant": "the set of programs is infinite; a leak or double free on the path of an exception depends on where it is thrown", "anchors": ["include/etr_bits/Core/BaseStore.hpp:24-360", "include/etr_bits/Vector/AssignmentOperator.hpp:44-250", "include/etr_bits/Subsetting/VectorSubsetting.hpp:16-89", "include/etr_bits/Subsetting/MatrixSubsetting.hpp:38-596", "include/etr_bits/Allocation/Matrix.hpp:31-105"]}
{"id": "C81", "title": "Programs with matrices refine their meaning on lists", "statement": "A program over vectors and matrices (subset and at with one and two subscripts, matrix, dim, isNA, colon, rep, coca, run-time scalars, fill, declarations, nested scopes, if, while, range-based for, try/catch) ends exactly as its meaning on lists with shapes says - normally, by the same exception or not yet -, every vector in scope then holds exactly the elements and has the shape of that meaning, all others are gone and nothing leaks.", "quantifier": "all programs of the language, all inputs that fit in memory, all numbers of rounds", "why_tests_cant": "the set of programs and of inputs is infinite; shapes and elements depend on the whole history of the program", "anchors": ["include/etr_bits/Core/BaseStore.hpp:24-360", "include/etr_bits/Vector/AssignmentOperator.hpp:44-250", "include/etr_bits/Subsetting/MatrixSubsetting.hpp:38-596", "include/etr_bits/Subsetting/at.hpp:17-134", "include/etr_bits/Allocation/Matrix.hpp:31-105", "include/etr_bits/Helper.hpp:36-124"]}
{"id": "C82", "title": "Transposition and multiplication of matrices", "statement": "The loops for (i : colon(1, n)) for (j : colon(1, m)) at(y, j, i) = at(x, i, j) transpose every matrix x; the three loops with at(z, i, j) = at(z, i, j) + at(x, i, k) * at(y, k, j) multiply all matrices x and y: each element is the sum from left to right of the rounded products, and the exact product when entries are whole and no partial sum exceeds 2^53.", "quantifier": "all numbers of rows and columns, all elements", "why_tests_cant": "sizes and elements are unbounded; an exchanged subscript shows only for matrices that are not square", "anchors": ["include/etr_bits/Subsetting/at.hpp:17-134", "include/etr_bits/Allocation/Colon.hpp:10-246", "include/etr_bits/Allocation/Matrix.hpp:31-105", "include/etr_bits/Vector/VectorClass.hpp:61-74"]}
{"id": "C83", "title": "Functions called from R", "statement": "A C++ function that takes R objects (Vec<t> x; x = r;), runs a program over vectors and matrices and returns cpp2R(e) gives R a new object with exactly the elements, the type and the dimensions the program means, or throws the exception the program throws. An argument of another type than its parameter is refused. The memory of R is unchanged in all cases, no C++ memory is left and the next call starts from the same state.", "quantifier": "all functions of the language, all numbers and types of parameters, all R objects that fit in memory, all numbers of rounds", "why_tests_cant": "the set of functions and arguments is infinite; leaks and changed arguments show only after many calls and depend on where an exception is thrown", "anchors": ["include/etr_bits/SEXPConversions.hpp:38-129", "include/etr_bits/Core/BaseStore.hpp:188-234", "include/etr_bits/Vector/AssignmentOperator.hpp:244-247", "include/etr_bits/Vector/Constructors.hpp:115-115"]}
{"id": "C84", "title": "Functions on R matrices", "statement": "The function that reads the dimensions of its argument with dim(), makes a matrix and fills it with at() returns the transposed R matrix; the one with three loops returns the product of two R matrices. Transposing twice gives back the matrix bit for bit, and the transposed product is bit for bit the product of the transposed factors in the other order.", "quantifier": "all numbers of rows and columns, all elements, all states of R", "why_tests_cant": "sizes and elements are unbounded; equality bit for bit needs the commutativity of rounded multiplication for all doubles", "anchors": ["include/etr_bits/SEXPConversions.hpp:38-129", "include/etr_bits/Core/BaseStore.hpp:188-234", "include/etr_bits/Subsetting/at.hpp:17-134", "include/etr_bits/Helper.hpp:100-124", "include/etr_bits/Allocation/Matrix.hpp:31-105"]}
{"id": "C85", "title": "Memory safety of functions called from R, and of R sessions", "statement": "Let a function called from R have any parameters and any body the compiler accepts: programs with nested blocks, loops, matrices, at(), subsets and exceptions, local vectors, scalars, conditionals, and a return of an expression that is not itself a subset. Let its arguments be any R objects (of the right or the wrong type, of any size). Then no memory is freed twice, used after it was freed, accessed outside its block, and no null pointer is followed; only arithmetic or the reading of a never written element can be undefined, and only arithmetic if the body uses no resize and no assignment of a shared vector to a subset of itself. When the call ends, by a result or an exception, the library holds no memory, nothing leaked, the memory of R is unchanged and the result is a complete R object; so any session of such calls, on earlier results and decided by them, is as safe as its first call.", "quantifier": "for all functions, R objects, memory limits below 2^31 elements and sessions of any length", "why_tests_cant": "tests run particular functions on particular arguments; an allocation of cpp2R that is too small for what is written needs extents that differ modulo 2^32", "anchors": ["include/etr_bits/SEXPConversions.hpp:38-129", "include/etr_bits/Core/BaseStore.hpp:188-234", "include/etr_bits/Vector/Constructors.hpp:115", "include/etr_bits/Vector/VectorClass.hpp:30-97"]}
{"id": "C86", "title": "Memory of the caller and of R is never freed, and changed only where it is lent", "statement": "While any program runs on vectors that own their memory, borrow arrays of the caller or wrap R objects (wrappers are not assigned as a whole), every block that does not belong to the library stays allocated with its owner and length, keeps all its written elements written, and keeps unchanged every element beyond what the vectors in scope reach, also when statements throw. Any number of vectors may borrow or wrap the same memory.", "quantifier": "all programs and histories, all arrays and R objects with at least one element, all patterns of aliasing", "why_tests_cant": "tests see the memory they look at, for the programs they run; a stray write or a free of borrowed memory shows only in particular interleavings of lengths, exceptions and ends of scope", "anchors": ["include/etr_bits/Core/Borrow.hpp:29-180", "include/etr_bits/Core/BorrowSEXP.hpp:28-255", "include/etr_bits/Vector/AssignmentOperator.hpp:25-250", "include/etr_bits/Vector/Constructors.hpp:35-48"]}
{"id": "C87", "title": "Expressions never read an operand whose lifetime is over", "statement": "An operation holds references to its operands and a subset a pointer to what it selects from. While the full expression is evaluated all of them are alive, so that size, shape, elements and assignment are those of the expression tree. A variable declared with auto (or a result returned from a function) stands for its expression, with the values its vectors have when it is used; a program with such variables runs as the program with each name replaced by its expression.", "quantifier": "all expressions of any depth, all programs with named expressions, all states", "why_tests_cant": "the number of expressions is infinite; reading a dead temporary often gives the right value by chance, depending on the compiler", "anchors": ["include/etr_bits/BinaryCalculations.hpp:19-420", "include/etr_bits/UnaryCalculations.hpp:9-312", "include/etr_bits/Core/SubsetClass.hpp:6-136", "include/etr_bits/Subsetting/VectorSubsetting.hpp:71-91", "include/etr_bits/Vector/AssignmentOperator.hpp:44-237"]}
{"id": "C88", "title": "Element types", "statement": "Every element a program writes has the type of all vectors that can see it, and vectors keep their element types, whatever the program does. The element type the compiler gives an expression is the common type of its operands; the numbers it computes are bools for comparisons, doubles for quotients and functions, and of the common type otherwise. A subset by an expression of bools selects the elements where it holds, and a vector made of an expression holds its values.", "quantifier": "all programs, expressions of any depth, all states and storage classes", "why_tests_cant": "types are chosen at compile time for each of infinitely many expressions; a value of the wrong type changes results only for particular values", "anchors": ["include/etr_bits/BinaryCalculations.hpp:97-420", "include/etr_bits/UnaryCalculations.hpp:45-312", "include/etr_bits/Core/Types.hpp:30-38", "include/etr_bits/Vector/VectorClass.hpp:18-54", "include/etr_bits/Subsetting/VectorSubsetting.hpp:16-89", "include/etr_bits/Coca.hpp:12-131"]}
{"id": "C89", "title": "Conversions to R and the garbage collector of R", "statement": "R may free, whenever it allocates, any object it does not reach and that is not protected. For every such collector, cpp2R gives R an object that is complete and alive, whatever memory of R the expression reads, protects it while it is written, and leaves the stack of protected objects as it was, also when it throws; nothing R reaches is freed, and objects returned earlier stay alive.", "quantifier": "all collectors, all expressions, shapes, sizes and states of R", "why_tests_cant": "a collection happens at moments no test controls; a stack one too long is only reported when R returns to the top level, and freed memory often still holds the old values", "anchors": ["include/etr_bits/SEXPConversions.hpp:12-129", "include/etr_bits/Core/BorrowSEXP.hpp:34-71"]}
{"id": "C90", "title": "The derivative type of an expression", "statement": "Of a right-hand side the compiler makes a type whose static functions give the number of elements, the elements and the derivatives. There is one exactly for expressions over variables and constants of the AllVars object with sums, differences, products, quotients, comparisons and sines; it computes as many derivatives as the expression has elements, namely as many as the longest operand; each operand is recycled by itself; a constant divisor is treated as one.", "quantifier": "all expressions of any depth and all states", "why_tests_cant": "the types are made at compile time for each of infinitely many expressions; a test instantiates a few", "anchors": ["include/etr_bits/Vector/DerivativeCalc.hpp:7-189", "include/etr_bits/Derivatives/DerivTypes.hpp:10-146", "include/etr_bits/Core/Concepts.hpp:135-356", "include/etr_bits/Vector/AssignmentOperator.hpp:172-214"]}
{"id": "C91", "title": "Functions that leave loops and scopes by return, break and continue", "statement": "A function called from R may return from inside any loop and block and may leave rounds and loops by continue and break. It gives back what its body means on lists, as a new R object; on the way out every vector of every scope that is left is destroyed exactly once and after the result has been made, so that when the call has ended no allocation is left and the memory of R is as before. For every such body the compiler accepts, nothing but arithmetic or the reading of a never written element can be undefined; a function all of whose paths return never ends without a result.", "quantifier": "all bodies of any nesting, all parameters and R objects, any number of rounds", "why_tests_cant": "the number of ways out of nested scopes grows with the nesting; a leak or a double free on one of them shows only in the run that takes it", "anchors": ["include/etr_bits/SEXPConversions.hpp:38-129", "include/etr_bits/Core/BaseStore.hpp:188-246", "include/etr_bits/Vector/Constructors.hpp:115", "examples/bubblesort.cpp:6-20"]}
{"id": "C92", "title": "Functions and R programs under every garbage collector", "statement": "Whenever R's collector runs during a call of a function of the library and whatever it frees of the objects R does not have to keep, the call ends exactly as without a collector: same result, same exception; the result object is intact, the objects R reaches keep their elements, and the protection stack is as before when a function without catch returns. An R program that calls such functions again and again, makes vectors of its own, looks at elements and forgets objects it no longer uses cannot observe the collector, and no use of freed memory is possible.", "quantifier": "all collectors, all functions, all R programs, any number of calls and collections", "why_tests_cant": "collections happen at times no test controls (R offers gctorture for single spots); a missing PROTECT shows only if one falls between two particular instructions", "anchors": ["include/etr_bits/SEXPConversions.hpp:12-129", "include/etr_bits/Core/BaseStore.hpp:188-246", "include/etr_bits/Vector/AssignmentOperator.hpp:244-247"]}
{"id": "C93", "title": "Functions that use the memory of R objects", "statement": "A function called from R may take parameters that wrap the memory of R objects instead of copying them. Whatever such functions do, in any number of calls, with one object passed to several parameters, the program is memory safe; R's memory that is not wrapped is unchanged, wrapped memory stays R's, as long as before and with elements of its type; nothing the library allocated is left when a call has ended or thrown; writes through one wrapper are seen through the others and by R.", "quantifier": "all functions, all parameter lists and aliasings, all R objects, any number of calls", "why_tests_cant": "a test sees one aliasing and one function; that memory of R never reaches delete[] and that element types are kept holds over all programs and shows in tests only as a crash of R some time later", "anchors": ["include/etr_bits/Core/BorrowSEXP.hpp:34-71", "include/etr_bits/Vector/Constructors.hpp:44-48", "include/etr_bits/Vector/AssignmentOperator.hpp:43-171", "include/etr_bits/Core/BorrowSEXP.hpp:164-213"]}
{"id": "C94", "title": "Printed text", "statement": "print and operator<< write the elements of a vector in order on one line, the rows of a matrix on a line each, and nothing else; integers can be read back from the text and two vectors of integers or logical values with the same text have the same elements; when an element throws, the elements before it have been written; in a sequence of calls every call adds its own text, which does not depend on the calls before it. print(inp, av) of a variable of a derivative program writes the same text, and operator<< of a shape writes the numbers of rows and columns.", "quantifier": "all vectors, expressions and matrices of all sizes and element values, all sequences of calls, all states of the stream", "why_tests_cant": "a test compares the text of a few values on a fresh stream; that separators never merge two elements, that every number reads back, and that the formatting state left by earlier calls does not matter are claims about all values and all histories", "anchors": ["include/etr_bits/Printing.hpp:17-105", "include/etr_bits/Vector/VectorClass.hpp:89-96", "include/etr_bits/Core/BaseStore.hpp:349-357", "include/etr_bits/Core/MatrixParameter.hpp:25-29", "include/etr_bits/Derivatives/VarPointer.hpp:104-116"]}
{"id": "C95", "title": "Conversions between the element types", "statement": "Converting a value to the element type of the vector it is assigned to gives the value C++ asks for: doubles to ints are cut towards zero, ints and logical values become exactly equal doubles, everything but zero becomes true, also what is not a number; the conversion is undefined exactly when the integer part of a double does not fit an int, or the double is not finite. x = y has the converted elements of y; going to a wider type and back loses nothing; if and while test whether the value is not zero.", "quantifier": "all values of the three types, all pairs of types, all vectors of all lengths", "why_tests_cant": "there are 2^64 doubles, and out-of-range conversions are undefined behaviour that a test may see as any int", "anchors": ["include/etr_bits/Core/Utils.hpp:37-45", "include/etr_bits/Vector/AssignmentOperator.hpp:43-171", "include/etr_bits/Vector/VectorClass.hpp:43-54"]}
{"id": "C96", "title": "Wrapped R objects and R's garbage collector", "statement": "A function that uses the memory of R objects in place ends under every behaviour of R's garbage collector as it would without one, with the same result and the same elements in the wrapped objects, provided R reaches the wrapped objects during the call; whole R programs that make objects, call such functions, look at elements and forget objects cannot tell which collector they run with, are memory safe, and find the objects they still reach and never passed to a wrapping parameter unchanged.", "quantifier": "all collectors, all functions and parameter lists with any aliasing, all R programs of any length", "why_tests_cant": "the collector runs when it likes; a test meets one schedule, and an object freed too early shows as a wrong number or a crash long after the call", "anchors": ["include/etr_bits/Core/BorrowSEXP.hpp:34-71", "include/etr_bits/Vector/Constructors.hpp:44-48", "include/etr_bits/Vector/SEXPConversions.hpp:38-129"]}
{"id": "C97", "title": "Derivative programs are memory safe", "statement": "A program of assignments to the Buffer variables of an AllVars object never touches memory it must not, never reads an element that was not written, never frees twice and loses no block, whatever its right-hand sides are; the user's data behind Borrow and BorrowSEXP variables stay as they are however the program ends. If every variable has elements when it is read, the program is defined: it ends, stops at an assertion or runs out of memory; afterwards get() and get_derivs() of every variable are defined.", "quantifier": "all programs of any length over all operators, constants (also reused ones), unequal lengths, targets on their own right-hand sides, all inputs and every amount of memory", "why_tests_cant": "lengths of values and derivatives change during a statement and cells beyond the old length are uninitialised; tests use equal lengths and a fresh object", "anchors": ["include/etr_bits/Derivatives/VarPointer.hpp:104-212", "include/etr_bits/Vector/AssignmentOperator.hpp:172-233", "include/etr_bits/Derivatives/DerivTypes.hpp:9-87", "include/etr_bits/Core/BaseStore.hpp:259-293"]}
{"id": "C98", "title": "Memory decides whether a program gets through, not what it computes", "statement": "If a program of the library, a function called from R (with copying or wrapping parameters) or a derivative program comes to its end, with a value or an exception of the library, when the allocator serves requests of up to L elements, then with every larger limit it ends in the same way, with the same elements at the same places and the same blocks in use. So no two limits that suffice give different results, and there is a least limit that suffices. Memory safety of calls from R (C91) therefore holds for every amount of memory, if fewer than 2^31 elements suffice.", "quantifier": "all programs with loops, scopes, subsets and try/catch, all calls and bodies, all derivative programs, all states and all pairs of limits", "why_tests_cant": "tests run with one amount of memory; growing a vector, cleaning up and catching exceptions are where a dependence on failed allocations would hide", "anchors": ["include/etr_bits/Core/BaseStore.hpp:103-293", "include/etr_bits/Core/BorrowSEXP.hpp:28-149", "include/etr_bits/Vector/AssignmentOperator.hpp:13-248", "include/etr_bits/Allocation/Colon.hpp:17-233", "include/etr_bits/SEXPConversions.hpp:38-129"]}
{"id": "C99", "title": "The order of evaluation that C++ leaves open", "statement": "C++ does not say which operand of an operator or which argument of a call is evaluated first. An element of an expression of vectors has the same value in every order, is missing in one order only if it is missing in all, and evaluating it changes nothing. Derivative programs show the same values and the same derivatives of every variable in every order, and stay memory safe and defined in every order.", "quantifier": "all orders, a different one at every place, index and state; all expressions and indices; all derivative programs, inputs and amounts of memory", "why_tests_cant": "a test runs in the one order its compiler chose; inputs get their derivatives at the first access and constants are stored when they are built, so the order can matter", "anchors": ["include/etr_bits/BinaryCalculations.hpp:97-107", "include/etr_bits/Derivatives/DerivTypes.hpp:9-87", "include/etr_bits/Derivatives/VarPointer.hpp:104-212", "include/etr_bits/Coca.hpp:133-185", "include/etr_bits/Vector/AssignmentOperator.hpp:172-233"]}
{"id": "C100", "title": "Derivative programs go on after a caught exception", "statement": "In derivative programs with try blocks around statements, nested in any way, catching the exceptions of the library: if every variable read has elements on every way to the read, the program is free of undefined behaviour, leaves the inputs untouched and loses no memory, and at its end or at an exception that leaves it every storage object is sound and holds written doubles only; get and get_derivs then work. A failing statement leaves the values of all variables as they were, and fails only because a constant has no elements or because the target is on its own right-hand side and shorter than another operand. The derivatives of the target are not kept (refuted).", "quantifier": "all programs, nestings of handlers, operators, lengths, inputs and amounts of memory", "why_tests_cant": "what an exception leaves behind is visible only to code that goes on; tests that expect an exception stop there", "anchors": ["include/etr_bits/Vector/AssignmentOperator.hpp:172-233", "include/etr_bits/Derivatives/VarPointer.hpp:104-212", "include/etr_bits/Core/Utils.hpp:54-62", "include/etr_bits/Core/BaseStore.hpp:259-293"]}
{"id": "C101", "title": "Where memory is does not matter", "statement": "A program, a function called from R or a derivative program that finds the same contents at other addresses - next to any other memory, after any earlier allocations - ends in the same way, with the same values, the same exception or the same undefined behaviour; results and vectors hold the same at corresponding addresses, and memory that is not part of the correspondence is left alone. No address, no order of addresses and no history of the heap is ever visible in a result.", "quantifier": "all programs, function bodies, parameters, derivative programs and states; all injective placements of the memory, all other contents of the heap", "why_tests_cant": "a test runs at the addresses the allocator happens to give it; a dependence on addresses or on leftovers of earlier calls shows up only as a rare irreproducible failure", "anchors": ["include/etr_bits/Core/BaseStore.hpp:36-52", "include/etr_bits/Core/BaseStore.hpp:158-187", "include/etr_bits/Core/BaseStore.hpp:236-293", "include/etr_bits/Core/BorrowSEXP.hpp:34-71", "include/etr_bits/SEXPConversions.hpp:38-129", "include/etr_bits/Derivatives/VarPointer.hpp:104-212"]}
{"id": "C102", "title": "How often memory is asked for", "statement": "A program that makes no vectors and takes no subsets runs in the memory its vectors already have, provided every assigned vector has room for n elements in use and in reserve and no operand is longer than n: no block is obtained, released or resized, std::bad_alloc is never thrown however little the allocator is able to serve, and the room is still there at the end, after any number of loop rounds and whether or not exceptions are caught. An assignment asks for one block at most; assigning k elements again and again asks for two in all, and after two such assignments the vector is in the state described first. Appending k elements to an empty storage object asks for memory exactly 1 + ceil(log2 k) times and reserves less than twice what is needed.", "quantifier": "all programs of the fragment, numbers of rounds, expressions, lengths, contents and allocators", "why_tests_cant": "a test sees that a loop finishes, not that it would with no memory left; the number of allocations is not visible in any result", "anchors": ["include/etr_bits/Core/BaseStore.hpp:248-279", "include/etr_bits/Core/BaseStore.hpp:295-348", "include/etr_bits/Vector/AssignmentOperator.hpp:7-60", "include/etr_bits/Vector/AssignmentOperator.hpp:120-129"]}
{"id": "C103", "title": "Programs may be rewritten", "statement": "Statements that do not change what the others mention may be executed in any order; a statement changes no vector but those its text assigns to; a statement whose results are not mentioned afterwards may be left out; one round of a loop may be written in front of it; sequences may be regrouped, empty statements dropped, a continuation moved into both branches and a handler of a handler moved into it, anywhere in a program and any number of times; what follows break, continue or return may be dropped; an assignment that is overwritten at once may be left out; a value that was assigned to x may be read from x instead of being computed again. In each case the program ends in the same way and all vectors concerned have the same elements and the same shapes.", "quantifier": "all statements, any number of independent statements and any permutation of them, numbers of rounds, contents, lengths and shapes", "why_tests_cant": "equivalence of programs quantifies over pairs of programs and all states; a hidden dependency between vectors through memory, reserve or the shape would show only for particular pairs", "anchors": ["include/etr_bits/Vector/AssignmentOperator.hpp:7-60", "include/etr_bits/Vector/AssignmentOperator.hpp:100-130", "include/etr_bits/Vector/VectorClass.hpp:43-60", "include/etr_bits/Core/BaseStore.hpp:236-279"]}
{"id": "C104", "title": "Programs proved correct: invariants, variants, Euclid, sums", "statement": "Rules for proving programs of the library correct are sound for their execution in memory: from rules for single statements, sequences, conditions, while loops (an invariant and a decreasing natural number), for loops (an invariant over the part already seen), scopes and handlers one concludes that the program ends after finitely many rounds in the state claimed, or by an exception claimed, without leaks; and the rules prove everything the meaning of programs on lists says; what is said about vectors a program does not assign to may be added, and two facts about the same program may be joined. Used on int vectors: Euclid's algorithm by subtraction leaves the greatest common divisor for all non-negative ints and changes no other vector, division by repeated subtraction leaves quotient and remainder, and adding up colon(1, n) leaves n(n+1)/2 for all n whose sum is an int; a write with at and a handler that sets a fallback writes exactly the position given when it is one of the vector and leaves the fallback otherwise.", "quantifier": "all programs, assertions, invariants and variants; all pairs of ints from 0 to 2^31 - 1; all n from 1 to 65535; all vectors and positions of the write; all other contents of memory", "why_tests_cant": "termination and the result are claimed for about 2^62 pairs of numbers and loops of up to 2^33 rounds; the soundness of the rules quantifies over programs and assertions", "anchors": ["include/etr_bits/Vector/AssignmentOperator.hpp:7-60", "include/etr_bits/Vector/VectorClass.hpp:43-60", "include/etr_bits/Core/Traits.hpp:235-253", "include/etr_bits/Core/Traits.hpp:309-328"]}
