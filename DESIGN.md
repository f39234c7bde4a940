# Formal model of ETR in Rocq (Coq 8.16.1)

ETR is a header-only C++20 expression-template library that gives R-like
vectors (`/repo/include/etr_bits`).  Nothing here was compiled or run: the model
is written from the text of the headers at the pinned commit.  Paths below are
relative to `include/etr_bits` unless they start with `examples/`.

The properties are in `properties.jsonl`, the theorems for each of them in
`MANIFEST.json`, the attempts to break the theorems with wrong programs in
`seeded/LOG.jsonl`.

## Layout of `rocq/theories`

| layer | files | code modelled |
|-------|-------|---------------|
| outcomes, monad | `Base.v` | results of C++ calls: value, exception, undefined behaviour |
| machine numbers, element operations | `Num.v` | `int`, `size_t`, binary64 (`Coq.Floats.SpecFloat`, prec 53, emax 1024), conversions, `Core/Traits.hpp` |
| storage | `StoreModel.v` | `Core/BaseStore.hpp`, `Core/MatrixParameter.hpp`, `Core/Borrow.hpp`, `Core/BorrowSEXP.hpp`, `Constructors.hpp` 201-212 |
| vectors, expressions, assignment | `VecModel.v` | `Vector/Constructors.hpp`, `Vector/AssignmentOperator.hpp`, `Vector/VectorClass.hpp`, `BinaryCalculations.hpp`, `UnaryCalculations.hpp`, `Core/SubsetClass.hpp` |
| subsetting, at | `SubsetModel.v` | `Subsetting/*.hpp` |
| allocation, helpers | `AllocModel.v` | `Allocation/*.hpp`, `Coca.hpp`, `Helper.hpp` |
| interpolation | `InterpModel.v` | `Interpolation.hpp` |
| derivatives | `DerivModel.v` | `Derivatives/*.hpp`, `Vector/DerivativeCalc.hpp`, the `*DerivTrait` of `Core/Traits.hpp` |
| loading of derivative programs | `AvModel.v` | `Derivatives/AllVars.hpp` 39-68 |
| constants of derivative programs | `ConstModel.v` | `ScalarForDeriv.hpp`, `Coca.hpp` 133-182, `Colon.hpp` 248-478, `Allocation/Vector.hpp` 104-256 |
| distributions, threads | `DistriModel.v` | `Distri.hpp` |
| results to R, printing | `OutModel.v` | `SEXPConversions.hpp`, `Printing.hpp` |
| R objects in, wrappers, pointers, Rcpp, Armadillo | `ForeignModel.v` | `Core/BaseStore.hpp` 53-101 and 188-234, `Core/Borrow.hpp` 29-42, `Core/BorrowSEXP.hpp` 28-135 and 218-255, `Vector/VectorClass.hpp` 89-190, `Vector/Constructors.hpp` 46-48 and 215-229, `Vector/AssignmentOperator.hpp` 244-247 |
| example program | `BubbleModel.v` | `examples/bubblesort.cpp` |
| programs written against the library | `ProgModel.v` | the calls a C++ compiler makes of declarations, assignments, if, while, for; `examples/fibonacci.cpp` |
| larger language of programs | `LangModel.v` | the same with matrices, `at`, `length`, `fill`, `resize`, `dim`, `isNA`, run-time scalars and try/catch |
| expressions as objects with references | `LifeModel.v` | `BinaryCalculations.hpp`, `UnaryCalculations.hpp`, `Core/SubsetClass.hpp`, and the lifetime of C++ temporaries and of variables declared with auto |
| element types the compiler finds | `StaticModel.v` | `BinaryCalculations.hpp`, `UnaryCalculations.hpp`, `Core/Types.hpp`, subset() |
| conversions under R's garbage collector (PROTECT, UNPROTECT, scalars) | `RgcModel.v` | R's protection stack, the objects R reaches, a collector chosen freely that runs at every allocation of R; `cpp2R` with `PROTECT`/`UNPROTECT`, and of numbers |
| derivative types | `WalkModel.v` | `walkTD` (`Vector/DerivativeCalc.hpp` 35-181) as a function from types of expressions to derivative types, undefined where no overload fits, and `getSize`, `getVal`, `getDeriv` of those types (`Derivatives/DerivTypes.hpp`) |
| functions called from R | `CallModel.v` | parameters `Vec<t> x; x = r;`, a body with programs of `LangModel.v`, `return cpp2R(e)`; the locals are destroyed after the result has been made, also when an exception of the library leaves the function |
| functions that return, break and continue inside loops | `JumpModel.v` | statements as in `LangModel.v`, each of which says where execution goes on; `jscope` destroys the vectors of a scope whichever way it is left |
| functions and R programs under R's garbage collector | `GcCallModel.v` | `jrun`/`jcall` of `JumpModel.v` with the conversion of `RgcModel.v`; programs in R that call functions, make vectors, look at elements and forget objects |
| functions whose parameters wrap R objects | `WrapCallModel.v` | `wcall`: the call of `JumpModel.v` with a copy or a wrapper of R's memory for each parameter |
| wrapping parameters under R's garbage collector | `GcWrapModel.v` | `wcall_g`: `wcall` with the conversion of `RgcModel.v`; R programs whose functions copy or wrap each argument |
| order of evaluation | `OrderModel.v` | the evaluator of `VecModel.v` and the derivative programs of `DerivModel.v` with the order of operands and arguments as an input |
| caught exceptions | `TryModel.v` | derivative programs with try blocks: the handler goes on with the state the exception left |
| printed text | `TextModel.v` | `Printing.hpp` and `operator<<` as characters on a stream with the flag `std::boolalpha` |

`Spec*.v` holds the vocabulary of the statements (lists, ownership, reals); it
does not use the operations of the model.  Proofs are in `*Proofs*.v`,
`*Thms*.v`, `StoreOps.v`, `StoreHist.v`, `VecAssign.v`, `VecEval.v`;
`FloatBridge.v` connects `SpecFloat` with Flocq's theory of rounding.  The
property theorems are in `Prop*.v`, each followed by `Print Assumptions` and by
an example that its hypotheses can be met.  `Examples.v` has the concrete states
used by those examples.

## Modelling decisions

* A C++ call is a total function from a world to an outcome and a world:
  `Done a`, `Thrown e` (the exception and the state it leaves behind) or
  `Undef u` (undefined behaviour: out of bounds, null, freed, double free,
  free of foreign memory, uninitialised read, signed overflow, float-to-int
  conversion out of range, division by zero).  UB is never mapped to a value,
  so a theorem that concludes `Done` or `Thrown` excludes it.
* The heap is a map from block addresses to blocks (live with owner `Cpp`,
  `R` or `Ext`ernal and a list of cells, or freed).  A cell is a value or
  uninitialised.  Allocation fails (`bad_alloc`) when the request exceeds the
  limit stored in the heap; the limit is arbitrary in all theorems, and the
  hypothesis `fits` says what the allocator can serve.  Addresses are given out
  in order and never twice; by C101 the addresses themselves do not matter, and
  that a freed one is given out again could only be noticed by a program that
  uses it after it was freed, which is undefined behaviour in the model.
* A vector x has two storage members, `OD x` (member `d`) and `OT x` (member
  `temp`, the scratch buffer).  An object that is not alive owns nothing
  (`unborn`).
* `size_t` values are integers mod 2^64 with the reduction written out; `int`
  arithmetic that overflows is `Undef`.
* Doubles are `spec_float`s.  Library functions (sin, pow, R's dunif, ...) are
  arbitrary parameters of the model (`libm`, `rmath`).
* C++ template dispatch is modelled by the tags it inspects (element type,
  storage kind, scalar or vector operand).  Compile-time rejections
  (`static_assert`, deleted functions) are not modelled; programs they reject
  are outside the model, or throw "ill-formed program" where a total function
  needs a value.
* Object lifetimes of temporaries inside one full expression are modelled where
  they own memory (`vec_end`, `built`, `locals`, `scoped`); an expression tree
  stored with `auto` beyond its full expression dangles in C++ and is outside
  the model.
* Loops whose number of rounds is known are modelled by recursion on it; the
  `do ... while` of the bubble sort example takes a number of rounds as fuel and
  reports whether it has finished; the theorems hold for every sufficient fuel.
  So do the while loops of `ProgModel.v` (`c66_rounds`: more rounds change nothing).

* `std::bad_alloc` is never caught by the programs of `LangModel.v` and ends
  them without unwinding; `ProgModel.v` unwinds (`c80_no_memory_ex` shows what
  then happens after a failed resize).  `catch` stands for
  `catch (const std::runtime_error&)`, the exception `ass` throws.
* The meaning of those programs (`SpecMat.v`) is a relation on lists with
  shapes.  C++ leaves the order open in which the operands of an operator and
  the arguments of a call are built; the model builds them from left to right,
  so where two of them throw, the exception of the left one is claimed.
  For elements of expressions and for derivative programs C99 covers every
  other order.
  `for_range`, `transpose` and `matmul` (`SpecMul.v`) are programs of that
  language; `at(x, i, j)` and arithmetic on its results are scalars, the
  model evaluates them by the same scalar functions as elements of vectors.

## What is not modelled

* The `isBorrow` branches of the constructors that are only reachable for
  storage types with deleted constructors.
* Rcpp and Armadillo objects are lists of doubles with optional dimensions;
  their own memory management is not modelled.  An R object is a typed block
  of R's memory with optional dimensions.
* `a = a` in derivative mode (self-assignment selects another operator), and
  derivative mode under `STANDALONE_ETR` (there the BorrowSEXP branches are empty).
* The `size_t` overloads of `vector_numeric<k>` and its relatives.
* Storage of ints and logicals that belong to somebody else.  `Borrow` and
  `BorrowSEXP` take their `RetType` from `BaseType` (double): the writing
  `operator[]` of `Borrow<int>` and the constructor `BorrowSEXP<int>(SEXP)` do
  not compile when they are used, and reading an element of a `Borrow<int>`
  gives a double.  The model keeps the stored type and allows all operations;
  for doubles, the only type the examples borrow or wrap, there is no
  difference.
* Failures inside R's allocator other than running out of memory; R's cached objects for TRUE and FALSE; strings (`cpp2R(std::string&)`). R's garbage collector is modelled for conversions (`RgcModel.v`) and for functions and R programs whose parameters are copies of R objects (`GcCallModel.v`); parameters that wrap R objects are modelled without the collector in `WrapCallModel.v` and with it in `GcWrapModel.v`. R's own evaluation is reduced to the allocations, look-ups and forgetting of `rprog` and `wprog`; copy-on-modify of R values is not part of it.
* Memory ordering: threads interleave whole steps (lock, fetch, store, unlock).
* The example `examples/RVec.cpp` (it prints the name of a C++ type).

## Trusted base

* Coq's kernel (8.16.1), and `coqchk` agreeing with it on the compiled files.
* The correspondence of the model text to the C++ text.  Every definition cites
  the file and lines it renders and says where it simplifies.
* Axioms: the development declares none.  `Print Assumptions` lists for each
  theorem either nothing ("closed" below) or a subset of the standard library's
  `ClassicalDedekindReals.sig_not_dec`, `ClassicalDedekindReals.sig_forall_dec`,
  `FunctionalExtensionality.functional_extensionality_dep` and
  `Classical_Prop.classic`; the latter ("reals" below) come with the standard
  library's real numbers, which Flocq's rounding theory is stated over.
  `Print Assumptions` shows the last four (or fewer) only; no axiom of Flocq or
  of another library occurs.

## Refutations traced to the code

A theorem ending in `_refuted` shows that the property as stated is false of
the model; each was followed back to the text of the code:

| theorem | cause in the code |
|---------|-------------------|
| `c03_push_back_limit_refuted` | `realloc` (`Core/BaseStore.hpp` 313-330): `static_cast<int>(new_size * 1.15)`, and `int szOld` in `push_back` 331-348; the conversion overflows |
| `c05_resize_inside_refuted`, `c08_resize_refuted` | `resize` 276-278: within the capacity only `sz` is set; after `realloc`/`init` the reserve is not initialised |
| `c06_shape_refuted` | copy constructor 36-44 does not copy `mp` |
| `c06_temporary_refuted`, `c52_push_back_refuted` | `Constructors.hpp` 201-212: the capacity is not taken over (0), `ctor_copy` allocates `capacity` cells, `push_back` starts from it |
| `c07_shorter_source_refuted` | `operator=` 130-145 reads `other[i]` up to its own size |
| `c09_default_constructed_refuted`, `c56_otherwise_refuted` | `moveit` 295-307 hands the null pointer of a fresh `d` to `temp`, whose `allocated` stays true; the next `resize` asserts "try to delete nullptr" |
| `c15_...`, `c49_functions_lose_shape_refuted`, `c50_functions_refuted` | `UnaryCalculations.hpp` 16-22: `im()` of a unary operation is false |
| `c16_stale_shape_refuted` | `AssignmentOperator.hpp` 106-108, 235-237: the shape is only taken over from matrices, never reset |
| `c103_overwrite_refuted` | the same lines: `x = m; x = v;` leaves x with the shape of m, so that the first assignment cannot be left out |
| `c103_copy_refuted` | the same lines: after `x = v;` a stale shape of x is handed on by `y = x;` but not by `y = v;` |
| `c20_borrowed_shorter_refuted` | `AssignmentOperator.hpp` 61-76: `ass(this->d.sz <= n)` rejects shorter values |
| `c21_assignment_*_refuted` | `BorrowSEXP.hpp` 164-186 deletes `p` whoever owns it; 188-212 moves R's pointer into `temp`, whose destructor frees it |
| `c22_...`, `c23_too_many_positions_refuted` | `SubsetClass.hpp` 62-70: `pos % p->size()`, the length of the parent instead of the number of positions |
| `c25_write_changes_refuted` | `AssignmentOperator.hpp` 158-171 writes element by element |
| `c25_negative_double_refuted` | `VectorSubsetting.hpp` 59-64: negative double converted to `size_t` |
| `c25_computed_int_refuted` | `Core/Traits.hpp` 25-30, `VectorClass.hpp` 41: operations and subsets answer with `BaseType` (double), so `(*idx)[i] - 1` (`VectorSubsetting.hpp` 56) is a double that is converted to `size_t` |
| `c26_two_doubles_refuted` | `MatrixSubsetting.hpp`: column position used without subtracting 1 (double, double) |
| `c26_short_mask_refuted` | `MatrixSubsetting.hpp` 91-99: masks are not recycled |
| `c79_long_mask_refuted` | `MatrixSubsetting.hpp` 78-109, 290-321, 452-552: no length check, positions are taken modulo the dimension |
| `c27_row_beyond_refuted` | positions `c * nrow + r` are compared with nothing; only `at_rd`'s check against the whole length remains |
| `c28_at_value_refuted` | `at.hpp` 17-28: no subtraction of 1 for values |
| `c30_*_refuted` | `Colon.hpp` 24-46: length from a truncated difference, elements by repeated addition |
| `c38_neither_refuted` | `Traits.hpp`: `==` is `fabs(l - r) < 1E-3`, `!=` is `> 1E-3` |
| `c39_logical_refuted` | the common type of two bools is bool |
| `c40_last_but_one_refuted`, `c41_*_refuted` | `Interpolation.hpp` 115-144: `back()` reads `p[sz]` |
| `c42_*_refuted` | `Interpolation.hpp` 22-73: `timeVec[size]` |
| `c43_*_refuted` | `Vector/DerivativeCalc.hpp` 197-229, `VarPointer.hpp` 104-116: every variable is read modulo its own length |
| `c43_two_comparisons_refuted` | `Core/Traits.hpp` 235-240: PlusTrait returns `common_type<bool, bool>` |
| `c43_two_inputs_refuted` | `AllVars.hpp` 34, `VarPointer.hpp` 146-182: one flag `DerivInit` for all variables; `IndepVarTypeIdx` is never read |
| `c44_*_refuted` | `Traits.hpp` 97-102: `pow(rd, 2)` |
| `c45_*_refuted` | `DerivTypes.hpp` 76-82: the inner derivative is passed to `fDeriv`, not multiplied |
| `c46_*_refuted` | `DerivativeCalc.hpp` 177-196: Borrow and BorrowSEXP variables are written through `varBuffer`; BorrowSEXP is resized by deleting R's memory |
| `c47_*_refuted` | `Distri.hpp`: `Vec<BaseType> res(max)` is `Constructors.hpp` 105-112, a vector of length one |
| `c48_*_refuted` | `Distri.hpp`: `std::mutex` local to each call |
| `c49_long_refuted` | `SEXPConversions.hpp`: loop variable `int` |
| `c51_subset_refuted` | `VectorClass.hpp` 61-74: iterators walk the parent's memory |
| `c53_resize_refuted`, `c53_assignment_refuted` | `resize` 268-272: `delete[]` before `new`; when `new` throws the freed pointer stays |
| `c54_large_assignment_refuted` | `moveit` 295-307: size through `int` |
| `c56_single_refuted` | `examples/bubblesort.cpp`: `colon(1, size - 1)` counts down to 0 |
| `c56_empty_refuted` | `SubsetClass.hpp` 66-70: remainder modulo 0 |
| `c57_missing_refuted` | `initSEXP` (`Core/BaseStore.hpp` 188-234): `LOGICAL(s)[i]` is an int, stored into a bool |
| `c57_shape_refuted` | `initSEXP` sets the shape only if `Rf_isMatrix(s)` |
| `c57_type_refuted` | `initSEXP` deletes `p` before the type is checked; `allocated` and `sz` keep their values |
| `c59_empty_refuted` | `BorrowSEXP(const BorrowSEXP&)` calls `resize(other.size())`, which asserts a size above 0 |
| `c60_wrapping_refuted`, `c61_wrapping_refuted`, `c73_wrapping_refuted`, `c64_wrapper_refuted` | `Core/BorrowSEXP.hpp` 95-135, 218-237, 164-186: `delete[] p` whoever owns it |
| `c63_empty_refuted`, `c64_empty_refuted` | `init`/`resize` assert a size above 0 |
| `c63_borrow_refuted` | `Constructors.hpp` 225-229: `d(rows * cols)` of Borrow makes an empty object, so the loop does nothing, but the shape is set |
| `c65_unary_refuted` | `UnaryCalculations.hpp` 16-22: `im()` of a unary operation is false |
| `c74_negate_refuted` | `Core/Traits.hpp` 340-345: `-a` on an int |
| `c78_borrow_refuted` | `AssignmentOperator.hpp` 61-63: `ass(otherVec.size() <= d.capacity)` with capacity 0 |
| `c78_too_many_refuted` | `AllVars.hpp` 39-68: `std::array::operator[]` without a check |
| `c78_shape_refuted` | `auto arg` copies, the copy constructor 36-44 does not copy `mp` |
| `c78_derivative_refuted` | `AssignmentOperator.hpp` 203-206: `resizeDerivs` of the target before `getDeriv` of the right-hand side |
| `c69_shape_fits_refuted` | `BinaryCalculations.hpp` 45-87: rows and columns are maximised separately |
| `c71_capacity_refuted` | `Core/BaseStore.hpp` 158-184: takes `p` of the temporary, not its `capacity` |
| `c71_borrow_refuted` | `Core/Borrow.hpp` 95-111: `delete[] p` of borrowed memory |
| `c76_subset_of_subset_refuted` | `Vector/AssignmentOperator.hpp` 89-105: `d.resize(temp.size())` within the capacity leaves the new elements unwritten |
| `c86_empty_refuted` | `Vector/AssignmentOperator.hpp` 29-42: `d.sz = 1` and `d[0] = ...` whatever the capacity |
| `c87_temporaries_refuted` | `BinaryCalculations.hpp` 25-26, `UnaryCalculations.hpp` 13, `SubsetClass.hpp` 12, 82: references and pointers to operands that are temporaries |
| `c88_comparison_refuted` | `BinaryCalculations.hpp` 149-: every operator returns `Vec<common_type<L, R>, ...>`, also a comparison; `Subsetting/VectorSubsetting.hpp` 40-64 then takes the branch for doubles (or ints) and reads TRUE as position 1 |
| `c88_quotient_refuted` | the same type for a quotient of ints; `Allocation/Rep.hpp` 34-36 and `Allocation/Matrix.hpp` 40-42 make a vector of that type |
| `c49_logical_refuted` | `SEXPConversions.hpp` 67-76: `LOGICAL(ret)[i] = res[i]` with `res[i]` a double |
| `c26_operation_refuted` | calcIndMatrix copies the member mp of the operation (MatrixSubsetting.hpp 43-53), which nothing sets: `(a + b)(TRUE, TRUE)` is not a matrix |
| `c26_mask_positions_refuted` | the branch for a logical row index and positions as columns (MatrixSubsetting.hpp 498-524) does not set the shape |
| `c89_exception_refuted` | `UNPROTECT(1)` is not reached when an element throws (`SEXPConversions.hpp` 47-50) |
| `c89_wrapped_refuted` | nothing protects the object a `BorrowSEXP` points to (`Core/BorrowSEXP.hpp` 34-71) |
| `c89_second_refuted` | `UNPROTECT(1)` before the return (`SEXPConversions.hpp` 50-51): the caller has to protect |
| `c90_sine_of_comparison_refuted` | `SinusDerivTrait::f` returns the type of its argument, and a comparison is a `bool` (`Core/Traits.hpp` 142-152, 230-233) |
| `c90_divisor_refuted` | only a divisor whose own type has `ConstantTypeTrait` gets the rule for constants (`Vector/DerivativeCalc.hpp` 91-92) |
| `c92_stack_refuted` | an exception in the loop of `cpp2R` skips `UNPROTECT` (`SEXPConversions.hpp` 47-50); a function that catches it and returns leaves the object on R's stack |
| `c93_assign_refuted` | `x = e` for a wrapping vector swaps R's memory into the scratch buffer (`Core/BorrowSEXP.hpp` 187-213, `AssignmentOperator.hpp`); `~BaseStore` deletes it |
| `c93_empty_refuted` | a number assigned to a wrapper of an empty object resizes it (`Core/BorrowSEXP.hpp` 164-186), which deletes R's memory |
| `c94_logical_refuted` | the matrix branch of print does not set `std::boolalpha` (`Printing.hpp` 47-52), the vector branch sets it for good (43-45): a logical matrix is written as `true`/`false` or as `1`/`0` depending on what was printed before |
| `c94_zero_one_refuted` | with the flag off, a logical matrix is written like the integer matrix of its zeros and ones |
| `c96_reached_refuted` | a wrapper keeps a plain pointer into R's memory (`Core/BorrowSEXP.hpp` 34-71) and protects nothing; if R does not reach the object, the allocation in `cpp2R` may collect it |
| `c99_two_inputs_refuted` | derivatives of inputs are made at the first access (`Derivatives/VarPointer.hpp` 104-212); with two inputs of the independent number the operand evaluated first gets the 1 |
| `c99_constant_refuted` | `coca<k>` stores its numbers when the call is evaluated (`Coca.hpp` 167-185); used twice in a statement, the call evaluated last counts |
| `c100_derivs_refuted` | `x = x * coca<1>(2, 2, 2, 2)` with x of length 3: the derivatives are written in place one after another (`AssignmentOperator.hpp` 203-206), getDeriv has shrunk them to 3 (`VarPointer.hpp` 151-154), writing the fourth throws; caught, x has its old values and new derivatives |
| `c100_memory_refuted` | `resize` deletes the memory and stores the new capacity before `new` (`BaseStore.hpp` 268-270); after a caught `std::bad_alloc` the next assignment of no more elements writes into the deleted memory |
| `c72_back_refuted`, `c72_vector_refuted` | `back()` is `p[sz]` (`Core/BaseStore.hpp` 310, `Core/Borrow.hpp` 157, `Core/BorrowSEXP.hpp` 216) |
| `c77_vector_unwritten_refuted`, `c77_vector_stale_refuted` | `Allocation/Vector.hpp` 104-256: only `resize`, which within the capacity sets `sz` and writes nothing |

## Wrong programs

`seeded/LOG.jsonl` lists edits of the model in a scratch copy, each a mistake
one could make in the code (a wrong bound, a forgotten shape, a missing check,
memory released twice or never).  After each edit everything that depends on
the edited definition is rebuilt; a lemma whose proof no longer goes through is
assumed in the scratch copy, and a property theorem counts as failed when its
own proof fails or when `Print Assumptions` shows that it rests on such a lemma.
One thing limits this evidence: a failed proof may only show that the script
depends on the text of the definition, not that the statement has become
false.  The examples beside the theorems, which are evaluated, do not have this
weakness and often fail, too.  Edits after which a claim was false and all its
theorems still held led to the theorems named under `tightened`.

## Per property

What is modelled, what is proved, what is missing.  Theorems are listed with the
axioms `Print Assumptions` prints: closed, or R4 (all four named above), or R2
(`sig_forall_dec` and `functional_extensionality_dep` only).

### C01 Reserved room covers the requested length (proved)

Whenever a vector is created with, or grown to, n elements, the memory block it asks the allocator for has room for at least n elements, although the room is computed in double precision as trunc(1.15*n).

All lengths n up to 2^60; the double-precision product 1.15*n is modelled exactly.

Theorems: `c01_reserve` (R4), `c01_room_created` (R4), `c01_room_grown` (R4).

### C02 A vector created with a length is a zero vector of that length (proved)

Creating a vector of length n gives a vector whose size is n, whose every element reads back as zero, which owns memory no other vector owns and which is not a matrix; a length of 0 is rejected with an exception and leaks nothing.

All lengths; the outcome of an allocation failure is included.

Theorems: `c02_created_with_length` (R4).

### C03 push_back appends (partial)

After any sequence of push_back calls starting from an empty vector, reading the elements back in order gives exactly the pushed values in order, and the size is the number of pushes; no push is lost and no earlier element changes, whatever growth steps happened in between.

Partial: proved while the size at a growth step is at most 933500000; refuted beyond (capacity passes through an int).

Theorems: `c03_push_back_appends_partial` (R4), `c03_push_back_limit_refuted` (R4).

### C04 Element access is bounds checked (proved)

Reading or writing element i of a live vector either accesses exactly element i (when i < size) or throws; it never touches memory outside the vector and never changes another element or another vector.

Owning, borrowing and R-wrapping storage.

Theorems: `c04_read_checked` (closed), `c04_write_checked` (closed), `c04_write_rejected` (closed).

### C05 No history of vector operations corrupts memory (partial)

Starting from no vectors, after any sequence of constructing, copying, resizing, filling, pushing, element writing, copy-assigning, swapping with a scratch buffer and destroying vectors, no memory was freed twice, used after being freed, accessed out of bounds or read before being initialised; and when all vectors are destroyed all memory has been returned.

All histories of the listed operations whose arguments respect op_pre; one condition of op_pre is shown necessary by the refuted theorem (growing within the capacity after a resize exposes uninitialised elements).

Theorems: `c05_histories_safe` (R4), `c05_resize_inside_refuted` (closed).

### C06 Copying a vector gives an equal, independent vector (partial)

After `b = copy of a` (copy construction) b has the size, elements and matrix shape of a, and later writes to either do not show in the other.

Partial: size, elements and independence are proved; the matrix shape is lost by the copy, and copying a vector built from a temporary gives a vector without memory.

Theorems: `c06_copy_partial` (closed), `c06_independent` (closed), `c06_shape_refuted` (closed), `c06_temporary_refuted` (R4).

### C07 Storage copy-assignment makes the target equal to the source (partial)

After the storage assignment `a = b` at buffer level, a has the size and the elements of b and b is unchanged.

Partial: proved when the source is not shorter than the target; a shorter source throws after a partial overwrite.

Theorems: `c07_storage_assignment_partial` (R4), `c07_self` (closed), `c07_shorter_source_refuted` (R4).

### C08 resize sets the size and never exposes garbage (partial)

After resize(n) with n >= 1 the size is n and every element can be read without undefined behaviour; n = 0 is rejected and leaves the vector unchanged.

Partial: growing within the reserved room exposes uninitialised elements.

Theorems: `c08_resize_partial` (R4), `c08_resize_zero` (closed), `c08_resize_refuted` (R4).

### C09 A vector can be assigned again and again (partial)

Assigning a vector expression of length at least 1 to a vector variable succeeds however often and in whatever order the variable was assigned before.

Partial: proved for every program over variables that were constructed with a length; a default constructed variable throws on its second vector assignment (refuted).

Theorems: `c09_assignment_programs_partial` (R4), `c09_default_constructed_refuted` (closed).

### C10 Assignment stores the value of the right-hand side as it was before the assignment (proved)

After `x = e`, x has length equal to the length of e and element i of x is the value element i of e had before the assignment, where e is any tree of arithmetic, comparison and mathematical operations over vectors, scalars and subsets, each operation recycling its shorter operand; this also holds when x itself occurs anywhere in e.

All expression trees, including those that mention the target; operands of length 0 are excluded by well-formedness.

Theorems: `c10_assignment_value` (R4).

### C11 Assignment changes nothing but its target (proved)

`x = e` leaves the size, elements and matrix shape of every other vector, and all borrowed memory, unchanged.

Frame of assignment for all other vectors, and for memory that belongs to no vector.

Theorems: `c11_assignment_frame` (R4), `c11_foreign_memory` (R4).

### C12 A failing assignment leaves the target as it was (proved)

If evaluating `x = e` for an owning vector x throws, then x still has its former size, elements and shape.

All expressions, target an owning vector.

Theorems: `c12_failed_assignment` (R4).

### C13 Length and recycling of element-wise operations (proved)

The length of `l op r` is the larger of the two lengths and its element i is op applied to element (i mod length l) of l and element (i mod length r) of r; a scalar operand is combined with every element. Operands of length 0 are outside the contract.

Lengths and recycling for arbitrary nesting.

Theorems: `c13_recycling` (closed), `c13_scalar` (closed).

### C14 Matrix shape of element-wise operations (proved)

The result of an element-wise operation on two matrices of equal shape, or on a matrix and a scalar or on a matrix and a vector not longer than it, is a matrix of that shape with rows*cols equal to its length.

Shape relation for equal shaped matrices, matrix with scalar, matrix with shorter vector, nested.

Theorems: `c14_matrix_shape` (R4).

### C15 Mathematical functions keep the matrix shape (partial)

Applying -, sin, cos, exp, log, sqrt, ... to a matrix and assigning the result to a fresh variable gives a matrix of the same shape.

False of the code: unary operations do not hand on the shape; refuted for every matrix and function.

Theorems: `c15_functions_lose_shape_refuted` (R4).

### C16 Shape of the target after assignment (partial)

After `x = e`, x is a matrix exactly when e is one, and then with e's rows and columns.

Partial: holds for plain right-hand sides on plain targets and for matrix right-hand sides; a matrix target keeps its old shape when a plain value is assigned (refuted).

Theorems: `c16_plain_stays_plain_partial` (R4), `c16_matrix_shape_partial` (R4), `c16_stale_shape_refuted` (closed).

### C17 Assigning a scalar gives a vector of length one (proved)

After `x = s` for a scalar s and an owning vector x, x has length 1, its element is s converted to x's element type, and other vectors are unchanged.

All scalars and owning targets.

Theorems: `c17_scalar_assignment` (R4).

### C18 A borrowing vector writes through to exactly the borrowed elements (proved)

Assigning an expression of length n, at least the current length and at most the borrowed memory, to a vector that borrows memory writes the n values to the first n borrowed elements, leaves all other memory (including borrowed elements beyond n) unchanged, keeps borrowing the same memory and never frees it. A number assigned to it becomes the first borrowed element, the vector has length one and all else is unchanged.

Length at least the current length and at most the borrowed memory; shorter values are C20. The end of the vector leaves the borrowed memory alone (c18_borrowed_end).

Theorems: `c18_borrowed_end` (closed), `c18_borrowed_scalar` (closed), `c18_borrowed_assignment` (R4).

### C19 A borrowing vector cannot outgrow the borrowed memory (proved)

Assigning more values than the borrowed memory can hold throws and leaves the borrowed memory untouched; resize beyond it throws as well.

The limit set at construction, assignment and resize.

Theorems: `c19_borrowed_limit` (closed), `c19_borrowed_too_long` (closed), `c19_borrowed_resize` (closed).

### C20 A borrowing vector accepts shorter values (partial)

Assigning an expression that is shorter than the current length of a borrowing vector shortens the vector.

False of the code: every shorter assignment throws.

Theorems: `c20_borrowed_shorter_refuted` (closed), `c20_borrowed_shorter_throws` (R4).

### C21 Memory owned by R is never freed by a wrapping vector (partial)

A vector wrapping an R object never frees the R object's memory, whatever is assigned to it.

Element writes and the end of the vector leave R's memory alone; a wrapper with memory of its own is assigned to and ended correctly. Assignment to a wrapper that shows an R object frees R's memory, at once for longer values and at its end for shorter ones (refuted).

Theorems: `c21_end_partial` (closed), `c21_assignment_own_partial` (R4), `c21_own_end_partial` (closed), `c21_element_writes_partial` (closed), `c21_destroyed_partial` (closed), `c21_assignment_long_refuted` (R4), `c21_assignment_short_refuted` (R4).

### C22 Subsetting a vector by position reads the selected elements (partial)

v(idx) for a vector of positions idx has length(idx) elements and its element k is element idx[k] (1-based) of v; a scalar index gives a single element.

Partial: any base and any index argument, as long as there are not more positions than elements; beyond that the subset starts again (refuted). Elements read from an operation or another subset are converted to double ([read]).

Theorems: `c22_subset_reads_partial` (R4), `c22_too_many_positions_refuted` (R4).

### C23 Assigning to a subset changes exactly the selected elements (partial)

After v(idx) = e with length(e) = length(idx), element idx[k] of v is element k of the value e had before (the last one wins for repeated positions), all other elements of v and all other vectors are unchanged, and the size of v is unchanged; a length mismatch throws and changes nothing.

Partial: not more positions than elements; otherwise values land in wrong places (refuted). The length mismatch part is proved. c23_subset_scalar_partial: assigning one value to a subset writes it to every position and to no other.

Theorems: `c23_subset_assignment_partial` (R4), `c23_subset_scalar_partial` (R4), `c23_length_mismatch` (R4), `c23_too_many_positions_refuted` (closed).

### C24 Logical subsetting selects the TRUE positions (proved)

v(mask) for a logical vector mask selects, in increasing order, the positions i for which mask[i mod length(mask)] is TRUE; v(TRUE) selects everything; a mask that selects nothing is rejected.

Masks of every length >= 1, recycled; a mask without TRUE is rejected. The mask is a stored vector of bools or an expression the compiler types as bool; comparisons of doubles or ints are not (C88).

Theorems: `c24_mask` (closed), `c24_true` (closed).

### C25 Positions outside the vector are rejected (partial)

Reading or writing through a subset with a position that is 0, negative or larger than the length throws and changes nothing.

Partial: reads are rejected for ints, doubles and stored vectors of ints; writes throw, but earlier positions are already written (refuted); negative entries in a vector of doubles, and positions below 1 in a computed vector of ints, are undefined behaviour (refuted).

Theorems: `c25_int_read` (closed), `c25_double_read` (R4), `c25_int_vector_read` (R4), `c25_write_throws_partial` (R4), `c25_write_changes_refuted` (closed), `c25_negative_double_refuted` (R2), `c25_computed_int_refuted` (R4).

### C26 Matrix subsetting is column-major (partial)

m(R, C) for row and column selectors (TRUE, a number, a logical vector, a vector of positions) gives the matrix elements at the selected rows and columns in column-major order; unless a single row or column is selected the result is a matrix with those rows and columns.

Partial: 35 of the 36 combinations of selectors; two doubles select a wrong element (refuted), short masks are not recycled (refuted); the shape is lost for rows by a mask with columns by positions and for (TRUE, TRUE) of an operation (refuted). No subset is made by a mask without TRUE (c26_no_true).

Theorems: `c26_matrix_subset_partial` (R4), `c26_two_doubles_refuted` (R4), `c26_short_mask_refuted` (closed), `c26_operation_refuted` (closed), `c26_no_true` (closed), `c26_mask_positions_refuted` (R4).

### C27 Matrix indices are checked per dimension (partial)

Selecting a row greater than the number of rows or a column greater than the number of columns throws.

False for rows (refuted); positions beyond the whole matrix, in particular columns beyond the last, throw.

Theorems: `c27_row_beyond_refuted` (closed), `c27_beyond_matrix_partial` (closed).

### C28 at() gives the element at a 1-based position (partial)

at(v, i) is element i of v counted from 1, and at(m, r, c) the element in row r and column c; writes through at change exactly that element.

Partial: vector and matrix variables and matrix values; on vector values positions count from 0 (refuted).

Theorems: `c28_at_vector_partial` (R2), `c28_at_vector_write_partial` (R2), `c28_at_matrix_partial` (R2), `c28_at_matrix_write_partial` (R2), `c28_at_matrix_value_partial` (R2), `c28_at_value_refuted` (closed).

### C29 a:b on integers (proved)

colon(a, b) for integers a and b is a, a+1, ..., b when a <= b and a, a-1, ..., b otherwise; it has |a-b|+1 elements.

Scalars or vectors as ends, ints or one int and one bool; colon(a, INT_MAX) and colon(a, INT_MIN) proved undefined.

Theorems: `c29_colon_integers` (R4), `c29_end_of_range_overflows` (R4).

### C30 a:b on doubles (partial)

colon(a, b) for doubles has trunc(|a-b|)+1 elements, starting with a and going in steps of one towards b without passing it.

Partial: ends on a common binary grid (all whole numbers and their halves, quarters, ... within 2^53 multiples); for arbitrary doubles what is computed is characterised; the property itself is refuted by 3.1:5.1 (throws) and 3.3:0.3 (last element 0).

Theorems: `c30_colon_doubles_partial` (R4), `c30_colon_doubles_any_partial` (R4), `c30_throws_refuted` (closed), `c30_last_zero_refuted` (closed).

### C31 rep repeats (proved)

rep(x, n) has length(x)*n elements and element i is element (i mod length(x)) of x.

Scalars, vectors and expressions; times as number or vector.

Theorems: `c31_rep` (R4).

### C32 matrix() builds a column-major matrix (proved)

matrix(x, r, c) is a matrix with r rows and c columns holding x in column-major order (a scalar x in every cell) and throws when length(x) differs from r*c.

Vector, expression or scalar argument; a wrong length throws and leaves nothing behind.

Theorems: `c32_matrix` (R4), `c32_matrix_scalar` (R4), `c32_matrix_wrong_length` (R4).

### C33 vector() makes zero vectors (proved)

vector_numeric(n), vector_integer(n) and vector_logical(n) have n zero elements; n < 1 throws.

All three functions make vectors of doubles (createRVec).

Theorems: `c33_vector_zeros` (R4), `c33_vector_below_one` (R4), `c33_vector_length_vector` (closed).

### C34 coca concatenates (proved)

coca(x1, ..., xk) holds the elements of x1, then those of x2 and so on, each converted to the common element type; its length is the sum of the lengths.

Any number of arguments; total below 2^31 (the code counts in an int).

Theorems: `c34_coca` (R4).

### C35 Sizes given as numbers are validated (proved)

A size given as a number is accepted exactly when it is at least 1, and a fractional size is truncated.

Numbers, and vectors of one element; doubles outside the range of int (NaN, infinities) proved undefined.

Theorems: `c35_size_validation` (R4), `c35_truncation` (R2), `c35_beyond_int_undefined` (R2), `c35_size_vector` (R4), `c35_size_vector_length` (closed).

### C36 isNA and isInf test element-wise (proved)

isNA(x) (isInf(x)) is a logical vector of the length of x whose element i is TRUE exactly when element i of x is NaN (infinite).

Non-empty vectors and expressions of any type; scalars; empty vectors proved to throw.

Theorems: `c36_isNA` (R4), `c36_isInf` (R4), `c36_scalar` (R4), `c36_empty_throws` (closed).

### C37 length and dim report the shape (proved)

length(x) is the number of elements; dim(x) is (rows, columns) for a matrix and throws otherwise.

length and dim of vectors, matrices and expressions.

Theorems: `c37_length` (closed), `c37_length_scalar` (closed), `c37_dim_matrix` (R4), `c37_dim_expression` (R4), `c37_dim_not_matrix` (closed), `c37_dim_scalar` (closed).

### C38 Comparison operators (partial)

For finite doubles <, <=, >, >= agree with the order of the numbers, == holds exactly when the computed difference is below 1e-3 in magnitude, == is reflexive and symmetric, and != is the negation of ==.

Order operators exact for all finite doubles, ints and logicals, on any two expressions with recycling; == characterised (computed difference below 1e-3), reflexive, symmetric. Refuted: != is not the negation of == when the difference is exactly 1e-3 or NaN; == is not transitive; comparing distant ints with == overflows. c38_mixed: any mixture of element types; c38_nan: every comparison with NaN is false.

Theorems: `c38_mixed` (R4), `c38_nan` (closed), `c38_order_partial` (R4), `c38_equal_partial` (R4), `c38_difference_partial` (R4), `c38_equal_reflexive_partial` (closed), `c38_equal_symmetric_partial` (closed), `c38_unequal_partial` (R4), `c38_neither_refuted` (closed), `c38_not_transitive` (closed), `c38_integers` (R4), `c38_integers_overflow` (closed).

### C39 Arithmetic on integer and logical vectors (partial)

Adding, subtracting and multiplying integer vectors gives the mathematical results whenever they fit in an int; logical vectors count as 0 and 1.

Exact for int with int or logical operands whenever the result fits in int, on any two expressions with recycling; overflow is undefined. Refuted for two logical operands: the result is converted back to bool.

Theorems: `c39_integer_arithmetic_partial` (closed), `c39_logical_refuted` (closed), `c39_overflow` (closed).

### C40 cmr interpolates through the data (partial)

cmr(t, times, values) returns values[0] before the first time, values[last] after the last time, and exactly values[i] at times[i] for every interior knot; it needs equally long inputs of at least 4 points and throws otherwise.

Proved with binary64 arithmetic: first value before, last value after, exact value at every data point except the last but one (any length from 4 up), length checks. At the last but one point the code's behaviour is undefined (c40_last_but_one_refuted). pow is assumed exact at zero, as C requires.

Theorems: `c40_before` (R4), `c40_after` (R4), `c40_knots_partial` (R4), `c40_lengths` (closed), `c40_last_but_one_refuted` (R4).

### C41 cmr reads only the given data (partial)

cmr never reads outside the given time and value vectors.

For every time point outside the last interval cmr returns without undefined reads. Refuted: in the last interval back() reads one element past the end (out of bounds, or an unwritten spare element).

Theorems: `c41_reads_partial` (closed), `c41_last_interval_refuted` (R4), `c41_spare_refuted` (R4).

### C42 li interpolates linearly (partial)

li(t, times, values) returns the linear interpolation of the values at t.

Refuted: li of variables always throws (reads timeVec[size]); r-values and subsets are refused; for operations it returns the first value for every time.

Theorems: `c42_variable_refuted` (closed), `c42_other_refuted` (closed), `c42_never_refuted` (closed), `c42_operation_refuted` (R4).

### C43 Forward derivatives of sums, products and constant quotients (partial)

After an assignment in derivative mode the stored derivative of the target is the mathematical derivative of the right-hand side with respect to the chosen variable, for right-hand sides built from variables, constants, +, -, * and division by a constant, and through any sequence of such assignments to Buffer variables, over Buffer, Borrow and BorrowSEXP variables.

Every program of assignments to Buffer variables over Buffer, Borrow and BorrowSEXP variables with common lengths or length one (sums, differences, products, comparisons, quotients by constants): forward derivatives by the calculus rules in doubles, asked in any order, and the mathematical derivative when the arithmetic is exact and no comparison changes its truth value there. Refuted: nested recycling makes value and derivative inconsistent; a target that is shorter than its own result throws; of two inputs with the number of the independent variable the one asked first is taken. The sum of two comparisons is a bool (TRUE + TRUE is 1). A sine of a comparison is left out. c43_conditions: sums, differences and products of comparisons have the derivative 0 in every state where it is defined.

Theorems: `c43_forward_partial` (R4), `c43_derivative_partial` (R4), `c43_two_inputs_refuted` (closed), `c43_two_comparisons_refuted` (closed), `c43_conditions` (closed), `c43_recycling_refuted` (R4), `c43_own_length_refuted` (closed).

### C44 Derivative of a quotient (partial)

The stored derivative of l / r is (l' r - l r') / r^2.

Refuted: the code divides by pow(r', 2) instead of r^2; for every divisor independent of the variable the result is not finite. Partial: where pow(r',2) = r*r the quotient rule holds.

Theorems: `c44_quotient_partial` (R4), `c44_quotient_refuted` (R4), `c44_value_refuted` (R2).

### C45 Derivative of sine (partial)

The stored derivative of sinus(e) is cos(e) e'.

Refuted: for a variable the factor e' is missing, for any other argument cos(e') is stored. Partial: right where e' = 1.

Theorems: `c45_sine_partial` (R4), `c45_factor_refuted` (R4), `c45_argument_refuted` (R4).

### C46 Seeds of derivatives (partial)

Assigning a constant vector to a variable sets all its derivatives to 1 if it is the independent variable and to 0 otherwise, and the derivative vector gets the length of the value vector.

Buffer variables: all lengths and histories. Refuted for Borrow and BorrowSEXP variables: the constant is written to varBuffer (undefined behaviour or the wrong variable), memory of R is deleted, and IndepVarTypeIdx is ignored.

Theorems: `c46_seed_partial` (R4), `c46_borrow_undefined_refuted` (closed), `c46_borrow_written_refuted` (closed), `c46_sexp_refuted` (closed).

### C47 Distribution functions are vectorised (partial)

dnorm, pnorm, qnorm, dunif, ... applied to vectors return a vector as long as the longest argument, each element computed from the recycled arguments.

True for arguments of length one and for runif(n, min, max). Refuted for every longer argument: Vec<BaseType> res(max) with a size_t is a vector of length one holding the number (Constructors.hpp 106), so one element comes back; rnorm, rlnorm, rgamma with a number above one write behind it, and the exception destroys a locked mutex. R's own functions are arbitrary parameters.

Theorems: `c47_density_partial` (R4), `c47_density_refuted` (R4), `c47_probability_partial` (R4), `c47_quantile_partial` (R4), `c47_probability_refuted` (R4), `c47_quantile_refuted` (R4), `c47_uniform_draws_partial` (R4), `c47_single_draw_partial` (R4), `c47_draws_refuted` (R4), `c47_draw_length_refuted` (R4).

### C48 The random number state is never used by two threads at once (partial)

Between fetching and storing R's random number state no other thread fetches it, and every fetch is followed by a store.

Every finished call does lock, fetch, store, unlock in rounds, and with one shared mutex any number of threads would be kept apart. In the code the mutex is a local variable of each call: any two threads can be between fetch and store at once (refuted), and rnorm and the like with a number above one fetch without storing (refuted).

Theorems: `c48_pairs_partial` (closed), `c48_fetch_only_refuted` (R4), `c48_shared_mutex_partial` (closed), `c48_threads_refuted` (closed).

### C49 Conversion to R copies elements and shape (partial)

Converting a vector to an R object gives an object with the same elements in the same order and, for a matrix, the same dimensions; a matrix whose rows*cols differs from its length throws.

Proved for all vector and matrix expressions up to 2^31 - 1 elements, and the mismatch throws; a Vec<bool> gives 0 and 1 (c49_logical). Refuted beyond that (int loop variable overflows), for functions of matrices, whose im() is false (UnaryCalculations.hpp 16-22), and for logicals: the elements of an expression of type bool go into R's int memory unconverted, so -v gives a logical object with the element -1 (c49_logical_refuted). PROTECT/UNPROTECT: C89. Failure of R's allocator is not modelled.

Theorems: `c49_vector` (closed), `c49_matrix` (closed), `c49_mismatch` (closed), `c49_logical` (closed), `c49_logical_refuted` (closed), `c49_functions_lose_shape_refuted` (closed), `c49_long_refuted` (closed).

### C50 print shows every element once, matrices row by row (partial)

print(x) of a vector shows its elements in order; print of an r x c matrix shows r lines of c elements, line i holding row i.

Proved for vectors and for matrix expressions, and operator<< shows the elements in order (c50_stream); functions of a matrix print on one line (refuted). Elements of operations and subsets are shown as doubles. The characters written are C94.

Theorems: `c50_stream` (closed), `c50_vector` (closed), `c50_matrix` (closed), `c50_functions_refuted` (closed).

### C51 Range iteration visits the elements in order (partial)

A range-based for over a vector, or over a subset of one, visits exactly its elements in order.

Partial: proved for vectors; iterating over a subset walks the parent's first elements (refuted).

Theorems: `c51_iteration_partial` (closed), `c51_subset_refuted` (closed).

### C52 Construction from a temporary takes over its elements (partial)

Constructing a vector from a temporary of the same element type gives a vector with the temporary's elements and shape, without leaking or double freeing memory, and the result supports the same operations as any other vector.

Partial: elements and shape are taken over without leak; push_back on the result loses the value, because the capacity is not taken over.

Theorems: `c52_from_temporary_partial` (R4), `c52_push_back_refuted` (closed).

### C53 Running out of memory is survivable (partial)

If the allocator fails during resize, push_back or assignment, the exception leaves all vectors in a state in which they can be destroyed without freeing memory twice or touching freed memory.

Partial: push_back and constructors are safe; resize leaves a dangling pointer that is freed again.

Theorems: `c53_push_back_partial` (closed), `c53_constructors_partial` (R4), `c53_resize_refuted` (R4), `c53_assignment_refuted` (R4).

### C54 Vectors of 2^31 and more elements keep their size (partial)

Assignment of a vector with 2^31 or more elements keeps its length.

False of the code for every length from 2^31 on; refuted for all such lengths the allocator can serve.

Theorems: `c54_large_assignment_refuted` (R4).

### C55 Reading does not modify (proved)

Evaluating any expression, reading elements, sizes and shapes, leaves all vectors and all memory unchanged.

All expressions, any world.

Theorems: `c55_evaluation_pure` (closed), `c55_iteration_pure` (closed).

### C56 The bubble sort example sorts (partial)

The example function bs of the repository returns for every vector of doubles, and afterwards the argument has its old elements in ascending order.

bs of examples/bubblesort.cpp, run to its end for every vector of doubles: it finishes with arr sorted exactly for the vectors of two or more elements that are in order already or become so by one exchange of neighbours (c56_sorted_partial, c56_one_exchange_partial). For every other vector the claim is false: c56_otherwise_refuted (the second `temp = arr(i)` throws "try to delete nullptr"), c56_single_refuted (colon(1, 0) counts down and arr(2) throws), c56_empty_refuted (remainder modulo 0).

Theorems: `c56_sorted_partial` (R4), `c56_one_exchange_partial` (R4), `c56_otherwise_refuted` (R4), `c56_single_refuted` (R4), `c56_empty_refuted` (R4).

### C57 Assigning an R object copies its elements and shape (partial)

Assigning an R object to a vector, or making storage of one, gives the vector the object's elements, converted to its element type, and the object's shape; an object of another type is refused and the vector stays usable.

Proved for assignments of the vector's own type with ordinary elements (R's logicals are the ints 0 and 1, read as false and true), and for construction of storage. Refuted: a missing logical becomes TRUE (c57_missing_refuted); a vector that was a matrix keeps its old dimensions when a plain R vector is assigned (c57_shape_refuted); an object of another type is refused after the memory was deleted, and the next access goes through a null pointer (c57_type_refuted).

Theorems: `c57_assign_partial` (closed), `c57_construct` (closed), `c57_missing_refuted` (closed), `c57_shape_refuted` (closed), `c57_type_refuted` (closed).

### C58 Wrapping an R object shares its memory (proved)

A vector made from a numeric R object shows its elements and shape without allocating or copying; element writes go to the R object and nowhere else, as does a number assigned to the vector; objects of other types are refused.

Proved: elements, shape, no allocation, any sequence of writes, refusal of other types. Objects of R that are freed while they are wrapped: C89.

Theorems: `c58_wrap` (closed), `c58_writes` (closed), `c58_wrong_type` (closed), `c58_scalar` (closed).

### C59 A copy of a wrapper is independent (partial)

Copying a vector that wraps an R object gives a vector with the same elements and shape in memory of its own; later writes to one are not seen through the other.

Proved for nonempty wrappers, with independence of later element writes. Refuted for empty ones, whose copy throws.

Theorems: `c59_copy_partial` (R4), `c59_independent_partial` (closed), `c59_empty_refuted` (closed).

### C60 A wrapper can be bound to another R object (partial)

Assigning an R object to a wrapper makes it show that object, frees memory the wrapper owned, and leaves the R object shown before alone.

Proved for wrappers that own their memory or have none. Refuted for wrappers that show an R object: operator=(SEXP) deletes R's memory.

Theorems: `c60_rebind_partial` (closed), `c60_wrapping_refuted` (closed).

### C61 push_back on a wrapper (partial)

push_back on a wrapper appends the element and leaves R's memory alone.

Proved for wrappers that own their memory or have none, below the int limit of realloc. Refuted for wrappers that show an R object: realloc deletes R's memory.

Theorems: `c61_push_back_partial` (R4), `c61_wrapping_refuted` (R4).

### C62 Copies and moves of borrowing vectors (proved)

A copy of a borrowing vector refers to the same user memory with the same elements and shape, and each sees the other's writes; moving leaves the source empty.

Proved: copy, sharing of writes in both directions, move.

Theorems: `c62_copy` (closed), `c62_shared` (closed), `c62_move` (closed).

### C63 Construction from a pointer (partial)

A vector made of a pointer and a length, or a pointer and dimensions, has the pointed-to elements and that shape.

Proved for vectors and matrices with at least one element, for Buffer storage; Borrow with a length is C20. Refuted: no elements throws; Borrow with dimensions ignores the pointer and gives an empty vector that claims to be r x c.

Theorems: `c63_vector_partial` (R4), `c63_matrix_partial` (R4), `c63_empty_refuted` (closed), `c63_borrow_refuted` (closed).

### C64 Assigning Rcpp and Armadillo objects (partial)

Assigning an Rcpp or Armadillo vector or matrix, or constructing from one, copies elements and shape; borrowed memory is written only within the borrowed length and R's memory is never freed.

Proved for nonempty foreign objects and owning or borrowing vectors; a longer one is refused by borrowing vectors. Refuted: empty foreign objects throw; a wrapper of an R object with fewer elements deletes R's memory.

Theorems: `c64_assign_partial` (R4), `c64_construct_partial` (R4), `c64_borrow_partial` (closed), `c64_borrow_long` (closed), `c64_empty_refuted` (closed), `c64_wrapper_refuted` (closed).

### C65 Conversion to Rcpp and Armadillo (partial)

Converting an expression to an Rcpp or Armadillo vector or matrix gives its elements as doubles and its shape; converting back gives the same vector; what is not a matrix is refused by the matrix conversions.

Proved for vectors of any expression, matrices up to 2^31 - 1 elements, refusal of non-matrices, and the round trip. Refuted: functions of a matrix are refused (UnaryCalculations.hpp 16-22).

Theorems: `c65_vector` (closed), `c65_matrix_partial` (closed), `c65_not_matrix` (closed), `c65_unary_refuted` (closed), `c65_round_trip` (R4).

### C66 Structured programs do what they say (proved)

A program of local vectors, assignments to vectors, subsets and elements, if, while and range-based for loops over vectors the library makes ends as its meaning on lists says (normally, or by the same exception); every vector in scope then holds the elements of that meaning, vectors of scopes that were left are gone, and nothing leaks. A whole program releases all memory it took.

Refinement theorem by induction on the program, with inner inductions for while and for: c66_programs. c66_rounds: the bound on the rounds of while loops in the model is no restriction. c66_all_released: whole programs. The meaning (SpecStmt.v) is defined for programs whose expressions are wf_expr, whose subsets have not more positions than the vector has elements and which stay within the memory limit; the exceptions outside of these are the subject of C09, C22, C23, C53.

Theorems: `c66_programs` (R4), `c66_rounds` (closed), `c66_all_released` (R4).

### C67 The Fibonacci example (proved)

The example computes the first n Fibonacci numbers: every element from the third on is the rounded sum of its two predecessors, and the elements are exact as long as the numbers are at most 2^53, which are the first 78.

The example file calls `vector` and `subassign`, which the library does not define; they are read as vector_numeric and subset. c67_fibonacci for every n >= 3, c67_exact, c67_unique, c67_sharp (the 79th element is not exact).

Theorems: `c67_fibonacci` (R4), `c67_exact` (R4), `c67_unique` (closed), `c67_sharp` (R4).

### C68 Construction from an expression (proved)

A vector declared with an expression holds the elements the expression has on lists, converted to the vector's element type, in memory of its own, with the shape of the expression; an empty expression is refused; if the evaluation or the allocation ends in an exception nothing is left behind. A matrix made of rows, columns and a value is filled with the value.

c68_construction: elements, memory and shape. c68_empty: an empty expression is refused. c68_failure: after an exception during the construction no memory is left and the other objects are unchanged. c68_filled_matrix: Vec(value, rows, cols).

Theorems: `c68_construction` (R4), `c68_empty` (closed), `c68_failure` (R4), `c68_filled_matrix` (R4).

### C69 Shape of expressions (partial)

The shape an expression hands to the vector it is assigned to is the largest number of rows and the largest number of columns of the matrices in it; computing it never fails; the shape fits the number of elements.

c69_shape_assigned and c69_shape_total hold for every expression. c69_shape_fits_refuted: a 2x3 matrix with a 3x2 one gives six elements and the shape 3x3.

Theorems: `c69_shape_assigned` (R4), `c69_shape_total` (closed), `c69_shape_fits_refuted` (R4).

### C70 Conversion of a vector to a scalar (proved)

Using a vector, subset or expression where a number or a truth value is expected gives its first element.

c70_scalar_first: the first element of any expression with a meaning on lists; c70_scalar_variable: for a variable. The value of an operation or a subset is converted to double first.

Theorems: `c70_scalar_first` (closed), `c70_scalar_variable` (closed).

### C71 fill from a temporary of the same type (partial)

fill copies or takes over the elements of a temporary of the same length; other lengths are refused; afterwards every later operation stays within the memory taken over, and borrowed memory is never freed.

Partial: c71_fill_partial and c71_length_mismatch hold; the capacity of the temporary is not taken over, so a later resize within the stale capacity reaches beyond the memory (c71_capacity_refuted); fill of borrowed memory frees memory it does not own (c71_borrow_refuted).

Theorems: `c71_fill_partial` (closed), `c71_length_mismatch` (closed), `c71_capacity_refuted` (closed), `c71_borrow_refuted` (closed).

### C72 back is the last element (partial)

back() of a non-empty vector gives its last element.

Refuted for every storage kind: back() reads the cell after the last element; without reserve that is out of bounds, with reserve it is whatever is there.

Theorems: `c72_back_refuted` (closed), `c72_vector_refuted` (closed).

### C73 Assignment between borrowing storage objects (partial)

Assigning a Borrow to a Borrow makes both refer to the same memory and changes no element; assigning a wrapper of an R object to another copies the elements, self-assignment does nothing; set writes one element of the borrowed memory.

c73_sexp_copies_partial is for a target that owns its memory or has none; a target that shows an R object with less room frees R's memory (c73_wrapping_refuted).

Theorems: `c73_borrow_rebinds` (closed), `c73_sexp_copies_partial` (R4), `c73_wrapping_refuted` (closed), `c73_sexp_self` (closed), `c73_borrow_set` (closed).

### C74 Arithmetic on doubles and mixed vectors (partial)

+, -, * of vectors of which one holds doubles, and / of any vectors, give at every position the double nearest to the real result (ties to even), an infinity of the right sign if that is out of range; division by zero gives infinities or NaN, NaN propagates; unary minus is exact.

c74_rounded over the whole range of doubles; c74_closest, c74_error, c74_exact say what nearest means; c74_division_by_zero, c74_nan. Partial: the negation of the int -2^31 overflows (c74_negate_refuted).

Theorems: `c74_rounded` (R4), `c74_closest` (R4), `c74_error` (R4), `c74_exact` (R4), `c74_division_by_zero` (R4), `c74_nan` (R2), `c74_negate_partial` (R4), `c74_negate_refuted` (closed).

### C75 Mathematical functions and powers of vectors (proved)

sin, exp, sqrt and the others apply the C library's function to every element, ints and logicals converted exactly; the power of two vectors is the library's pow of the elements, truncated to an int if both hold ints.

The functions of the C library are an arbitrary parameter. c75_power_int: a result out of the range of int is undefined.

Theorems: `c75_functions` (R4), `c75_power` (R4), `c75_power_int` (R2).

### C76 Memory safety of histories of statements (partial)

Whatever declarations, assignments, element and subset writes, reads, loops and ends of scope a program performs on vectors that own their memory, with exceptions caught after every statement, it never reads or writes outside a live block, reads an element that was never written, frees a block twice or leaks one.

Undefined behaviour of arithmetic (int overflow, conversion of a double out of range, a modulus by the size of an empty operand) is allowed by the theorem; a history ends when memory runs out. c76_addresses covers all statements of SpecSafe.scmd; only the claim about unwritten elements excludes x(p) = y(q) with a subset of a variable on the right, for which it is false (c76_subset_of_subset_refuted). Vectors may own their memory, borrow an array of the caller or wrap an R object; wrappers must not be assigned as a whole or enlarged (cmd_keeps; c21_assignment_*_refuted show why), borrowed arrays must have an element (c86_empty_refuted).

Theorems: `c76_addresses` (R4), `c76_memory_safe_partial` (R4), `c76_all_released` (R4), `c76_subset_of_subset_refuted` (R4).

### C77 Constants of derivative programs (partial)

scalarDeriv<k>, coca<k> and colon<k> put exactly the elements the function without AllVars would give (as doubles) into constant k, whatever it held before, and change nothing else; vector_numeric<k>(av, n) and its relatives give n zeros.

scalarDeriv, coca and colon on ints in full; colon on doubles for ends on a common binary grid (as C30). vector_numeric<k> etc. only resize: they leave stale or unwritten elements when the constant had enough room (refuted). Not modelled: an argument of type size_t.

Theorems: `c77_scalar` (R4), `c77_coca` (R4), `c77_colon_integers` (R4), `c77_colon_overflows` (R4), `c77_colon_doubles_partial` (R4), `c77_vector_partial` (R4), `c77_vector_unwritten_refuted` (closed), `c77_vector_stale_refuted` (R4).

### C78 Loading the variables of a derivative program (partial)

initBuffer, initBorrow and initBorrowSEXP give variable i the elements (as doubles) and the shape of argument i, leave the arguments and everything else unchanged and leak nothing; afterwards derivatives are those of C43.

initBuffer and initBorrowSEXP: any number of owning arguments. Refuted: initBorrow throws for every argument; more arguments than variables are written behind the array; the shape of matrices is lost; a = a * a on a freshly loaded independent variable stores zero derivatives.

Theorems: `c78_load_partial` (R4), `c78_borrow_refuted` (closed), `c78_too_many_refuted` (R4), `c78_shape_refuted` (R4), `c78_derivative_refuted` (closed).

### C79 Logical matrix and vector indices (partial)

FALSE as an index is rejected; indexing something that is not a matrix with two indices is rejected; a logical row or column index is recycled when it is shorter than the dimension and rejected when it is longer.

FALSE and non-matrices are rejected for all arguments; beside a single row or column too long masks are rejected and short ones recycled. Refuted for the other pairs: a longer mask is not rejected but wraps around, a shorter one is not recycled (c26_short_mask_refuted).

Theorems: `c79_false_vector` (closed), `c79_not_a_matrix` (closed), `c79_false_matrix` (R4), `c79_too_long` (R4), `c79_any_mask_partial` (R4), `c79_long_mask_refuted` (R4).

### C80 Memory safety of nested programs (proved)

A program over owning vectors and matrices (nested scopes, if, while, range-based for, try/catch, declarations from calls and expressions, assignments, vector and matrix subsets, at, fill, resize) never reads or writes outside a live block, never frees twice and never leaks: its only undefined behaviour is that of arithmetic and, after resize or x(p) = y(q), of reading an unwritten element. When a whole program ends, also by an exception it does not catch, nothing is allocated.

Programs are nested statements of LangModel.lstmt (all statements of ProgModel and more). A program that runs out of memory is terminated (no claim about its state then; with unwinding it would release memory twice, c80_no_memory_ex). Vectors may own, borrow or wrap, as in C76 (keeps).

Theorems: `c80_addresses` (R4), `c80_elements` (R4), `c80_all_released` (R4), `c80_programs` (R4).

### C81 Programs with matrices refine their meaning on lists (proved)

A program over vectors and matrices (subset and at with one and two subscripts, matrix, dim, isNA, colon, rep, coca, run-time scalars, fill, declarations, nested scopes, if, while, range-based for, try/catch) ends exactly as its meaning on lists with shapes says - normally, by the same exception or not yet -, every vector in scope then holds exactly the elements and has the shape of that meaning, all others are gone and nothing leaks.

Refinement theorem by induction on the program (c81_programs); c81_rounds: the bound on the rounds of while loops is no restriction; c81_determined: the meaning is a function; c81_all_released: whole programs. The meaning (SpecMat.v) covers programs whose expressions are wf_expr, which select not more positions than the vector has elements and stay within the memory limit. resize has no meaning here (what it leaves depends on the capacity, C05 and C08); memory safety of programs with it is C80.

Theorems: `c81_programs` (R4), `c81_rounds` (closed), `c81_determined` (R4), `c81_all_released` (R4).

### C82 Transposition and multiplication of matrices (proved)

The loops for (i : colon(1, n)) for (j : colon(1, m)) at(y, j, i) = at(x, i, j) transpose every matrix x; the three loops with at(z, i, j) = at(z, i, j) + at(x, i, k) * at(y, k, j) multiply all matrices x and y: each element is the sum from left to right of the rounded products, and the exact product when entries are whole and no partial sum exceeds 2^53.

c82_transpose and c82_matmul for all sizes below 2^30 that fit in memory, by loop invariants on top of C81; c82_exact for whole numbers.

Theorems: `c82_transpose` (R4), `c82_matmul` (R4), `c82_exact` (R4).

### C83 Functions called from R (proved)

A C++ function that takes R objects (Vec<t> x; x = r;), runs a program over vectors and matrices and returns cpp2R(e) gives R a new object with exactly the elements, the type and the dimensions the program means, or throws the exception the program throws. An argument of another type than its parameter is refused. The memory of R is unchanged in all cases, no C++ memory is left and the next call starts from the same state.

c83_call by induction on parameters and body over C81, C49 (cpp2R) and C57 (initSEXP); c83_wrong_type for any position of the wrong argument; c83_arguments_kept without any hypothesis on the function, even up to undefined behaviour; c83_rounds. c83_round_trip: a function that returns its argument gives a new object with the same type, elements and dimensions. The value of NA in a logical argument is true (c57_missing_refuted). Return, break and continue inside loops and blocks: C91.

Theorems: `c83_call` (R4), `c83_wrong_type` (closed), `c83_arguments_kept` (closed), `c83_rounds` (closed), `c83_round_trip` (R4).

### C84 Functions on R matrices (proved)

The function that reads the dimensions of its argument with dim(), makes a matrix and fills it with at() returns the transposed R matrix; the one with three loops returns the product of two R matrices. Transposing twice gives back the matrix bit for bit, and the transposed product is bit for bit the product of the transposed factors in the other order.

c84_transpose and c84_matmul on top of C83 and C82; c84_twice and c84_product_transposed compose calls, the results of which are arguments of further calls.

Theorems: `c84_transpose` (R4), `c84_matmul` (R4), `c84_twice` (R4), `c84_product_transposed` (R4).

### C85 Memory safety of functions called from R, and of R sessions (proved)

Let a function called from R have any parameters and any body the compiler accepts: programs with nested blocks, loops, matrices, at(), subsets and exceptions, local vectors, scalars, conditionals, and a return of an expression that is not itself a subset. Let its arguments be any R objects (of the right or the wrong type, of any size). Then no memory is freed twice, used after it was freed, accessed outside its block, and no null pointer is followed; only arithmetic or the reading of a never written element can be undefined, and only arithmetic if the body uses no resize and no assignment of a shared vector to a subset of itself. When the call ends, by a result or an exception, the library holds no memory, nothing leaked, the memory of R is unchanged and the result is a complete R object; so any session of such calls, on earlier results and decided by them, is as safe as its first call.

By induction on the body (CallSafe.frun_ends, on top of LangProofs.lrun_ends), the parameters (call_ends) and the session (session_safe). cpp2R gives Rf_allocMatrix the extents as int; extents_agree shows that the number of elements allocated is the number written. The returned expression is not itself a subset (a local vector can hold one): the model does not limit the number of positions of a subset by the memory. Out of memory (BadAlloc) ends the session in the model.

Theorems: `c85_safe` (R4), `c85_written` (R4), `c85_session` (R4), `c85_session_written` (R4).

### C86 Memory of the caller and of R is never freed, and changed only where it is lent (partial)

While any program runs on vectors that own their memory, borrow arrays of the caller or wrap R objects (wrappers are not assigned as a whole), every block that does not belong to the library stays allocated with its owner and length, keeps all its written elements written, and keeps unchanged every element beyond what the vectors in scope reach, also when statements throw. Any number of vectors may borrow or wrap the same memory.

For histories and for nested programs, on top of C76 and C80 with one more block to watch (lenders). Cells that some vector reaches may change, the others may not; aliases are allowed. Partial because an array of no elements cannot be lent safely (c86_empty_refuted).

Theorems: `c86_foreign_kept` (R4), `c86_programs_keep` (R4), `c86_borrow_again` (closed), `c86_wrap_again` (closed), `c86_empty_refuted` (closed).

### C87 Expressions never read an operand whose lifetime is over (partial)

An operation holds references to its operands and a subset a pointer to what it selects from. While the full expression is evaluated all of them are alive, so that size, shape, elements and assignment are those of the expression tree. A variable declared with auto (or a result returned from a function) stands for its expression, with the values its vectors have when it is used; a program with such variables runs as the program with each name replaced by its expression.

Expressions as objects with references (LifeModel), related to the trees of VecModel by induction on the objects. Full expressions: no condition. Variables declared with auto: exactly the expressions whose operands have names work (c87_programs_partial); any other reads an object whose lifetime is over (c87_temporaries_refuted, for all such expressions). Vectors named by an expression are assumed to stay in scope.

Theorems: `c87_full_expression` (closed), `c87_assignment` (closed), `c87_named_partial` (closed), `c87_programs_partial` (closed), `c87_temporaries_refuted` (closed).

### C88 Element types (partial)

Every element a program writes has the type of all vectors that can see it, and vectors keep their element types, whatever the program does. The element type the compiler gives an expression is the common type of its operands; the numbers it computes are bools for comparisons, doubles for quotients and functions, and of the common type otherwise. A subset by an expression of bools selects the elements where it holds, and a vector made of an expression holds its values.

All programs of LangModel.lstmt, all storage classes. Positive: types are kept, static types are those of the objects, the numbers computed have the type SpecStatic.rtyp; in whole programs every statement started (SpecReach.reach) states types the vectors then have (c88_program). Refuted: a comparison of doubles used as a subscript is read as positions (c88_comparison_double, _read, _int tell exactly what happens, c88_comparison_bool when it works); rep and matrix of a quotient of ints truncate it (coca does not: c88_coca).

Theorems: `c88_types_kept` (closed), `c88_static_type` (closed), `c88_subscript_type` (closed), `c88_element_type` (closed), `c88_access_type` (closed), `c88_one_type` (closed), `c88_made_type` (closed), `c88_comparison_double` (closed), `c88_comparison_read` (closed), `c88_comparison_int` (closed), `c88_comparison_bool` (closed), `c88_comparison_refuted` (closed), `c88_quotient_refuted` (closed), `c88_coca` (R4), `c88_argument_type` (closed), `c88_program` (closed).

### C89 Conversions to R and the garbage collector of R (partial)

R may free, whenever it allocates, any object it does not reach and that is not protected. For every such collector, cpp2R gives R an object that is complete and alive, whatever memory of R the expression reads, protects it while it is written, and leaves the stack of protected objects as it was, also when it throws; nothing R reaches is freed, and objects returned earlier stay alive.

R's protection stack and a collector that may free, at each allocation, any R memory R does not have to keep (RgcModel). Positive: for every collector the result is complete, the stack is as before and what R keeps survives (c89_vector, c89_matrix, c89_number, c89_kept), and without collections this is cpp2R of C49 (c89_model). Refuted: an exception in the loop leaves the stack one longer (c89_exception_refuted); a wrapped R object is not kept by the library (c89_wrapped_refuted); a returned object is not protected when a second one is made (c89_second_refuted). Strings and cpp2R() are not modelled.

Theorems: `c89_vector` (closed), `c89_matrix` (closed), `c89_mismatch` (closed), `c89_number` (closed), `c89_kept` (closed), `c89_model` (functional_extensionality_dep), `c89_exception_refuted` (closed), `c89_wrapped_refuted` (closed), `c89_second_refuted` (closed).

### C90 The derivative type of an expression (partial)

Of a right-hand side the compiler makes a type whose static functions give the number of elements, the elements and the derivatives. There is one exactly for expressions over variables and constants of the AllVars object with sums, differences, products, quotients, comparisons and sines; it computes as many derivatives as the expression has elements, namely as many as the longest operand; each operand is recycled by itself; a constant divisor is treated as one.

walkTD as a function on types and the static members of the types it makes (WalkModel). Positive: a derivative type exists exactly for the expressions made of operands of the AllVars object by + - * / comparisons and sin (c90_defined); what it computes is what the derivative programs of C43..C46 use (c90_model); its size is that of the longest operand and of the expression (c90_size); its elements (c90_value). Refuted: a divisor that is a constant of colon or vector, or a sum of constants, is not seen as a constant, and every derivative is infinite or NaN (c90_divisor_refuted). The value of the sine of a comparison is TRUE or FALSE instead of the sine of 1 or 0 (c90_sine_of_comparison_refuted).

Theorems: `c90_defined` (closed), `c90_model` (closed), `c90_size` (closed), `c90_value` (closed), `c90_sine_of_comparison_refuted` (closed), `c90_divisor_refuted` (R4).

### C91 Functions that leave loops and scopes by return, break and continue (proved)

A function called from R may return from inside any loop and block and may leave rounds and loops by continue and break. It gives back what its body means on lists, as a new R object; on the way out every vector of every scope that is left is destroyed exactly once and after the result has been made, so that when the call has ended no allocation is left and the memory of R is as before. For every such body the compiler accepts, nothing but arithmetic or the reading of a never written element can be undefined; a function all of whose paths return never ends without a result.

JumpModel.jrun gives every statement a flow (next, break, continue, result, still running); jscope destroys the vector of a scope whichever way it is left. c91_call by induction on parameters and body (JumpThms.jrun_follows, on top of C81 and C49) against SpecJump.jsem; c91_safe and c91_written by JumpProofs.jrun_ends, without any assumption on the values; c91_rounds; c91_functions: the functions of C83 are the ones that return at their end. c91_first and c91_sum use c91_call for two functions with a return in a scope in a loop, and with break and continue, for all R vectors. goto, switch, exceptions other than those of the library and functions that call each other are not modelled.

Theorems: `c91_call` (R4), `c91_safe` (R4), `c91_written` (R4), `c91_rounds` (closed), `c91_functions` (closed), `c91_first` (R4), `c91_sum` (R4).

### C92 Functions and R programs under every garbage collector (partial)

Whenever R's collector runs during a call of a function of the library and whatever it frees of the objects R does not have to keep, the call ends exactly as without a collector: same result, same exception; the result object is intact, the objects R reaches keep their elements, and the protection stack is as before when a function without catch returns. An R program that calls such functions again and again, makes vectors of its own, looks at elements and forgets objects it no longer uses cannot observe the collector, and no use of freed memory is possible.

GcCallModel.jcall_g is C91's function call over a world with R's protection stack and a freely chosen collector that runs at every allocation of R (C89); rprog are programs in R: calls, vectors R makes itself, branching on the elements of an object, forgetting objects. Positive: for every collector a call ends as without one, the result is intact and only objects R need not keep are gone (c92_call, c92_means); functions without catch leave the stack as it was (c92_balanced); an R program that uses only what it has not forgotten cannot tell which collector it runs with (c92_program) and is memory safe (c92_safe, c92_written). Proof: BlindProofs shows that no operation of the library looks at memory no vector points to (two runs side by side), GcCallProofs.step follows both runs. Refuted: with a catch a function can return and leave an object on the stack (c92_stack_refuted). Wrapped parameters (Vec(SEXP)): see C96.

Theorems: `c92_call` (functional_extensionality_dep), `c92_balanced` (functional_extensionality_dep), `c92_stack_refuted` (closed), `c92_means` (R4), `c92_program` (functional_extensionality_dep), `c92_safe` (R4), `c92_written` (R4).

### C93 Functions that use the memory of R objects (partial)

A function called from R may take parameters that wrap the memory of R objects instead of copying them. Whatever such functions do, in any number of calls, with one object passed to several parameters, the program is memory safe; R's memory that is not wrapped is unchanged, wrapped memory stays R's, as long as before and with elements of its type; nothing the library allocated is left when a call has ended or thrown; writes through one wrapper are seen through the others and by R.

WrapCallModel.wcall is C91's call with a choice per parameter: a copy (Vec<t> x; x = r) or a wrapper of R's memory (Vec<double, BorrowSEXP<double>> x(r)). Positive: c93_safe_partial and c93_written_partial (WrapCallProofs.wcall_ends, by induction on the parameters; the invariant `sound_at` in a mode that knows the wrapped vectors and the lent blocks), c93_objects_partial (element types are kept in R's memory too: WrapTypes.wcall_typed over StaticProofs with the types of R's blocks fixed), sessions of calls by induction (c93_session_partial, c93_session_written_partial), c93_unwrapped (objects no call wraps stay as they are), c93_copies (C91 is the case without wrappers), c93_alias (two parameters that wrap one vector, for all vectors, positions and values). Refuted: without `keeps_j` (c93_assign_refuted: x = e on a wrapping parameter gives R's memory to delete[]) and for empty wrapped objects (c93_empty_refuted). BorrowSEXP's operator=(SEXP) inside a body is not modelled here; the collector is added in C96.

Theorems: `c93_safe_partial` (R4), `c93_written_partial` (R4), `c93_objects_partial` (R4), `c93_session_partial` (R4), `c93_session_written_partial` (R4), `c93_unwrapped` (R4), `c93_copies` (closed), `c93_alias` (closed), `c93_assign_refuted` (closed), `c93_empty_refuted` (closed).

### C94 Printed text (partial)

print and operator<< write the elements of a vector in order on one line, the rows of a matrix on a line each, and nothing else; integers can be read back from the text and two vectors of integers or logical values with the same text have the same elements; when an element throws, the elements before it have been written; in a sequence of calls every call adds its own text, which does not depend on the calls before it. print(inp, av) of a variable of a derivative program writes the same text, and operator<< of a shape writes the numbers of rows and columns.

TextModel.v has the stream: text so far, the sticky flag std::boolalpha, and the world. SpecText.v states the text from the reader's side: a decimal reader (`number`: canonical, no leading zeros), a splitter (`cut`, `table`) and the relation `says`. Positive: c94_vector, c94_matrix, c94_integers and c94_integer_matrix (the text reads back as the numbers, all lengths and values), c94_faithful (equal text, equal elements), c94_interrupted (what is on the stream when element k throws), c94_session (any sequence of prints, by induction), c94_history, c94_variable (print(inp, av) of a variable of an AllVars object writes what print of its vector does; needs as many elements as the shape says, c94_variable_ex), c94_shape (operator<< of MatrixParameter reads back). Refuted: how a logical matrix is written depends on what was written before (c94_logical_refuted), and with the flag off it looks like an integer matrix (c94_zero_one_refuted). The text of a double is an argument that has no blanks, tabulators or newlines; stream errors and flushing are not modelled.

Theorems: `c94_vector` (closed), `c94_matrix` (closed), `c94_integers` (closed), `c94_integer_matrix` (closed), `c94_faithful` (closed), `c94_interrupted` (closed), `c94_variable` (closed), `c94_shape` (closed), `c94_session` (closed), `c94_history` (closed), `c94_logical_refuted` (closed), `c94_zero_one_refuted` (closed).

### C95 Conversions between the element types (proved)

Converting a value to the element type of the vector it is assigned to gives the value C++ asks for: doubles to ints are cut towards zero, ints and logical values become exactly equal doubles, everything but zero becomes true, also what is not a number; the conversion is undefined exactly when the integer part of a double does not fit an int, or the double is not finite. x = y has the converted elements of y; going to a wider type and back loses nothing; if and while test whether the value is not zero.

SpecConv.v says what C++ asks of every conversion in terms of integers and real numbers (truncation towards zero, exact doubles, everything but zero is true). c95_conversion covers every value and pair of types, including when the behaviour is undefined; c95_assign lifts it to x = y for vectors of any types and lengths, c95_round_trip and c95_back: nothing is lost on the way to a wider type and back; c95_condition: what if and while do with the value of a condition; c95_size: doubles as lengths and positions.

Theorems: `c95_conversion` (R4), `c95_always` (R2), `c95_size` (R2), `c95_assign` (R4), `c95_back` (R4), `c95_round_trip` (R4), `c95_condition` (R2).

### C96 Wrapped R objects and R's garbage collector (partial)

A function that uses the memory of R objects in place ends under every behaviour of R's garbage collector as it would without one, with the same result and the same elements in the wrapped objects, provided R reaches the wrapped objects during the call; whole R programs that make objects, call such functions, look at elements and forget objects cannot tell which collector they run with, are memory safe, and find the objects they still reach and never passed to a wrapping parameter unchanged.

GcWrapModel.wcall_g is C93's call over the world of C92 (protection stack, freely chosen collector at every allocation of R); wprog are R programs whose functions copy or wrap each argument. Positive: c96_call and c96_balanced, for all function bodies without restriction, given that R reaches the wrapped objects (as .Call guarantees for arguments); c96_copies (C92 is the case without wrappers); c96_program_partial, c96_safe_partial, c96_written_partial for whole programs whose functions keep to C93's rules (no whole-vector assignment to a wrapper, wrapped objects not empty: refuted otherwise by C93). Proof: the relation of GcCallProofs between the runs with and without collector, with a set of blocks that the library uses meanwhile (gsim_acquire, gsim_release), and the safety lemmas of WrapCallProofs. Refuted: without R reaching the object the collector frees it under the wrapper (c96_reached_refuted).

Theorems: `c96_call` (functional_extensionality_dep), `c96_balanced` (functional_extensionality_dep), `c96_copies` (closed), `c96_reached_refuted` (closed), `c96_program_partial` (R4), `c96_safe_partial` (R4), `c96_written_partial` (R4).

### C97 Derivative programs are memory safe (proved)

A program of assignments to the Buffer variables of an AllVars object never touches memory it must not, never reads an element that was not written, never frees twice and loses no block, whatever its right-hand sides are; the user's data behind Borrow and BorrowSEXP variables stay as they are however the program ends. If every variable has elements when it is read, the program is defined: it ends, stops at an assertion or runs out of memory; afterwards get() and get_derivs() of every variable are defined.

All programs of DerivModel.drun whose targets are Buffer variables inside varBuffer, without the restrictions of C43 to C46 on operators, lengths, memory and constants. c97_safe: the end state is sound, all elements written, nothing leaked, inputs unchanged; the only undefined behaviour possible is i % 0. c97_defined excludes that when every variable read has elements (needed: c97_unassigned_ex). c97_ask: get and get_derivs afterwards. Proof: an invariant between statements (every object full of doubles; a variable has as many derivatives as values, or none yet) and one inside a statement (half), where the target's derivatives may shrink back to the old length while its new ones are written. Assigning to a number outside varBuffer is undefined (c97_number_ex). Not claimed: the state after std::bad_alloc (the destructor then frees twice: C80, PropStore.v). Going on after an exception was caught: C100.

Theorems: `c97_safe` (R4), `c97_defined` (R4), `c97_ask` (R4).

### C98 Memory decides whether a program gets through, not what it computes (proved)

If a program of the library, a function called from R (with copying or wrapping parameters) or a derivative program comes to its end, with a value or an exception of the library, when the allocator serves requests of up to L elements, then with every larger limit it ends in the same way, with the same elements at the same places and the same blocks in use. So no two limits that suffice give different results, and there is a least limit that suffices. Memory safety of calls from R (C91) therefore holds for every amount of memory, if fewer than 2^31 elements suffice.

Proved for lrun (c98_program), wcall (c98_call; jcall is the case without wrapping, c93_copies), call (c98_function), drun and get_derivs (c98_derivatives, c98_asked). Nothing is assumed about the starting state, so undefined behaviour of the smaller run is not compared: while std::bad_alloc unwinds, an unsound state may run into undefined behaviour the larger run does not meet. c98_unique and c98_least are consequences; c98_safe carries C91 over to every limit. The limit bounds a single request, as everywhere in the model; an allocator that fails because of the sum of the requests is not modelled.

Theorems: `c98_program` (functional_extensionality_dep), `c98_call` (functional_extensionality_dep), `c98_function` (functional_extensionality_dep), `c98_derivatives` (functional_extensionality_dep), `c98_asked` (closed), `c98_unique` (functional_extensionality_dep), `c98_least` (functional_extensionality_dep), `c98_least_call` (functional_extensionality_dep), `c98_safe` (R4).

### C99 The order of evaluation that C++ leaves open (partial)

C++ does not say which operand of an operator or which argument of a call is evaluated first. An element of an expression of vectors has the same value in every order, is missing in one order only if it is missing in all, and evaluating it changes nothing. Derivative programs show the same values and the same derivatives of every variable in every order, and stay memory safe and defined in every order.

OrderModel.v runs the evaluator and the derivative programs with a schedule, an order of the arguments for every expression, index and state; each_once says that every argument is evaluated exactly once. c99_left: the order of the other model files is one of them. c99_element: values of elements (only which failure is met may differ, c99_element_ex). c99_ring_partial, c99_programs_partial: derivative programs under the conditions of C43. c99_safe, c99_defined: C97 in every order, without those conditions. Missing to the full property, and false: two inputs of different kinds with the number of the independent variable (c99_two_inputs_refuted) and one constant number used twice in a statement (c99_constant_refuted).

Theorems: `c99_left` (closed), `c99_element` (closed), `c99_ring_partial` (R4), `c99_programs_partial` (R4), `c99_two_inputs_refuted` (closed), `c99_constant_refuted` (closed), `c99_safe` (R4), `c99_defined` (R4).

### C100 Derivative programs go on after a caught exception (partial)

In derivative programs with try blocks around statements, nested in any way, catching the exceptions of the library: if every variable read has elements on every way to the read, the program is free of undefined behaviour, leaves the inputs untouched and loses no memory, and at its end or at an exception that leaves it every storage object is sound and holds written doubles only; get and get_derivs then work. A failing statement leaves the values of all variables as they were, and fails only because a constant has no elements or because the target is on its own right-hand side and shorter than another operand. The derivatives of the target are not kept (refuted).

TryModel.v adds try blocks (catching what ass throws, not std::bad_alloc) to the programs of DerivModel.v. DerivCatch.v shows which steps can throw at all: making a constant without elements, and writing a derivative beyond the end when the target is on its own right-hand side and longer operands make the result longer (VarPointer::getDeriv shrinks the derivatives back to the old length); in both cases the invariant of C97 holds in the state left behind. c100_safe, c100_ask: programs with handlers. c100_fails: values of all variables kept, and the two causes. c100_ends: without the two causes a program ends or runs out of memory. c100_plain: without handlers these are the programs of C97. c100_meaning: the interpreter agrees with an inductive big-step semantics given in SpecTry.v. c100_derivs_refuted: the derivatives of the target are partly the new ones next to the old values, so a failing assignment is not all or nothing. c100_memory_refuted: after std::bad_alloc the program cannot go on. Not claimed: programs that read variables without elements (undefined: C97).

Theorems: `c100_safe` (R4), `c100_ask` (R4), `c100_fails` (R4), `c100_ends` (R4), `c100_plain` (closed), `c100_meaning` (closed), `c100_derivs_refuted` (closed), `c100_memory_refuted` (closed).

### C101 Where memory is does not matter (proved)

A program, a function called from R or a derivative program that finds the same contents at other addresses - next to any other memory, after any earlier allocations - ends in the same way, with the same values, the same exception or the same undefined behaviour; results and vectors hold the same at corresponding addresses, and memory that is not part of the correspondence is left alone. No address, no order of addresses and no history of the heap is ever visible in a result.

Proved for lrun (c101_program), functions called from R with copying and wrapping parameters (c101_call, c101_result; c101_function for the bodies of C83), derivative programs with and without handlers (c101_derivatives) and the values and derivatives asked for afterwards (c101_asked). `placed pi w w'` says that w' holds everything w holds, at addresses pi chooses injectively, next to any other memory, and has any other next address; nothing else is assumed, so the endings agree also where they are undefined behaviour, and other_kept is the frame: memory of w' that is not that of w is untouched. The model's allocator gives out addresses in order and never gives one out twice; the theorem removes the dependence on the numbers and on earlier history, not the assumption that a freed address is not given out again, which could only be seen by a program that uses a freed address (excluded by the safety theorems C80, C91, C97).

Theorems: `c101_program` (closed), `c101_call` (closed), `c101_function` (closed), `c101_result` (closed), `c101_derivatives` (closed), `c101_asked` (closed).

### C102 How often memory is asked for (proved)

A program that makes no vectors and takes no subsets runs in the memory its vectors already have, provided every assigned vector has room for n elements in use and in reserve and no operand is longer than n: no block is obtained, released or resized, std::bad_alloc is never thrown however little the allocator is able to serve, and the room is still there at the end, after any number of loop rounds and whether or not exceptions are caught. An assignment asks for one block at most; assigning k elements again and again asks for two in all, and after two such assignments the vector is in the state described first. Appending k elements to an empty storage object asks for memory exactly 1 + ceil(log2 k) times and reserves less than twice what is needed.

SpecCost.v defines room, steady states, the fragment (in_place) and what it means that the blocks of the heap stay the same. c102_steady: programs of LangModel.v with assignments, scalar and element assignments, fill, resize up to n, if, while, try; for every outcome, undefined behaviour included, and every limit of the allocator. c102_function: function bodies with break and continue. c102_no_memory: with C98, what a steady program does with no memory left it does with any. c102_once: one block per assignment, none when the reserve has room; the memory in use becomes the reserve. c102_refills: two blocks for any number of assignments of k elements. c102_ready: these lead to a steady state. c102_appends: exact number of requests of push_back. subset() is left out of the fragment because the index store of a subset is memory in the code and a list in the model; memory of exception objects and of R is not counted.

Theorems: `c102_steady` (closed), `c102_function` (closed), `c102_no_memory` (functional_extensionality_dep), `c102_once` (R4), `c102_refills` (R4), `c102_ready` (R4), `c102_appends` (R4).

### C103 Programs may be rewritten (partial)

Statements that do not change what the others mention may be executed in any order; a statement changes no vector but those its text assigns to; a statement whose results are not mentioned afterwards may be left out; one round of a loop may be written in front of it; sequences may be regrouped, empty statements dropped, a continuation moved into both branches and a handler of a handler moved into it, anywhere in a program and any number of times; what follows break, continue or return may be dropped; an assignment that is overwritten at once may be left out; a value that was assigned to x may be read from x instead of being computed again. In each case the program ends in the same way and all vectors concerned have the same elements and the same shapes.

SpecRewrite.v: touches P Q p reads off the text of a statement what it mentions (P) and what it changes (Q); parts, independence. RewriteProofs.v: meanings (SpecMat.lsem) depend on the vectors mentioned only and change those assigned to only, by induction over expressions and statements; carried over to the execution in memory by C81. c103_any_order: every permutation of any number of pairwise independent statements, for runs that end normally. c103_only_sets, c103_unused: also for runs that end by an exception. c103_unroll, c103_laws: equalities of executions, same memory block by block, without any hypothesis on the state (undefined behaviour included). c103_rewrites: any number of such steps (SpecRewrite.step) in both directions anywhere in a program, inside loops, scopes and handlers; the number of extra rounds is bounded by the number of steps. c103_function: function bodies with break, continue and return (JumpModel.v). c103_overwrite_refuted: leaving out an overwritten assignment changes whether at(x, i, j) throws, because x keeps the shape of the value that was overwritten; c103_overwrite_partial: the elements and the shapes of all other vectors agree. c103_copy_partial and c103_copy_refuted: the same for reading from x what was just assigned to it (for vectors of one element type). Missing: resize (no meaning on lists) in the theorems that go through C81; the names of local vectors count as changed, so two statements with a local vector of the same name are not independent.

Theorems: `c103_any_order` (R4), `c103_only_sets` (R4), `c103_unused` (R4), `c103_unroll` (closed), `c103_laws` (closed), `c103_rewrites` (closed), `c103_function` (closed), `c103_overwrite_partial` (R4), `c103_copy_partial` (R4), `c103_overwrite_refuted` (closed), `c103_copy_refuted` (closed).

### C104 Programs proved correct: invariants, variants, Euclid, sums (proved)

Rules for proving programs of the library correct are sound for their execution in memory: from rules for single statements, sequences, conditions, while loops (an invariant and a decreasing natural number), for loops (an invariant over the part already seen), scopes and handlers one concludes that the program ends after finitely many rounds in the state claimed, or by an exception claimed, without leaks; and the rules prove everything the meaning of programs on lists says; what is said about vectors a program does not assign to may be added, and two facts about the same program may be joined. Used on int vectors: Euclid's algorithm by subtraction leaves the greatest common divisor for all non-negative ints and changes no other vector, division by repeated subtraction leaves quotient and remainder, and adding up colon(1, n) leaves n(n+1)/2 for all n whose sum is an int; a write with at and a handler that sets a fallback writes exactly the position given when it is one of the vector and leaves the fallback otherwise.

SpecHoare.v: achieves (total correctness of lrun in memory: one outcome for every large enough bound on rounds, exceptions with their own assertion, no leak, all vectors in scope represented), proves (the rules: conditions and operands may throw, the while rule has an invariant indexed by the variant, the for rule one indexed by the elements still to come), and the programs euclid, divide, gauss and checked. HoareProofs.v: soundness by induction over derivations on the list meaning SpecMat.lsem, the while rule by well-founded induction on the variant; carried over to memory by C81. c104_complete: a triple is derivable if and only if the list meaning has it, for any assertions (by induction over programs; the invariants are read off the run). A statement that is one library call is a leaf whose premise is its list meaning; resize has no list meaning and so no rule (its contents depend on the capacity, C05, C08); completeness is relative to the list meaning, which covers the runs C81 covers. c104_gcd, c104_divide, c104_sum and c104_checked are proved with the rules, for all numbers; conditions go through the double conversion of operation results (RetType), int arithmetic through the overflow check. 65535 is the largest n whose sum is an int. c104_frame joins the rules with C103 (what a statement's text assigns to); c104_gcd_only is its use. c104_both: the run in memory determines the lists, so two facts about one program hold of the same end.

Theorems: `c104_sound` (R4), `c104_complete` (R2), `c104_frame` (R2), `c104_both` (closed), `c104_gcd` (R4), `c104_gcd_only` (R4), `c104_sum` (R4), `c104_divide` (R4), `c104_checked` (R4).

