# Formal model of NazaraUtils in Rocq — design

## How the code is modelled

NazaraUtils is a header-only C++ library.  The model is a set of small executable Gallina functions, one
per C++ member function, written from the text of `/repo/include/NazaraUtils`.  Every definition carries a
comment with the file and line range it models, and says where it simplifies.

* **Outcomes.**  A C++ call either completes or not.  `outcome A := Done a | Fault f`, with
  `f` one of `FAssert` (a `NazaraAssert`/`NazaraAssertMsg` fails), `FUB` (out-of-range storage access, over-long shift,
  null dereference, access to a dead object, division by zero, ...), `FThrow` (exception), `FTerminate` (exception out of a
  noexcept function) and `FDiverge` (loop fuel exhausted).
  Assertions are modelled as enabled.  A theorem concluding `Done` therefore covers release builds too,
  because the assertion condition was true.
* **Integers.**  Block and integer values are `N` with explicit `mod 2^w`; signed values are `Z`
  with explicit wrap.  Lengths and indices are `nat`; `size_t` overflow of a *length* is not modelled
  (a container of 2^64 elements cannot exist), `size_t`/`UInt32` wrap-around in *arithmetic* is (SparsePtr, Align, ...).
* **Object lifetime.**  Containers that construct and destroy elements by hand are modelled on raw slots
  (`CellModel.v`): `Raw` is memory without object, `Obj (Some a)` a live object, `Obj None` a moved-from one.
  Constructing over a live object, destroying or reading raw memory is `FUB`.
* **Mutation.**  Member functions return the new state.  Where two arguments may alias the same object, the model
  works on a store of named objects.
* **Exceptions.**  `ThrowModel.v`, `PoolThrowModel.v` and `SignalThrowModel.v` repeat the functions concerned with
  an exception that can come out of any construction, move or allocation (a counter says which), and keep the state the
  exception leaves behind.

Specifications do not mention blocks, masks or slots (lists of booleans, lists of values, finite sets, mathematical
integers).

## Layout (`rocq/theories`)

| files | content |
|---|---|
| `Base.v`, `CInt.v` | outcomes, list and bit lemmas; C++ integer types |
| `*Model.v` | the model of one header (no proofs) |
| `*Spec.v` | the independent specification |
| other files | lemmas |
| `Tests*.v` | the library's own unit tests, run on the model |
| `Prop*.v` | property theorems, each with `Print Assumptions`, and non-vacuity examples |

A theorem `Cnn_...` belongs to the property `Cnn` of `properties.jsonl`.  `_partial` marks a theorem with conditions
the property does not have; `_refuted` marks a theorem showing that the property, as stated, is false of the code.
`tools/gen_manifest.py` derives `MANIFEST.json` and `_CoqProject` from the sources and `tools/claims.py`.

## Model and proof per property

| property | model | proof |
|---|---|---|
| C01–C03, C15 | `BitsetModel.v`, blocks as `list N` of width `w = 2^k` | simulation relation with `list bool`, induction over operation lists |
| C04, C05, C07, C08, C13, C18 | same | bit-level characterisation `bitat`; loops by loop invariants; aliasing on a store of bitsets |
| C06, C16 | same + iterator state machine | least-element characterisation, induction on remaining positions; C16 refuted by witness |
| C09, C10 | same | structural induction / binary expansion |
| C11, C12 | same + byte buffers | conditional theorem + refutation of the unconditional one |
| C14 | same | refuted (out of range read; two bitsets less than each other) + what remains true |
| C17 | same | refuted by witness |
| C75 | arithmetic on block counts | direct |
| C19–C30 | `MathModel.v` | bitwise reasoning for all widths; table-driven parts by full finite sweeps lifted with `forallb_forall` |
| C31–C37 | `VectorModel.v`: slots + fallback | refinement to lists over all histories + lifetime invariant; refutations where the code deviates |
| C38–C39, C76 | `StackModel.v` | same |
| C40–C46 | `PoolModel.v`, on top of the bitset model (64-bit blocks) | invariant over all histories, refinement to a finite map index→object; C43, C45 refuted |
| C47–C52 | `SignalModel.v`: slot list + emission cursor, callbacks are scripts of connects/disconnects/emissions | invariant of the emission loop; refutations for the re-entrant cases |
| C53–C55, C77 | `HashModel.v` | table = 8 bitwise steps (finite sweep over 256 entries), then induction over strings; bijectivity of each mixing step |
| C56–C58 | `FlagsModel.v` | bitwise; C58 refuted |
| C59–C60, C78 | `SparseModel.v` | linear arithmetic; refuted for unsigned 32-bit index with negative strides, and for bases not at offset 0 |
| C61–C64 | `ResultModel.v` | case analysis + induction over step lists |
| C65–C66 | `MovableModel.v` | induction over histories |
| C67–C68 | `ExitModel.v` | induction over histories |
| C69 | `PimplModel.v`: heap + handles | ownership invariant over histories |
| C70, C71, C74 | `EnumArrayModel.v`, `TypeListModel.v`, `FunctionRefModel.v` | induction |
| C72 | `TypeNameModel.v`: the signature texts of three compilers | string lemmas; exact limit on the length of the name |
| C73, C79, C80 | `SafeCastModel.v`: the `constexpr if` ladder on type descriptions | arithmetic on ranges, rationals for floating point values |
| C81–C84 | `ThrowModel.v` | state after an exception at any step; leaks counted exactly |
| C85 | `PoolThrowModel.v` | refinement of C40 with the state after the exception |
| C86 | `SignalThrowModel.v` | the emission invariant holds wherever the loop is left |
| C87–C93 | `FloatModel.v`, on `Coq.Floats.SpecFloat` for any precision and exponent range | finite numbers as integer multiples of the smallest one; `FloatRound.v`: sums, products, quotients and fma are the exact value rounded to nearest, ties to even, on integers without reals; `FloatError.v`: this rounding is unique, monotone and has the usual error bounds; `FloatOps.v`: fmod, conversions, integers |
| C94 | `StringModel.v`: memory as byte arrays, views as pointer and length | bytes under a view |
| C95–C96 | `StringModel.v`: std::unordered_map as buckets of entries, for any hash function | map as the list of operations |
| C97 | `StringModel.v`: POSIX (bytes) and Windows (UTF-8 to UTF-16) paths | encoding and decoding of all scalar values (`UnicodeProofs.v`) |
| C98–C99 | `BitsModel.v`: object representations in both byte orders, struct layout | value and bytes determine each other |
| C100–C103 | `TraitsModel.v`: templates as functions on a syntax of types; `None` is an ill-formed instantiation | case analysis on types; candidates of an overload set |
| C104 | `ConstantsModel.v`: literals as correctly rounded quotients, converted | reals as cuts; alternating series in rationals |
| C105 | `AssertModel.v`: expansion to tokens, a parser of statements, their execution | parse of the tokens of a program, by induction on it |
| C106 | `FloatModel.v` (`FloatMultiplyAdd`, with and without `FP_FAST_FMA`) | one or two roundings (`PropRounding.v`) |
| C107 | `StackAllocModel.v`: expressions with side effects, pasted by the macros; alloca on a stack pointer | evaluation of the expansion in both orders |
| C108 | `DeferModel.v`: expansion to guards named after the line, execution with scopes | try/finally, by induction on programs |
| C109 | `AssertOutputModel.v`: the calls of fprintf, with a small fprintf | evaluation of the formats on any text |
| C110 | `PlatformModel.v`: an environment of macros, the ladders of #if | case analysis on which macros are defined |
| C111 | `IterModel.v`: loops over positions in the storage in use | induction on the elements not yet visited (`IterProofs.v`) |
| C112 | `FixedBitsetModel.v`: the functions of `BitsetModel.v` on the storage of `VectorModel.v` | simulation by `BitsetModel.v`, one step and one operation at a time (`FixedBitset*.v`) |
| C113–C115 | `OverloadModel.v`: conversion sequences, their ranking and the best viable function ([over.match]) for the overload sets of the library | case analysis on types, constness and value category |
| C116–C118 | `GuardModel.v`: guards by address, argument passing through std::function, use of captures; `CaptureModel.v`: emissions in which every callback uses its captures before each action | invariant relating guards to the connected slots (`GuardProofs.v`), induction on the slots; simulation between ownership and the history (`CaptureProofs.v`) |
| C119 | `MsvcModel.v`: the MSVC paths of the bit functions over the documented intrinsics | splitting the bits into halves |
| C120 | `FlagsConfigModel.v`: specialisations and functions found around an enumeration | case analysis, C56 for the expressions |
| C121 | `FeatureModel.v`: which expansion is selected, its tokens, a parser and an interpreter of the statements around it | the printed expressions parse back, then case analysis over the expansions |
| C122 | `BitsetThrowModel.v`: the members that grow the container, with a counter of allocations that succeed | comparison with `BitsetModel.v`; what an interrupted append leaves (`BitsetThrow.v`) |
| C123 | `BitsetReleaseModel.v`: the members of `BitsetModel.v` with assertions, without them | `follows` (`Release.v`): same outcome unless an assertion fails (`BitsetRelease.v`); histories of `BitsetHistory.v` |
| C124 | `VectorReleaseModel.v`: the members of `VectorModel.v` with assertions, without them | `follows` (`Release.v`, `VectorRelease.v`); histories of `VectorHistory.v`; each violating call |
| C125 | `StackReleaseModel.v`: the members of `StackModel.v` with assertions, without them | `follows` (`Release.v`, `StackRelease.v`), simulation by the vectors of C124; each violating call |
| C126 | `ScalarReleaseModel.v`: bit functions, `IsPow2`, `Align`, `AlignPow2`, the Flags iterator, SparsePtr, `PrivateImpl::Emplace` without assertions | equal unless an assertion fails; the exact result of each violation |
| C127 | `PoolReleaseModel.v`: the members of `PoolModel.v` with assertions, without them | `PoolRelease.v`: what ends with assertions ends alike without; blocks of one entry; the exact result of each violation |
| C128 | `SafeCastFloatModel.v`: the floating point branch of `SafeCast`, formats as in `FloatModel.v` | correct rounding of `FloatRound.v` between two formats |
| C129 | `FunctionRefTypeModel.v`: the constraint and the body of the constructor, overload resolution on the implicit object | exact conditions for one operator, equality of both selections for any set; an invariant over programs for lifetimes |
| C130 | `CrcProofs.v`: the register as a linear map, its order | cancellation of a common end, triangularity for bursts, order by the prime factors of 2^32 - 1 |
| C131 | `CrcProofs.v`: the register as a linear map | linearity, invertibility of the step, discrete logarithm of the initial value |
| C132 | `HashModel.v`: FNV1a, HashCombine for each width of std::size_t | order of the prime modulo 2^32 and 2^64 by squaring and gcd; computed collisions |
| C133 | `SignalDestroyModel.v`: emissions whose callbacks destroy and move signals | `SignalDestroy.v`: simulation between destroying and clearing, through nested emissions; a destroyed signal stays destroyed |
| C134 | `VisitModel.v`: range-based for loops with a body that runs any history on the container | `VisitProofs.v`: simulation with a loop over a changing set (`VisitSpec.v`) |
| C135 | same, for the bits of one of several named bitsets | same |
| C136 | `IterExprModel.v`: expressions over iterators, typed by the operators each class declares, evaluated by the models of EnumArray and SparsePtr | induction on expressions, simulation of positions in an array (`IterExprProofs.v`) |
| C137 | `PoolReenterModel.v`: constructors and destructors as sequences of calls of the pool, run between the steps of Allocate, Free and Reset | slots as in C40, mutual induction on ownership trees, simulation of a pool whose first blocks have been reset (`PoolReenter.v`, `PoolReenterSim.v`) |
| C138 | `ResultTypeModel.v`: types built from classes, void and Result; candidates, ranking and instantiation of the constructors; values built by them | case analysis of the candidates per type and category, induction-free (types differ from their parts) (`PropResultType.v`) |
| C139 | `OffsetModel.v`: name lookup in bases, type of `&T::m`, deduction of GetClassType and GetMemberType, conversion of the template argument, constancy of the body; overloads and casts of AccessByOffset | induction over hierarchies with paths to subobjects (`PropOffset.v`) |
| C140 | `VectorReenterModel.v`: emplace_back, pop_back, operator[], clear, resize of FixedVector and StackVector with elements whose constructors and destructors make such calls | simulation by a specification on elements (`VectorReenterSpec.v`, `VectorReenter.v`), trees of pushes and pops (`VectorReenterSim.v`, `PropVectorReenter.v`) |
| C141 | `ConstexprModel.v`: literal types by standard, the steps of functions declared constexpr | nested induction on types, case analysis (`PropConstexpr.v`) |
| C142 | `PimplReenterModel.v`: Emplace, Reset, accesses and the end of `PrivateImpl<T, 0>` handles whose objects make such calls | invariant below a handle and frame above it, induction on depth (`PropPimplReenter.v`) |
| C143 | `BitsetStreamModel.v`: operator<< of Bitset, padding, reading words back | induction on sequences over the lemmas of C09 (`PropBitsetStream.v`) |
| C144 | `BitsetCapacityModel.v`: storage and capacity of the blocks, Reserve, GetCapacity; the growing members with their calls on the container | simulation with the members of `BitsetModel.v`, the change of storage being transitive over growing steps (`BitsetCapacity.v`, `PropBitsetCapacity.v`) |
| C145 | `VectorModel.v` and `StackModel.v` | the operations commute with replacing the first cells (`VectorTouch.v`); postconditions on the storage in use (`PropVectorPointers.v`) |
| C146 | `PoolsModel.v`: several pools, moves, exchanges, ends; objects in memory that is released | simulation by rows of slots with their places, over the one-pool lemmas (`PropPools.v`) |
| C147 | `SignalThreadModel.v`: threads emitting signals, access by access to the mutable m_slotIterator, with or without a mutex of the program | invariant of schedules, potential for the steps left, schedules built for the converse (`PropSignalThread.v`) |
| C148 | `PoolModel.v` with entries given back once too often (`PoolExcessSpec.v`: rows with the number of returns too many) | simulation with counters that are too low (`PoolExcess.v`, `PropPoolExcess.v`) |
| C149 | `PoolWrapModel.v`: MemoryPool without assertions, with counters that wrap; `PoolWrapSpec.v` | simulation modulo 2^64 (`PoolWrap.v`, `PropPoolWrap.v`) |
| C150 | `SignalOrderSpec.v`: order of the slots as a list with gaps filled from the end | iterator past the end outside emissions (`SignalOrder.v`, `PropSignalOrder.v`) |
| C151 | `BitsetExprModel.v`: expressions of bitsets; `BitsetExprSpec.v` | induction on expressions over C05 (`PropBitsetExpr.v`) |
| C152 | `FlagsValueModel.v`: Flags from a number | bits; the field as an enumeration that fills it (`PropFlagsValue.v`) |
| C153 | `SwapModel.v`: std::swap through the moves of ten classes | the pair in the other order; connected slots (`PropSwap.v`) |
| C154 | `SignalFailModel.v`: Connect with memory running out (over `ThrowModel.v`), guards | the list of slots and the iterator (`PropSignalFail.v`) |
| C155 | `BitsetAppendModel.v`: AppendBits of signed T | bits of the integer; AppendBits of the representation (`PropBitsetAppend.v`) |
| C156 | `BitsetModel.v`, `BitsetExprModel.v` | laws between operations (`PropBitsetLaws.v`) |
| C157 | `BoolModel.v`: MathUtils and Bitset functions for T = bool | Booleans; AppendBits of the numbers 0 and 1 (`PropBool.v`) |
| C158 | `MathModel.v` | laws between functions, from their specifications (`PropMathLaws.v`) |
| C159 | `ConceptModel.v`: Concepts.hpp, bodies as kinds of operations; Align and IntegralLog2 of floating point | integrality; exact rationals (`PropConcept.v`) |

## Trusted base

* The Rocq kernel (8.16.1; the development is also checked with `coqchk`).
* Axioms: **none** (`SpecFloat` is a definition of IEEE arithmetic on integers and needs none).  Every property theorem is followed by `Print Assumptions`, which answers
  *Closed under the global context* for all of them.  Only the standard library is used.
* The reading of the C++ text by the models.  There is no mechanical link between the headers and the Gallina functions; the
  line citations are there to make the comparison by hand possible.

## Not modelled

* Overload resolution, SFINAE and template instantiation: which overload is called is decided when modelling
  (except in `OverloadModel.v`, for the overload sets named there, and in `TraitsModel.v`, which models the selection of
  specialisations and of functions in `Overload`).
  Value categories are parameters of the functions where they matter.
* TypeTag and compiler glue (DebugBreak, inlining, export and warnings of Prerequisites.hpp).
* Threads (nothing in the library is synchronised; only emissions of signals by several threads are modelled, C147), performance and allocator behaviour other than failure.
* `NazaraAssert` in builds where it is compiled out: for Bitset, the vectors, StackArray, the scalar functions,
  PrivateImpl, SafeCast and MemoryPool (C73, C79, C80, C123-C128).  Elsewhere, what the theorems show as `FAssert` goes on with the code
  after it.
* `std::hash` specialisations other than the one of Flags.

## Findings

Behaviour that the proofs or refutations exposed, or that was noticed while modelling.

* **Bitset.**  Postfix `++` of the bit iterator, `operator<` on different sizes, the size of a moved-from bitset
  and others: see the notes of C06–C18 in `MANIFEST.json`.  With operands of different sizes `~(a & b)` and `~a | ~b` differ, and bitsets that compare equal
  have complements that do not (C151).  `AppendBits` (and `Write`) set the size before the
  blocks are pushed, so a `bad_alloc` leaves a size larger than the storage.
* **Without assertions.**  `Bitset::Set` outside the size writes the unused bits of the last block, which `Count`, `TestAny`,
  `FindFirst` and `==` then see; `++` on the end iterator of a Bitset starts again at the first bit; `FixedVector::insert`
  beyond the end leaves a hole in the storage, which the destructor then destroys.  `AlignPow2` to something that is not a power of
  two gives a number that is not a multiple of it; `TestBit(UInt8/Int8, 9)` answers instead of failing; `PrivateImpl::Emplace` over
  an object leaks it; dereferencing the end iterator of Flags gives the enumerator 4294967295.  `MemoryPool::RetrieveEntryIndex` gives
  the index of another entry when entries are wider than `sizeof(T)`.  A `MemoryPool` with blocks of one entry can be cleared and
  destroyed only in this mode.
* **FixedBitset, HybridBitset.**  Assigning one to itself clears the blocks but not the size, every later access is out of range;
  a capacity in bits is rounded to bytes and used as a number of blocks, so `FixedBitset<UInt64, 8>` holds 64 bits.
* **MathUtils.**  `IntegralLog2` is wrong for values whose upper half is exactly 1 (portable path); `Mod` of the least Int32 or Int64
  and -1 is undefined; `IntegralPow` and `MultiplyAdd` of UInt16 multiply as int and overflow.
  Above the highest power of two of the type `GetNearestPowerOfTwo` never returns and `RoundToPow2` overflows (undefined for Int32, Int64).
* **MathUtils on MSVC.**  `CountBits` of a negative Int8 counts 16 bits, of a long it does not compile, of a negative int on ARM it is
  undefined; `FindFirstBit` and `FindLastBit` of negative Int64 values fail an assertion of `SafeCast` on 32-bit machines in debug.
* **Prerequisites.**  `NAZARA_ASSUME` for GCC lacks parentheses, the fallback of `NAZARA_UNREACHABLE` ends with a semicolon,
  `NazaraUnused` does not parenthesise its argument, `NAZARA_PRAGMA` for the Intel compiler does not make a string of its argument.
* **MathUtils, floating point.**  `Mod` in constant expressions differs from run time (`Mod(1.f, 0.1f)` is 0) and is undefined for large
  quotients; `NumberEquals(inf, inf)` is false; `Approach` can stall; `Lerp(a, b, 1)` can miss or pass `b`; degrees do not survive
  the round trip through radians.  `MultiplyAdd` gives other results with `FP_FAST_FMA` than without, one of them can be
  infinite when the other is not; its `FP_FAST_FMA` version is `constexpr` but calls `std::fma`, which is not.
* **FixedVector, HybridVector, StackVector.**  `push_back`/`emplace` increment `m_size` before constructing, so a throwing
  constructor makes the destructor destroy a missing object; growing `resize`, copy and fill constructors leak on exceptions;
  `HybridVector` spilling with a throwing move destroys objects twice.  By the letter of the standard `data(n)` launders a
  pointer to storage without object in `end()` and `push_back`; the models let it pass.  Elements that use the vector (C140): a
  destructor run by `pop_back` cannot add, one run by `clear` sees destroyed elements within the size, and constructors run by `resize` see the old size.
* **PrivateImpl, re-entrance (C142).**  `Reset` deletes before it clears the pointer, so a destructor that resets its own handle deletes
  the object twice (`std::unique_ptr` clears first); `Emplace` from the constructor of an object being emplaced in the same handle leaks the inner object.
* **Constant expressions (C141).**  `FixedVector` has a destructor that is not constexpr, so nothing built on it is ever a constant; `NumberEquals(a, b)`
  in C++17 is constant only when `a >= b`; `Bitset(const char*)`, `Write`, the non-const index operator and `PlacementNew` never are; `Flags` cannot be looped over.
* **MemoryPool.**  Entries whose destructors free other entries (trees) work with `Free`, but `Clear` and the destructor destroy an object twice when
  an owner has a higher index than what it owns; a destructor that allocates during `Clear` leaks the object or invalidates the loop (C137).
  `Reset` clears bit 1/0 of the block table instead of the block; a throwing constructor leaves an
  entry without object; a `bad_alloc` inside `AllocateBlock` leaves a broken block.
* **Signal.**  Nested emission of the same signal stops the outer one; a callback that disconnects itself and then connects makes
  the emission skip slots; moved signals with one slot keep it; `ConnectionGuard::operator=(Connection&&)` does not compile;
  a callback that disconnects itself is destroyed while it runs, and one whose slot a nested call of itself disconnects last goes on
  without captures (C118); signals with move-only or rvalue reference parameters cannot be emitted.
* **Flags.**  `GetEnumAutoFlag` looks at `E::AutoFlag` and not at `EnumAsFlags<E>::AutoFlag`; `std::hash<Flags>::operator()` is not
  const; without AutoFlag the complement has bits that are no enumerators, and a maximum of 63 or more does not compile.
* **SparsePtr.**  The converting constructor does not adjust to the base class offset; negative strides with 32-bit unsigned indices.
* **Result.**  `Err`/`Ok` hold references and dangle when stored; a valueless variant is possible; `Map` is noexcept;
  `NAZARA_TRY_VALUE` is not hygienic.  `Result<Result<V, E>, E>` built from an rvalue or const lvalue `Result<V, E>` takes over its error
  instead of storing it, from an lvalue it stores it; converting constructors default construct the value first; `Result<void, E>` built
  with `ErrorTag` and no argument is a value; `Err(x)` of a variable moves from it when it becomes a `Result<void, E>` (C138).
* **StackArray, StackVector.**  The macros evaluate the size up to three times, do not check the product and do not align types above
  16 bytes; without alloca `NazaraStackArray` names `Nz::OperatorNew`, which does not exist.
* **CallOnExit.**  Move assignment leaves the source engaged; a throwing functor runs twice.
* **PrivateImpl.**  Copying an empty handle dereferences null; self-assignment of a T that is not assignable uses a dead object;
  a throwing copy leaves a dangling pointer.
* **FunctionRef.**  Made from `&function` it keeps the address of a temporary pointer and dangles (made from `function` it does not); the constraint accepts const
  callables, rvalue-only operators, and callables with a result for a `void` signature, none of which compiles; made from a null function
  pointer, an empty `std::function` or a null FunctionRef of another signature it tests true.
* **EnumArray.**  `operator+`/`-` of the iterator do not compile; it lacks the pointer and reference typedefs; `+=` and `-=` return a copy, so
  `(it += a) += b` advances by `a`; there is no difference, although the category is random access (C136).
* **Iterator traits.**  `std::iterator_traits` of the Bitset iterator has no members (no difference_type); of those of Flags and EnumArray neither before
  C++20; for SparsePtr it says `reference` is `const T&` where `operator*` returns `T&`.
* **TypeList.**  `TypeListApply` forwards rvalue arguments to every functor.
* **TypeName.**  Wrong for names of more than 48 (gcc) or 33 (clang) characters.
* **SafeCast.**  No check for lvalues, enum destinations, `SafeCaster`, `IntegerToPointer`, signed to narrower unsigned; the
  check at the upper limit is off by rounding (2^31 as float to Int32); `UInt64` from 2^63 on is undefined; the
  dynamic type check of downcasts is never compiled in.  Infinities and NaN are refused even by `SafeCast<double>` of a float;
  doubles and integers that are no floats round silently.
* **FunctionRef.**  Const callables do not compile; the nullptr constructor leaves `m_callback` uninitialised.
* **FunctionTraits.**  Noexcept function types, references to them, variadic functions and volatile pointers are not supported;
  `IsFunctor` is false for function pointers and generic lambdas and true for functions `FunctionTraits` rejects; `Overload`
  cannot select among const overloads and knows no volatile functions.
* **TypeTraits.**  `EnumValueCount` is ambiguous for enumerations with both `Count` and `Max`.
* **StringUtils.**  `FromUtf8String(const char8_t*)` returns a view in C++20 and a string in C++17.
* **Constants.**  Only double precision for `long double`; `MinValue<float>()` is positive.
* **Assert.**  `if (a) NazaraAssert(b); else s` runs `s` when `a` and `b` hold, in builds with assertions.
  Messages with arguments are formats, and their output ends in ": ".
* **NAZARA_DEFER.**  Two on one line do not compile; as the substatement of an `if` it runs at once.
* **Prerequisites.**  icc on Linux is taken for gcc; ARM64EC fails to compile; FreeBSD is neither desktop nor mobile; for icc
  `NAZARA_PRAGMA(x)` is `_Pragma(x)` without `#`.
* **Endianness.**  The MIPS test has a typo (`__MISPEB__`); PowerPC is big endian whatever `__BYTE_ORDER__` says.
* **OffsetOf.**  `NazaraOffsetOf` dereferences a null pointer and is never a constant expression; for inherited members it gives the offset
  in the base (a second base's first member gets 0); arrays and const scalars do not compile.
* **Algorithm.**  `CountOf(const char(&)[N])` is declared, preferred for string literals, and not defined.
* **Hash.**  `HashCombine` maps different first values to the same result (for every second value), any number of zeros to 0 with an identity
  `std::hash`, and loses values where `std::size_t` has 32 bits; the hash functors have no const `operator()`.
* **Entries of a pool given back twice.**  `Free(index, NoDestruction)` asserts only that the block's counter is not zero, not that the
  entry is occupied.  After one such return the pool stops with an assertion once the block is full, and objects may be left undestroyed (C148);
  without assertions the counter wraps, and allocation and iteration become undefined (C149).
* **Order of slots.**  `Disconnect` moves the last slot to the place of the one that leaves, so the order of calls is the order of
  connection only as long as the two youngest slots alone are disconnected; after an emission that an exception ended, the same
  disconnection gives another order (C150).
* **Flags from numbers.**  `Flags(BitField)` keeps bits that belong to no enumerator: iteration yields enumerators that do not exist,
  `~~f` and `f ^ 0` differ from `f` (C152).
* **std::swap.**  Swapping two `StackVector`s (`StackArray`s) is undefined if the first has two elements or more; swapping a spilled `HybridVector`
  with an inline one leaks the inline elements; after swapping a `Signal` with several slots with one that has one, that slot can not be disconnected (C153).
* **Connect without memory.**  `ConnectionGuard::Connect` disconnects first: if the new connection fails, the old one is lost as well (C154).
* **AppendBits of negative values.**  `AppendBits(std::int8_t(-1), 8)` on an empty `Bitset<UInt32>` sets all 32 bits of the block, and `Count` returns 32 for
  8 bits: the mask is applied before the conversion to the block extends the sign (C155).
* **bool as an integer.**  `SetBit(false, true)` passes the assertion and sets bit 0 instead of bit 1; `To<bool>()` accepts 8 bits and returns true for
  any of them (C157).
* **Align of floating point numbers.**  Without standard concepts, as in the C++17 build, `Align(6.f, 4.f)` compiles and returns 9 (C159);
  `IntegralLog2Pot(64.f)` compiles and is undefined.
* **Signals and threads.**  `operator()` is const but writes the mutable `m_slotIterator`: two threads that emit one signal have a data
  race, and making the member atomic would not help, since one of them can subscript `m_slots` beyond its end (C147).
* **Signals destroyed or moved by their own callbacks.**  `operator()` goes on with `m_slotIterator` and `m_slots` of a destroyed signal
  (undefined behavior), or of a signal moved from: the slots that follow are not called.
* **Loops over containers that change.**  Freeing entries and resetting bits in the body of the loop is fine; allocating an entry or
  setting a later bit in each round can go on for ever; Clear fails an assertion in the next increment.
* **Overloads.**  A `char` array that is not const is hashed with its terminator and all that follows; `HashCombine(x, y)` with a
  `std::size_t` variable `x` changes `x` and returns `void`; `Bitset::Set(5)` and `SparsePtr(p, 4u)` are ambiguous; `Bitset(0, n)`
  reads from a null pointer; `Bitset(buffer)`, `FixedVector<int, 8>(3, 7)` and `SparsePtr<const T> - SparsePtr<T>` do not compile;
  `PrivateImpl(Derived*)` constructs a new object.

## Testing the theorems

Models are edited into wrong programs in a scratch copy, and the development rebuilt; `seeded/LOG.jsonl` has one line per attempt:
the definition, the edit, the claim it breaks and the theorems that failed (or the theorems that were tightened as none did).
Where an edit was tried again after tightening, most lines hold the last result; `theorems_tightened` or the note tells that nothing, or only an example or a
lemma, failed at first.

## The library's own tests

The unit tests of `tests/src` are translated into examples that the kernel evaluates on the model.  They show nothing
about all inputs; they are evidence that the model is the code: the authors' expectations of the code hold of the model.

| file | tests |
|---|---|
| `TestsBitset.v` | BitsetTests (Bitset, FixedBitset, HybridBitset; 8, 16, 32 and 64-bit blocks) |
| `TestsVector.v` | FixedVectorTest, StackVectorTest |
| `TestsContainers.v` | MemoryPoolTest, SignalTests |
| `TestsScalars.v` | MathTests, HashTests, EndiannessTest, AlgorithmTests (SafeCast, pointers and integers) |
| `TestsObjects.v` | ResultTests, SparsePtrTests, EnumArrayTest, FlagTests, CallOnExitTests, MovableValueTests, PrivateImplTests, FunctionRefTests |
| `TestsTypes.v` | FunctionTraitsTests, TypeListTests, TypeNameTests, TypeTraitsTests, StringHashTests, StringUtils, PathUtils |

Left out: numbers of copies and moves, a bitset of 1024 * 1024 bits, the exact capacities that the standard library
chooses, lookups in std::map, AssertTests and AttributeTests (nothing is checked there but that they compile).
