# Read by gen_manifest.py.  A claim is "partial" when the property as listed is false of the code, or holds only
# under a side condition; the note says which, and the theorems named *_refuted hold the counterexamples.
def claim(pid, status, note):
    STATUS[pid] = status
    NOTES[pid] = note

claim("C01", "proved", "Any history of the modelled operations on any number of variables, among them SetBlock, assignments through the proxy of operator[], UnboundedReset and Write to a buffer. AppendBits is included with arguments that satisfy C11's side condition, construction from a signed negative value is excluded (C10).")
claim("C02", "proved", "Same histories as C01; the defects of C10, C11, C12 and C18 are the only ways to dirty the storage.")
claim("C03", "proved", "")
claim("C04", "proved", "Any distance, including 0, block multiples and beyond the size.")
claim("C05", "proved", "Any aliasing of destination and operands, any pair of sizes.")
claim("C06", "proved", "")
claim("C07", "proved", "")
claim("C08", "proved", "")
claim("C09", "proved", "")
claim("C10", "partial", "Round trip and weighted sum are proved for unsigned values; the property is refuted for negative signed values, and the size depends on the width of the type.")
claim("C11", "partial", "Proved under the exact side condition; outside it the refutations show an undefined shift (32/64-bit blocks) or stray bits.")
claim("C12", "partial", "Proved when the last byte has no stray bit that falls in the same block; refuted for zero bits and for a partial last byte.")
claim("C13", "proved", "")
claim("C14", "partial", "operator< is characterised exactly; it is right on one block, and refuted otherwise.")
claim("C15", "proved", "")
claim("C16", "partial", "Refuted: the theorem shows the operator never advances the iterator.")
claim("C17", "partial", "The destination is proved; the source is refuted for every non-empty bitset.")
claim("C18", "proved", "For indices below the size; the missing bound check of operator[] is refuted.")
claim("C75", "proved", "")
claim("C19", "partial", "Proved for unsigned types and nonnegative signed values; refuted for negative values (narrow types at run time, int and wider in constant evaluation).")
claim("C20", "partial", "FindFirstBit is proved for every value; FindLastBit for nonnegative values and negative values of 32/64 bits, refuted for negative 8/16-bit values at run time.")
claim("C21", "partial", "Proved for every positive value, of signed and unsigned types, whose upper 32-bit word is not 1; refuted for all the others. The value given for negative numbers is stated exactly.")
claim("C22", "proved", "")
claim("C23", "partial", "Proved for nonnegative offsets (Align) and all offsets (AlignPow2) whose sums fit; Align is refuted on negative multiples.")
claim("C24", "partial", "Proved up to the highest representable power of two; above it RoundToPow2 gives 0 (unsigned), the least value (narrow signed types) or undefined behaviour (int and wider), and GetNearestPowerOfTwo never returns.")
claim("C25", "proved", "SwapBytes on an empty buffer is refuted separately.")
claim("C26", "proved", "")
claim("C27", "proved", "")
claim("C28", "partial", "Clamp is proved; Approach is proved when no sum leaves the range of the type, and refuted otherwise.")
claim("C29", "partial", "Proved for all types but signed 8/16 bits with operands of opposite signs, which are refuted.")
claim("C30", "partial", "Refuted for an unsigned shift count over a logical >>, for UInt16 powers, and for the least Int32 or Int64 modulo -1 (undefined behaviour).")
claim("C31", "proved", "The one exception, that an empty range is not position-checked, is stated as C31_empty_range_refuted.")
claim("C32", "proved", "Element constructors are assumed not to throw.")
claim("C33", "proved", "Once spilled, a wrong pop_back or range is undefined instead of an assertion (C33_spilled_pop_refuted).")
claim("C34", "partial", "Copy construction is proved; assignment is proved except self-assignment of an inline vector and a spilled source over inline elements, both refuted.")
claim("C35", "partial", "Same exceptions as C34 for move assignment.")
claim("C36", "partial", "Proved for push_back below capacity, insertion after the element, and any spilled vector, StackVector included; refuted otherwise.")
claim("C37", "partial", "Proved inline and for emplace_back/insert; refuted for push_back once spilled.")
claim("C38", "proved", "Element constructors are assumed not to throw; as in C31 an empty range is not position-checked. StackVector has no reserve.")
claim("C39", "partial", "Proved for at most one element (move construction) and for equal sizes (move assignment); refuted otherwise.")
claim("C76", "partial", "front() of an empty array is not checked (C76_front_refuted).")

claim("C40", "proved", "Over every history of Allocate (constructing or deferred), Free, Free(NoDestruction), Clear and user construction and destruction: the pool hands out the indices of the slot specification; Allocate always succeeds, its entry was not allocated, every allocated entry keeps its pointer, and pointers are distinct when the blocks do not overlap. Clear is excluded for a block size of 1 (see C46).")
claim("C41", "proved", "Counters equal the specification, a block is added only when no entry is free, Allocate takes the lowest free index, Free makes exactly that index available again.")
claim("C42", "proved", "For entries whose stride is sizeof(T): RetrieveFromIndex and RetrieveEntryIndex are inverse; addresses are stable through any history without Clear; unallocated indices are refused by an assertion.")
claim("C43", "partial", "Refuted: when the alignment makes the stride larger than sizeof(T), RetrieveEntryIndex never returns the index of an entry that is not the first of its block (it returns InvalidIndex, asserts or is undefined). Proved for the first entry of each block.")
claim("C44", "proved", "Iteration visits the allocated entries in ascending order, once each, with the pointer RetrieveFromIndex gives.")
claim("C45", "partial", "Refuted: Reset calls Bitset::Reset(true/false), which clears bit 1 or 0 instead of the whole set. From every reachable pool that holds something, fewer allocations than the capacity succeed before one asserts; a concrete run then iterates over destroyed entries and destroys them twice. Proved: Reset destroys each object once and zeroes the counters.")
claim("C46", "partial", "Free destroys exactly its object, Clear and the destructor destroy exactly the remaining ones (block size >= 2, every entry constructed), NoDestruction leaves memory alone. Refuted: with block size 1 Clear and the destructor assert when something is allocated; move assignment leaks the target's objects; Free(NoDestruction) accepts an entry that is already free.")
claim("C47", "proved", "For every world reachable by creating, destroying, moving (see C52), connecting, disconnecting, clearing and emitting, whatever callbacks did in earlier emissions. Fewer than 2^64 - 4 slots.")
claim("C48", "proved", "Callbacks may disconnect any connection and clear any signal that exists; termination is proved too.")
claim("C49", "partial", "Holds for every emission that ends, if no callback connects to the signal after disconnecting itself. Refuted in general: the first slot disconnecting itself and then connecting ends the emission. Emission inside callbacks is C51.")
claim("C50", "proved", "All connections of all reachable worlds. ConnectionGuard::operator=(Connection&&) does not compile when instantiated and is not modelled.")
claim("C51", "partial", "Refuted: for every slot count and position k, when the callback at position k emits again the outer emission calls only the first k + 1 slots. It holds when the emitting slot is the last one.")
claim("C52", "partial", "Holds when the source is empty and inline, or spilled into the std::vector with a target that is empty or spilled (always for two or more slots on the source and none or several on the target). Refuted for a source with a single inline slot (undefined behaviour on emitting the source, or the slot called by both) and for a spilled source with a target holding an inline slot (slot leaked).")
claim("C53", "proved", "For signed and unsigned char. Texts without terminator are undefined behaviour.")
claim("C54", "partial", "The (UInt8*, size) overloads are FNV-1a for all bytes; the text overloads are when char is unsigned or all bytes are below 0x80. Refuted otherwise: with signed char every text whose only byte above 0x7F is the last gets another hash.")
claim("C55", "proved", "HashCombine(seed, v) for every seed; HashCombine(v, args...) in its last argument, given a lossless std::hash<std::size_t>.")
claim("C77", "proved", "")
claim("C56", "partial", "Proved for every expression over Set, Clear, Test and all operators, for numbered enumerators and for the bits of enumerators declared by value. Refuted for enumerators declared by value (1, 2, 4, ...): the complement contains bits that are no enumerator.")
claim("C57", "proved", "Numbered enumerators up to 64 values; enumerators declared by value up to bit 31 (C58 for the rest).")
claim("C58", "partial", "Refuted: enumerators of value 32 or more, 64 enumerators, iteration over flags declared by value beyond bit 31. Proved: expressions naming enumerators below 32, and the set operations on bitfields, up to 63 enumerators.")
claim("C59", "partial", "Proved, in ISO and flat memory, whenever index * stride is representable in the promoted index type; ++ and -- without condition. Refuted: UInt32 indices with a negative or over-long product, int overflow for narrower indices, std::size_t indices over a negative stride in ISO C++, differences with stride 0.")
claim("C60", "proved", "The stated property, for positive strides. For negative strides the order is reversed (C60_negative_stride_refuted).")
claim("C78", "partial", "Holds for a base class at offset 0 only; refuted for every other offset.")
claim("C61", "partial", "Accessors, conversions and GetValueOr are proved for all results. That exactly one of IsOk/IsErr holds is proved over every history when the payload moves do not throw (copies may); refuted otherwise: an assignment that throws while changing sides leaves neither.")
claim("C62", "proved", "Functors are state transformers that may fail. Result<V,E>, Result<void,E> and void functors. Map's noexcept ignores a throwing error copy (C62_noexcept_refuted).")
claim("C63", "proved", "Bodies mixing NAZARA_TRY and NAZARA_TRY_VALUE with arbitrary steps; all steps of one body share V and E.")
claim("C64", "partial", "Holds for Result<V,E>; refuted for Result<void,E>, which moves out of the variable.")
claim("C65", "proved", "Over every history of construction, default construction, move construction and move assignment. Move assignment swaps, so its source carries the former value of the target (C65_move_assign_source).")
claim("C66", "partial", "Holds for const lvalues; refuted for non-const variables of T or of MovableValue<T>, from which the assignment moves.")
claim("C67", "partial", "Proved for every history when the functor does not throw and does not start by calling its own CallAndReset. Refuted otherwise: a functor that throws out of CallAndReset runs again at destruction; a re-entrant one never stops.")
claim("C68", "partial", "Refuted: the source stays engaged, so both objects call, and the former functor of the target is dropped. Holds with an empty target and a source reset by hand. Needs an assignable functor type (std::function, function pointer), as the move assignment is deleted otherwise.")
claim("C69", "partial", "Proved over every history in which copies come from non-empty handles, Emplace is on empty handles, a T that is not copy assignable is not self-assigned and its copy does not throw while replacing an object. Each condition is refuted otherwise (except Emplace, which asserts). For the buffered version: no self-assignment, no throwing assignment.")
claim("C70", "proved", "For every underlying type and number of enumerators 0..n-1 representable in it, every array and every loop body; random access and comparisons of the iterators too. operator+ and operator- of the iterator do not compile and are not modelled.")
claim("C71", "proved", "Types are elements of any type with decidable equality. For lists shorter than 2^64-1. An rvalue argument of TypeListApply reaches the second functor already moved from (C71_apply_rvalue).")
claim("C74", "proved", "Programs over any number of callables and FunctionRefs; calls through null or dangling FunctionRefs are undefined (C74_null).")
claim("C72", "partial", "Exact: with gcc's signature text the name is right iff it has at most 48 characters, with clang's iff at most 33; with MSVC's up to 57. Longer names are cut at the last ; or ] (MSVC: >) near enough (C72_cut_refuted), or else come with the end of the signature (C72_long_refuted, C72_long_others_refuted).")
claim("C73", "partial", "Exact for prvalues of every pair of integer types except from a signed type to a narrower unsigned type, which checks nothing but the sign (refuted). Refuted too for variables (From is deduced as a reference, so no check is compiled), enum destinations, SafeCaster, IntegerToPointer and bool destinations.")
claim("C79", "partial", "Exact for prvalues whose truncation fits long long, except at the first value above the limit when the limit is not representable in the float type; every value returned is right. Refuted at that value (2^31 as a float to Int32), for UInt64 from 2^63 on and for variables.")
claim("C80", "partial", "Refuted: std::is_base_of is asked about pointer and reference types, so the check is never compiled in; a wrong downcast is undefined behaviour. Right downcasts succeed.")
claim("C81", "proved", "For both vectors and throwing or non-throwing moves. After an exception the elements may be moved-from.")
claim("C82", "partial", "Refuted: m_size is incremented before the construction, so after the exception the destructor destroys an object that does not exist (undefined behaviour); with throwing moves emplace can also leak one object. C82_emplace_exactly says which happens when.")
claim("C83", "partial", "Refuted with exact counts: a growing resize, the copy and the fill constructor leak every element constructed before the exception; the range and initializer_list constructors have undefined behaviour. All succeed when nothing throws.")
claim("C84", "partial", "Strong guarantee proved for elements whose move does not throw, when the vector is full or already uses its fallback (with room left in the inline storage C82 applies). Refuted for throwing moves: undefined behaviour in the destructor.")
claim("C85", "partial", "Refuted: after a throwing constructor the entry counts as allocated, and Free, Clear, Reset and the destructor have undefined behaviour; Free(index, NoDestruction) repairs it. A bad_alloc inside AllocateBlock leaves a block that makes the next Allocate fail, though destruction still works.")
claim("C86", "partial", "The worlds of C47-C52 are those reached with exceptions too, so all of them hold after any number of exceptions. Refuted for a callback that emits its own signal again and swallows the exception: the outer emission goes on after the slot that threw.")
claim("C87", "proved", "Without -ffast-math.")
claim("C88", "partial", "Exactly: the difference rounded to nearest is compared (C88_rounded). Symmetry, agreement of the two paths, reflexivity for finite numbers and completeness (difference at most d implies true) for every format; conversely true implies a difference below any number greater than d. Refuted: the rounded difference can be d when the exact one is more; an infinity does not equal itself.")
claim("C89", "partial", "Exact for all values that are not NaN, infinities included, and for reversed limits. Refuted for NaN, which is returned as it is; NaN limits are ignored.")
claim("C90", "partial", "Between value and objective, exactly the objective when the increment covers the distance, and monotone in the value, for every finite value, every objective and every non-negative increment. Refuted: repeated application may stall (2^24 by steps of 1 in float); from minus infinity by infinite steps gives NaN.")
claim("C91", "partial", "Monotone in the factor, never before the start for factors from 0 on nor beyond what factor 1 gives for factors up to 1, when the difference does not overflow; factor 0, factor 1 when the difference is representable, equal ends for every finite factor. Refuted otherwise: factor 1 can miss the end and pass it, factor 0 gives NaN when b - a overflows.")
claim("C92", "partial", "Odd and monotone for every format and every value, accurate up to two roundings and a round trip up to four (normal results); half, quarter and whole turns exact in float, half turns in double. Refuted: one degree does not survive a round trip in float, nor three in double.")
claim("C93", "partial", "At run time the remainder is exact. The paths agree for integers below 2^prec and 2^63, for a dividend smaller than the divisor and for a zero dividend, in every format. Refuted: 1 mod 0.1f is 0 in a constant expression; an infinite divisor gives NaN; a quotient of 2^63 or more is undefined.")
claim("C94", "partial", "Bytes, lengths and addresses kept and round trips proved for strings, views and pointers; pointers without a zero are undefined behaviour. Refuted for FromUtf8String(const char8_t*) in C++20: it returns a view of the caller's buffer, while the C++17 overload returns a string.")
claim("C95", "proved", "Through a pointer, a text is the part before its first zero (C95_embedded_zero).")
claim("C96", "proved", "Undefined behaviour for a missing key when assertions are disabled.")
claim("C97", "proved", "Windows conversions modelled as UTF-8 to UTF-16 and back, invalid input throwing.")
claim("C98", "proved", "Except for bool as a destination, which is undefined for bytes other than 0 and 1 (stated in C98_defined).")
claim("C99", "proved", "NazaraOffsetOf is taken as the offset the compiler gives it; formally the macro dereferences a null pointer.")
claim("C100", "partial", "Proved exactly, for every type C++ can form. Refuted for noexcept function types and references to them, although pointers to them work, for variadic functions and for volatile pointers.")
claim("C101", "partial", "Never ambiguous, and exact for classes. Refuted for function pointers and references (false although FunctionTraits works), and for variadic and noexcept functions (true although it does not); false for generic lambdas.")
claim("C102", "partial", "Proved exactly: selected iff the only function with these parameters, volatile and variadic ones not counted, and no template in the set. Refuted for member functions overloaded on const, which the parameters alone cannot tell apart, and for volatile ones.")
claim("C103", "partial", "Refuted only for enumerations that have both Count and Max: the two partial specialisations are ambiguous.")
claim("C104", "partial", "Nearest in float and double, pi being the limit of Machin's series. Refuted for long double, as the literals are doubles, and for MinValue of floating point types, which is the smallest positive normal number.")
claim("C105", "partial", "Refuted when followed by else without braces: the macro ends in an if, which takes the else. Proved for every program in which no assertion stands directly before an else, and for conditions without side effects.")
claim("C106", "partial", "The fast version rounds the exact value once; the other gives the same when the product is representable (all integers of at most prec bits), and both are monotone. Refuted otherwise: the product is rounded first, so the result can be 0 instead of 2^-46, infinite instead of finite, NaN instead of infinite. Integers: exact when product and sum are representable, modular for UInt8, UInt32, UInt64; UInt16 operands and overflowing products are undefined.")
claim("C107", "partial", "Proved for sizes without side effects whose bytes fit in std::size_t and alignments that divide 16. Refuted otherwise: the size is evaluated two or three times, so i++ constructs elements outside the memory, depending on the order of evaluation; the product wraps; alloca aligns to 16 only.")
claim("C108", "partial", "try/finally for every block whose deferred code does not throw. Refuted: two on one line, or in one macro, do not compile; as the substatement of an if it runs at once; deferred code that throws ends the program.")
claim("C109", "partial", "Text and end of the program proved for all messages without arguments and for messages with arguments that are valid formats. Refuted: with arguments a stray % is undefined behaviour; a line number from 2^31 on is undefined behaviour (unsigned printed with %d).")
claim("C110", "partial", "One compiler, one platform, the only architecture defined, the user's byte order or that of __BYTE_ORDER__. Refuted: icc on Linux is taken for gcc, ARM64EC is an error, PowerPC with little endian order is taken for big endian, versions with minor 100 or more, FreeBSD is neither desktop nor mobile.")
claim("C111", "proved", "Loops that compare with != and dereference as std::reverse_iterator does, after any accepted history (StackArray: any contents). capacity and max_size are not modelled.")
claim("C112", "partial", "Every history without self-assignment, element accesses of the containers with their assertions. Refuted for self-assignment of a FixedBitset (or of a HybridBitset with inline blocks): the blocks are lost and the size stays.")
claim("C113", "partial", "Pointers, strings, views and const arrays proved. Refuted for arrays that are not const: the template is selected, which hashes the terminator and all that follows. HashCombine(x, y) with a std::size_t variable x changes x and returns nothing.")
claim("C114", "partial", "Proved for Reset, Bitset(value) and Bitset(size, value). Refuted: Bitset::Set(5) is ambiguous for every type but bool and std::size_t, Bitset(0, n) reads characters from a null pointer, SparsePtr(p, 4u) is ambiguous, FixedVector<int, 8>(3, 7) does not compile.")
claim("C115", "partial", "Proved for the overload sets as declared. Refuted: Bitset of a char buffer or char* selects the template for integers and does not compile, PrivateImpl of a pointer to a derived class constructs an object from it, SparsePtr<const T> minus SparsePtr<T> does not compile, CountOf of a string literal has no definition.")
claim("C116", "proved", "Histories of guards created empty and connected through the guard (guards made from connections that are still held elsewhere are C50), fewer than 2^64 - 5 operations; undefined exactly when a destroyed guard or a signal that does not exist is used.")
claim("C117", "partial", "Proved for parameters passed by value, const reference and reference. Refuted for move-only types and rvalue references: the callbacks are called with lvalues, so such signals cannot be emitted.")
claim("C118", "partial", "Proved, for all behaviours of all callbacks and nested emissions at every depth: captures can be used exactly as long as the slot is still connected to the signal that called it, so callbacks that nobody disconnects, of signals nobody clears, can always use them. Refuted otherwise: disconnecting itself or clearing its signal destroys the running callback, and any later use of its captures is undefined; ending the own slot last is enough without nested emission, and not enough with it.")
claim("C119", "partial", "Proved apart from these: on x86 and x64 CountBits counts 8 more bits for a negative Int8 and does not compile for long; on ARM it is undefined for negative values of int and wider. FindLastBit gives 32 for negative Int8 and Int16. In debug on 32-bit machines FindFirstBit asserts for negative Int64 values with a zero lower half, FindLastBit for all negative Int64 values.")
claim("C120", "partial", "Proved for numbered enumerators; which declarations are required is proved exactly. Refuted: EnumAsFlags<E>::AutoFlag is ignored and an enumerator AutoFlag does not compile; for enumerators declared by value the maximum counts bits, and from a maximum of 64 on the complement does not compile.")
claim("C121", "partial", "Proved for NAZARA_LIKELY and NAZARA_UNLIKELY, for NAZARA_UNREACHABLE inside braces and for the two evaluation macros before blocks. Refuted: the GCC form of NAZARA_ASSUME has one pair of parentheses too few (reached by compilers with __GNUC__ of 13 or more without the standard attribute); the fallback of NAZARA_UNREACHABLE cannot stand before else; from C++23 on the evaluation macros need braces; without compiler support constexpr functions take the run-time path; NazaraUnused of an expression with an operator does not compile.")
claim("C122", "partial", "Proved for Resize, UnboundedSet and the logical operators. Refuted for AppendBits and Write: the size is changed before the blocks exist, so reading the last bits is out of range after the exception; the old bits are kept and Resize to the former size restores the bitset.")
claim("C123", "partial", "Histories whose assertions hold give the same results in both modes (proved). Violations: Set outside the size writes the unused bits of the last block, so that counting, searching and comparing see them (refuted), and is undefined past the blocks; FindNext from the end starts again at the first bit; GetBlock, SetBlock, Test and operator< outside are undefined or read unused bits; To of a too narrow type truncates or is undefined.")
claim("C124", "partial", "Histories whose assertions hold give the same results in both modes (proved). Violations are undefined, with three exceptions (proved exactly): Reserve beyond the capacity and erasing an empty range anywhere do nothing, and inserting beyond the end of a vector with room succeeds and leaves a hole, over which reading and the destructor are undefined (refuted).")
claim("C125", "partial", "Histories whose assertions hold give the same results in both modes (proved). Violations are undefined, except that erasing an empty range anywhere does nothing and that inserting beyond the end of a vector with room leaves a hole, over which reading and the destructor are undefined (refuted).")
claim("C126", "partial", "Calls whose assertions hold give the same results in both modes (proved). Violations with a silent result: a bit index between the width of a narrow type and 31 (nothing changes, TestBit of a negative number is true), IsPow2 of 0 is true, AlignPow2 to 0 gives 0, AlignPow2 of 1 to any number that is not a power of two is not a multiple of it, the stride of a SparsePtr wraps, PrivateImpl::Emplace over an object leaks it (all refuted, proved in general).")
claim("C127", "partial", "Every history within the contract has the specified effect, blocks of one entry included (with assertions Clear fails for those), and histories that end do so in the same way in both modes (proved). Refuted: RetrieveFromIndex gives the address of a free entry; RetrieveEntryIndex gives the index of another entry when entries are wider than sizeof(T); after Reset an allocation is undefined. Freeing what is not held is undefined (proved). The counter of a block that wraps below zero is not modelled.")
claim("C128", "partial", "Widening keeps every finite value, narrowing accepts exactly the values up to the largest number and keeps those the target has (proved for all formats). Refuted: infinities and NaN are refused although the target has them, narrowing rounds silently, lvalues and release builds turn large values into infinity, integers are never checked and round.")
claim("C129", "partial", "Callables that are not const with one function call operator, functions and function pointers are taken exactly when the result serves, and calls reach them; so are all operator sets through variables, and through temporaries without ref-qualifiers; a temporary argument lives through the call it is passed to (proved). Refuted: const callables and callables with a result for a signature returning void are accepted but do not compile; ref-qualified operators are checked as rvalues and called as lvalues; a FunctionRef variable made from a temporary, &function included, dangles after its declaration and still tests true.")
claim("C130", "proved", "For both overloads that take sized data. The order of x modulo the CRC polynomial is shown to be 2^32 - 1 from the factorisation 3·5·17·257·65537.")
claim("C131", "proved", "The number of leading zeros uses the discrete logarithm of the initial register, checked by matrix powers.")
claim("C132", "partial", "Common suffixes and leading zero bytes proved exactly, for both widths. Refuted: a common prefix separates equal hashes; messages that hash to 0 do so with any number of zero bytes appended; for every hash there are two seeds that HashCombine does not distinguish (so the first of several values can be lost), any number of zeros combines to 0 where std::hash is the identity, and with a 32-bit std::size_t values are lost (with 64 bits they are not, C55).")
claim("C133", "partial", "Proved when the emission ends, which requires that the signal emitted is still there: destroying is clearing, the emission is fair (C49), and programs may go on (the worlds of C47-C52 include those reached this way). Refuted: a callback that destroys the signal being emitted leads to undefined behavior for every behavior besides and every number of slots; a callback that moves it into another signal prevents the slots that follow from being called though they stay connected.")
claim("C134", "partial", "Proved for every body that respects the contract of the pool when the loop ends; bodies that do not allocate make it end after at most as many visits as there are entries; freeing each visited entry empties the pool. Refuted: a body that allocates one entry per visit on a pool without holes before its last entry never ends, a body that clears the pool makes the increment fail an assertion.")
claim("C135", "partial", "The loop is proved equal to one that goes to the least set bit after the current position, as the bits are by then, faults included. It ends if the body does not make the bitset longer; resetting each visited bit visits all and leaves none. Refuted: setting the bit after each visited one with UnboundedSet never ends, Clear in the body makes the increment fail an assertion.")
claim("C136", "partial", "Proved: the operators of the Bitset, Flags and MemoryPool iterators (entries that are not classes) suffice; expressions over SparsePtr compile as over pointers except n + p and compute the same; those over EnumArrayKvIterator do if the result of += or -= is not changed. Refuted: the lists of what is missing from EnumArrayKvIterator (nine items; (r += x) += y advances by x), SparsePtr (reference is const T&, n + p) and MemoryPoolIterator (->); no iterator_traits for the Bitset iterator and, before C++20, for those of Flags and EnumArray.")
claim("C137", "partial", "Proved: nested Allocate and Free act on the pool as on a row of slots (C137_nested), what is freed twice or while under construction or destruction faults (C137_misuse), trees of any shape are freed as a whole (C137_tree), and Clear and the destructor work if every object belongs to one tree and owners come before what they own (C137_clear_partial). Refuted: an owner after what it owns makes Clear destroy an object twice or assert (C137_clear_refuted); destructors that allocate during Clear leak or leave the loop with a dangling reference (C137_clear_allocating_refuted).")
claim("C138", "partial", "Proved for all types: copies and moves, Ok and Err, conversions between Results, objects of the value type except as follows. Refuted: an rvalue or const lvalue of type Result<V, E> given to Result<Result<V, E>, E> is converted, so an inner error becomes the outer one, while an lvalue is stored (C138_nested_refuted); converting constructors default construct a value first, and do not compile without default constructor although std::is_convertible accepts them, as it accepts Ok of anything (C138_convertible_refuted); Result<void, E>(ErrorTag) without arguments is a value and with two or more does not compile (C138_error_tag_refuted).")
claim("C139", "partial", "Proved exactly: it compiles for unambiguous data members that are not arrays and have no qualifiers unless of class type, and gives the offset in the class that declares them; so the right one for own members and for bases at the start. Refuted: &T::m has the type of a pointer to member of the base, so members of a second base, or of a base behind the pointer to virtual functions, get the offset of another member; arrays, const scalars, nested members and, in C++17, members of abstract classes do not compile; it is never a constant expression. AccessByOffset: proved.")
claim("C140", "partial", "Proved: every nesting without resize does what a specification on the elements alone says, with the same faults; constructors that add (trees, in preorder), destructors that pop what they own, and clear with destructors that add, all destroyed once if they fit. Refuted: a destructor run by pop_back that adds constructs in its own place; one run by clear that reads the vector, or clears it, meets elements already destroyed; a constructor run by resize that adds constructs in its own place, and one that pops leaves a hole below the size.")
claim("C141", "partial", "Proved: literal types by their subobjects; each class literal exactly when what it holds permits, from C++17 or C++20; for each modelled call, exactly when it is constant. Refuted: FixedVector and the bitsets on it are never literal, bitsets from C strings, Write, the reference to a bit, PlacementNew and ByteSwap of long double are never constant, NumberEquals in C++17 only if its first argument is not the smaller, converting a Result and moving a MovableLiteral only from C++20, loops over Flags only if empty. Rules are those of the standards; compilers accept some more. Each function is modelled by the steps that matter to constant evaluation.")
claim("C142", "partial", "Proved: if objects use only handles declared before their own, and merely access their own, then every program ends, nothing undefined happens, each handle holds exactly its living object, and after the scope ends all objects created are destroyed; only the assertion of Emplace can fail. Refuted: a destructor that resets its own handle deletes twice, one that emplaces in it fails the assertion, a constructor that emplaces in its own handle leaks the inner object, a destructor that uses a handle declared later uses an ended handle.")
claim("C143", "partial", "Proved: the exact text written for every stream state; sequences of bitsets that are not empty read back as they were when no width is set; padding on the left with 0 adds zero bits at the top. Refuted: an empty bitset is lost, padding on the right with 0 moves the bits up, padding with other visible characters fails the assertion of the constructor. Extraction is that of std::string; the library has none.")
claim("C144", "proved", "C144_text_refuted: assigning a text replaces the storage, so memory reserved before is lost. Copy assignment of std::vector is taken to reuse storage that is large enough, which the standard leaves open.")
claim("C145", "proved", "C145_returns_refuted: a HybridVector never returns to its inline storage, not even after clear(). Arguments that refer to an element of the vector itself are the subject of C33.")
claim("C146", "partial", "Proved for all programs that allow it, ends of pools with blocks of one entry excepted (C46). Refuted for move assignment: exactly the objects the target held are never destroyed (C146_assign_refuted), so nothing is lost exactly if every assignment is to a pool without objects (C146_nothing_lost); a pool assigned to itself loses everything (libstdc++).")
claim("C147", "partial", "Proved if no two threads emit a common signal (C147_separate), and in general if the program holds a mutex of the signal around each emission, with emissions of one signal following one another, without deadlock and in a number of steps known in advance (C147_guarded, C147_ends). Refuted otherwise although operator() is const: a data race is reachable exactly if two threads emit a common signal (C147_race_exactly), and even with an atomic m_slotIterator there are schedules that subscript m_slots out of range, that call no slot and that call a slot twice, for every number of slots (C147_atomic_refuted). Slots that connect or disconnect are not part of this model (C47, C51).")
claim("C148", "partial", "Refuted: the assertion notices the return exactly if the block is believed empty (C148_refused_exactly). Otherwise the counter of the block is too low by the number of such returns (C148_counters); the pool then hands out at most the entries that are free, adds no block, and asserts at the next allocation (C148_stops_refuted); Clear and the destructor leave out a block believed empty, so live objects in it are never destroyed (C148_lost_refuted). What holds: every history goes exactly as a specification that counts the returns too many says (C148_history), that agrees with C40's on histories within the contract (C148_conservative), and an entry in use is never handed out again (C148_never_shared). Assertions enabled; no Clear with block size 1.")
claim("C149", "partial", "Refuted: no such return is noticed (C149_unnoticed_refuted). An allocation is undefined exactly when it comes to a full block with a return too many (C149_undefined_exactly), which happens after at most as many allocations as entries are free (C149_stops_refuted); begin() is undefined exactly when the first block not believed empty holds nothing (C149_begin_exactly); Clear and the destructor leave out a block with as many returns too many as entries (C149_lost_refuted). What holds: histories go as specified with counters modulo 2^64 (C149_history, C149_counters), as with assertions where those hold (C149_conservative), and an entry in use is never handed out again (C149_never_shared). The bounds on returns too many (less than 2^64) are hypotheses of the exact statements.")
claim("C150", "partial", "Refuted: with three slots or more, disconnecting the oldest makes the youngest the first to be called (C150_order_refuted). What holds: the order is the one of the specification, where a slot that leaves is replaced by the last one (C150_order); it is the order of connection if only the two youngest slots of a signal are ever disconnected (C150_in_order), and any other disconnection changes it (C150_disconnect_exactly). For any program: there is one order, kept by emissions without changes (C150_one_order), a new slot is called last (C150_connect), and a disconnection has one of two forms (C150_disconnect).")
claim("C151", "partial", "Refuted for operands of different sizes as soon as ~ occurs (C151_laws_refuted): both laws of De Morgan hold exactly under the conditions of C151_de_morgan_and and C151_de_morgan_or, and bitsets that compare equal have equal complements exactly when their sizes agree (C151_not_congruence). What holds: every expression has a value (C151_defined); with operands of one size all laws hold, and nothing but the laws (C151_bits, C151_laws, C151_only_laws); without ~ they hold for all sizes (C151_laws_without_not, C151_congruence_without_not). Shifts add up (C151_shifts_add), lose exactly what is shifted out (C151_shift_back) and distribute over expressions without ~ (C151_shift_left_distributes for one size, C151_shift_right_distributes).")
claim("C152", "partial", "Refuted where the field has bits to spare: such a bit is iterated and counted as an enumerator that does not exist (C152_iteration_refuted), and flags with the same enumerators compare different (C152_equality_refuted). What holds: the stored number is the value modulo the width (C152_stored) and comes back (C152_back); it is a set of enumerators exactly when no bit above the greatest enumerator is set (C152_set_exactly), always with 8, 16, 32 or 64 enumerators (C152_full_fields); iteration and Count see exactly the stored bits (C152_iteration); ~~f, f ^ 0 and f & ~0 drop the other bits, and give f back exactly for sets of enumerators (C152_cleaned, C152_involution_exactly); Test agrees on all enumerators exactly when the numbers agree modulo 2^(max + 1) (C152_same_enumerators).")
claim("C153", "partial", "Proved for the Movable classes, Result (without throwing moves), ConnectionGuard, vectors of which both or none use the std::vector, signals with several slots or none each. StackVector and StackArray: exchanged exactly when the first argument has at most one element, undefined otherwise (the temporary ends with a size and no memory). HybridVector, one inline and one not: the values are exchanged, the inline elements are never destroyed (C153_vector_inside_first_refuted, C153_vector_inside_second_refuted). Signals: with several slots in the first and one in the second, the slot of the second can not be disconnected any more (C153_signal_refuted). A second move of a Result that throws loses the first value (C153_result_throw_refuted). An object swapped with itself is unchanged: Movable classes, all vectors (C153_self_vector), StackVector and StackArray with at most one element.")
claim("C154", "partial", "Proved for the signal (C154_connect, C154_destroyed), for functions given by const reference (C154_function_copied) and for plain connections (C154_others). Refuted for guards, which disconnect first (C154_guard_refuted), and for functions given by rvalue unless the memory for the slot itself was missing (C154_function_lost_refuted).")
claim("C155", "partial", "A value that is not negative is appended as the unsigned one (C155_nonnegative), so C11 applies. A negative one is appended as its representation when the open block has no more room than the type has bits, or, all blocks being full, when the type is at least as wide as a block or not all of its bits are appended (C155_negative_partial, C155_appended_partial). Otherwise bits past the size are set (C155_stray_refuted, C155_open_block_refuted). With more bits than the type has, the sign fills a block and the next one is 0 (C155_longer_refuted).")
claim("C156", "proved", "Equalities are of the stored blocks and sizes, not only of the tested bits. The law of left shifts is stated for equal sizes; for different sizes it is refuted (C156_shift_left_distributes_refuted): a bit of the shorter operand falls off when it is shifted before the operation.")
claim("C157", "partial", "True of bit 0 (C157_bit_zero_partial), of the other functions on numbers (C157_numbers, C157_reverse; MultiplyAdd of 1, 1, 1 gives true), of bitsets made from a bool and of AppendBits (C157_append, C157_append_bits under the conditions of C11). False of bit 1, which passes the assertion: setting it sets bit 0, toggling it twice is not the identity (C157_bit_one_refuted, C157_toggle_twice_refuted). To<bool> tells whether any bit is set (C157_to_bool), which is not the number (C157_to_value_refuted). FindFirstBit, FindLastBit, RoundToPow2 and Approach do not compile for bool.")
claim("C158", "partial", "Everything but the logarithm holds. IntegralLog2 is the index of the last bit except for 64-bit values from 2^32 up to 2^33, for all of which it is not (C158_log2_partial, C158_log2_refuted). Signed types are the subject of C19-C27.")
claim("C159", "partial", "True with concepts (C159_concepts). Without, exactly Align, and IntegralLog2 and IntegralLog2Pot of float, take floating point arguments (C159_floating_refuted), and TestBit, IsPow2 and the logarithms take enumerations. Align of floating point numbers adds alignment - 1, in exact arithmetic, and in floating point arithmetic for powers of two, which is right only when the offset is one more than a multiple (C159_align_value, C159_align_float_refuted, C159_align_refuted); IntegralLog2 of a float is right from 1 to below 2^32 and undefined for negative and larger integers (C159_log2_float, C159_log2_float_refuted); IntegralLog2Pot of a float power of two is right from 1 to 32, zero below 1 and undefined from 64 on, for infinities and for negative powers from 2^-26 on (C159_log2_pot_float_refuted, C159_log2_pot_float_not_finite, C159_log2_pot_float_negative). bool is refused by three functions (C159_bool). The bodies are modelled by the kinds of operations they apply.")
